(** Body canonicalization: proofs. *)
From Verif Require Import Bytes Outcome Stream Canonicalization BytesFacts StreamFacts SpecText SpecMail SpecCanon
  QPFacts ListFacts MailFacts.

(** ** The read loop: the output is that of one pass over the whole body *)
Definition run (mode : canon_mode) (st : body_st) (d : bytes) : body_st := fold_left (body_byte mode) d st.

Lemma run_prefix mode d : forall p n x buf,
  run mode (mkBody p n (buf ++ x)) d =
  mkBody (b_pending (run mode (mkBody p n x) d)) (b_lines (run mode (mkBody p n x) d)) (buf ++ b_buf (run mode (mkBody p n x) d)).
Proof.
  induction d as [|c d IH]; intros p n x buf; [reflexivity|].
  cbn [run fold_left]. change (fold_left (body_byte mode) d ?s) with (run mode s d).
  unfold body_byte. cbn [b_pending b_lines b_buf].
  destruct (c =?c CR); [apply IH|]. destruct (c =?c LF); [apply IH|].
  destruct ((match mode with RELAXED => true | SIMPLE => false end) && is_wsp c); [apply IH|].
  rewrite <- app_assoc. apply IH.
Qed.

Lemma run_app mode st a b : run mode st (a ++ b) = run mode (run mode st a) b.
Proof. apply fold_left_app. Qed.

(** Output of the second part behind that of the first. *)
Lemma run_split mode p n a b :
  let st := run mode (mkBody p n []) a in
  b_buf (run mode (mkBody p n []) (a ++ b)) = b_buf st ++ b_buf (run mode (mkBody (b_pending st) (b_lines st) []) b).
Proof.
  intros st. rewrite run_app. fold st. destruct st as [p' n' x]. cbn [b_pending b_lines b_buf].
  rewrite <- (app_nil_r x) at 1. rewrite run_prefix. reflexivity.
Qed.

Definition take (limit : bool) (size : N) (x : bytes) : bytes := if limit then firstn (N.to_nat size) x else x.
Definition left_over (limit : bool) (size : N) (x : bytes) : N := if limit then (size - N.of_nat (length x))%N else size.

Lemma emit_take limit size x : emit limit size x = (take limit size x, left_over limit size x).
Proof.
  unfold emit, take, left_over. destruct limit; auto. f_equal.
  - destruct (N.le_gt_cases (N.of_nat (length x)) size) as [L|L].
    + rewrite N.min_l by lia. rewrite Nat2N.id, firstn_all. symmetry. apply firstn_all2. lia.
    + rewrite N.min_r by lia. reflexivity.
  - lia.
Qed.
Lemma take_app limit size a b : take limit size (a ++ b) = take limit size a ++ take limit (left_over limit size a) b.
Proof.
  unfold take, left_over. destruct limit; auto. rewrite firstn_app. f_equal. f_equal. lia.
Qed.
Lemma left_app limit size a b : left_over limit size (a ++ b) = left_over limit (left_over limit size a) b.
Proof. unfold left_over. destruct limit; auto. rewrite app_length. lia. Qed.
Lemma take_nil limit size : take limit size [] = [].
Proof. unfold take. destruct limit; auto. apply firstn_nil. Qed.
Lemma left_nil limit size : left_over limit size [] = size.
Proof. unfold left_over. destruct limit; auto. cbn. lia. Qed.

Definition is_nil (x : bytes) : bool := match x with [] => true | _ => false end.

Lemma sread_St chunk s p r : St s p r -> good s = true -> 
  exists s', sread chunk s = (firstn chunk r, s') /\ St s' (rev (firstn chunk r) ++ p) (skipn chunk r) /\
    (length r < chunk -> good s' = false) /\ (chunk <= length r -> good s' = true).
Proof.
  intros (H1 & H2 & _) G. unfold sread. rewrite G, H1, H2, rev_append_rev'. eexists. split; [reflexivity|].
  destruct (Nat.ltb_spec (length r) chunk) as [L|L].
  - split; [split; [reflexivity|]; split; [reflexivity|]; right; apply skipn_all2; lia|].
    split; [reflexivity|lia].
  - split; [split; [reflexivity|]; split; [reflexivity|]; left; reflexivity|].
    split; [lia|reflexivity].
Qed.

Lemma body_loop_spec chunk mode limit : 0 < chunk -> forall f s pr r size p n empty calls,
  St s pr r -> (if good s then length r + 1 else 0) < f ->
  let full := b_buf (run mode (mkBody p n []) r) in
  exists calls' empty' s', body_loop chunk mode limit f s size p n empty calls =
      Ok (calls ++ calls', left_over limit size full, empty', s') /\
    concat calls' = take limit size full /\
    ((limit = true /\ left_over limit size full = 0%N) \/ empty' = empty && is_nil full) /\
    (exists q r', St s' q r').
Proof.
  intros CH. induction f as [|f IH]; intros s pr r size p n empty calls H L full; [lia|]. cbn [body_loop].
  destruct (good s) eqn:G.
  - destruct (limit && (size =? 0)%N) eqn:Z.
    + apply andb_true_iff in Z as [-> Z]. apply N.eqb_eq in Z. subst size.
      exists [], empty, s. rewrite app_nil_r. unfold left_over, take. cbn [N.to_nat firstn].
      split; [do 3 f_equal|]. split; auto. split; [left; auto|eauto].
    + destruct (sread_St chunk s pr r H G) as (s1 & P & H1 & GS & GL). rewrite P.
      pose proof (run_split mode p n (firstn chunk r) (skipn chunk r)) as RS. cbv zeta in RS. rewrite firstn_skipn in RS.
      change (fold_left (body_byte mode) (firstn chunk r) (mkBody p n [])) with (run mode (mkBody p n []) (firstn chunk r)).
      set (st := run mode (mkBody p n []) (firstn chunk r)) in *. rewrite emit_take.
      set (empty1 := match b_buf st with [] => empty | _ => false end).
      destruct (IH s1 _ (skipn chunk r) (left_over limit size (b_buf st)) (b_pending st) (b_lines st) empty1
                 (calls ++ [take limit size (b_buf st)]) H1) as (calls' & empty' & s' & P' & C' & E' & S').
      { destruct (le_lt_dec chunk (length r)) as [K|K].
        - rewrite GL by auto. rewrite skipn_length. lia.
        - rewrite GS by auto. lia. }
      fold full in RS. rewrite RS.
      exists (take limit size (b_buf st) :: calls'), empty', s'. rewrite left_app. split.
      { rewrite P', <- app_assoc. reflexivity. }
      split. { cbn [concat]. rewrite C', take_app. reflexivity. }
      split; [|exact S'].
      destruct E' as [E'|E']; [left; exact E'|]. right. rewrite E'. subst empty1.
      destruct (b_buf st); cbn [app is_nil]; auto. rewrite andb_false_r. reflexivity.
  - destruct H as (H1 & H2 & [H3|H3]); [congruence|]. assert (full = []) as EF by (subst full; rewrite H3; reflexivity). rewrite EF.
    exists [], empty, s. rewrite app_nil_r, left_nil, take_nil, andb_true_r. split; auto. split; auto. split; auto.
    exists (s_prev s), r. split; [reflexivity|]. split; auto.
Qed.

(** The output of one pass, ended. *)
Definition pass (mode : canon_mode) (b : bytes) : bytes :=
  let full := b_buf (run mode (mkBody false 0 []) b) in
  full ++ (if negb (is_nil full) || (match mode with RELAXED => false | SIMPLE => true end) then CRLF else []).

Definition contents (s : istream) : bytes := rev (s_prev s) ++ s_rest s.

(** The body a message parser's offset stands for. *)
Definition body_at (s : istream) (off : Z) (b : bytes) : Prop :=
  (off = (-1)%Z /\ b = []) \/ (exists pre, contents s = pre ++ b /\ off = Z.of_nat (length pre)).

Lemma seekg_St s off pre b : contents s = pre ++ b -> off = Z.of_nat (length pre) ->
  St (seekg off (clear s)) (rev pre) b.
Proof.
  intros E ->. unfold seekg, clear. cbn [s_fail s_prev s_rest s_eof].
  assert (SZ : s_size (mkStream (s_prev s) (s_rest s) false false) = length pre + length b).
  { unfold s_size. cbn [s_prev s_rest]. pose proof (f_equal (@length _) E) as L. unfold contents in L.
    rewrite !app_length, rev_length in L. lia. }
  rewrite SZ. destruct (Z.leb_spec 0 (Z.of_nat (length pre))) as [_|]; [|lia].
  destruct (Z.leb_spec (Z.of_nat (length pre)) (Z.of_nat (length pre + length b))) as [_|]; [|lia].
  cbn [andb]. rewrite rev_append_rev', Nat2Z.id. fold (contents s). rewrite E, firstn_app_exact, skipn_app_exact.
  split; [reflexivity|]. split; [reflexivity|]. left; reflexivity.
Qed.

Lemma body_spec chunk s mode off limit size b : 0 < chunk -> body_at s off b ->
  exists calls s', CanonicalizationBody_ chunk s mode off limit size =
      Ok (calls, negb (limit && (N.of_nat (length (pass mode b)) <? size)%N), s') /\
    concat calls = take limit size (pass mode b).
Proof.
  intros CH BA. unfold CanonicalizationBody_.
  set (full := b_buf (run mode (mkBody false 0 []) b)).
  match goal with |- context [obind ?m _] => assert (X : exists calls empty s', 
    m = Ok (calls, left_over limit size full, empty, s') /\ concat calls = take limit size full /\
    ((limit = true /\ left_over limit size full = 0%N) \/ empty = is_nil full)) end.
  { destruct BA as [[-> ->]|(pre & E & EO)].
    - change full with (@nil ascii). rewrite left_nil, take_nil. cbn. do 3 eexists. split; [reflexivity|]. auto.
    - destruct (Z.eqb_spec off (-1)) as [Z|Z]; [lia|]. cbv zeta.
      pose proof (seekg_St s off pre b E EO) as H. rewrite (St_fuel _ _ _ H).
      destruct (body_loop_spec chunk mode limit CH (S (S (length b))) _ _ b size false 0 true [] H) as (calls & empty & s' & P & C & M & _).
      { destruct (good _); lia. }
      fold full in P, C, M. cbn [andb app] in *. do 3 eexists. split; [exact P|]. split; auto. }
  destruct X as (calls & empty & s' & P & C & M). rewrite P. cbn [obind]. clear P.
  unfold pass. fold full.
  assert (RET : forall x z, z = left_over limit size x -> 
     negb (limit && (0 <? z)%N) = negb (limit && (N.of_nat (length x) <? size)%N)).
  { intros x z ->. unfold left_over. destruct limit; auto. cbn [andb]. f_equal.
    destruct (N.ltb_spec (N.of_nat (length x)) size); [apply N.ltb_lt|apply N.ltb_ge]; lia. }
  destruct M as [(-> & Z)| ->].
  - (* the limit was reached: nothing more is passed on *)
    rewrite Z in *.
    assert (T0 : forall x, take true 0 x = []) by reflexivity.
    assert (L0 : forall x, left_over true 0 x = 0%N) by (intros; unfold left_over; lia).
    rewrite emit_take, T0, L0.
    match goal with |- context [full ++ ?y] => assert (TT : concat calls = take true size (full ++ y)
      /\ left_over true size (full ++ y) = 0%N) end.
    { rewrite take_app, left_app, Z, T0, L0, app_nil_r. auto. }
    destruct TT as [TT1 TT2].
    destruct (negb empty || match mode with RELAXED => false | SIMPLE => true end).
    + do 2 eexists. split; [rewrite (RET _ _ (eq_sym TT2)); reflexivity|].
      rewrite concat_app. cbn [concat app]. rewrite app_nil_r. exact TT1.
    + do 2 eexists. split; [rewrite (RET _ _ (eq_sym TT2)); reflexivity|]. exact TT1.
  - destruct (negb (is_nil full) || match mode with RELAXED => false | SIMPLE => true end).
    + rewrite emit_take. do 2 eexists. split.
      * rewrite (RET (full ++ CRLF)); [reflexivity|]. rewrite left_app. reflexivity.
      * rewrite concat_app. cbn [concat]. rewrite C, take_app, app_nil_r. reflexivity.
    + do 2 eexists. split.
      * rewrite (RET (full ++ [])); [reflexivity|]. rewrite app_nil_r. reflexivity.
      * rewrite app_nil_r. exact C.
Qed.

(** ** One pass and the specification *)
Lemma run_without_cr mode b : forall st, run mode st b = run mode st (without_cr b).
Proof.
  induction b as [|c b IH]; intros st; [reflexivity|].
  cbn [run fold_left without_cr filter]. change (fold_left (body_byte mode) b ?s) with (run mode s b).
  destruct (c =?c CR) eqn:E; cbn [negb].
  - unfold body_byte. rewrite E. apply IH.
  - cbn [run fold_left]. change (fold_left (body_byte mode) ?d ?s) with (run mode s d). apply IH.
Qed.

(** What one line adds to the output: its canonical form [l'], behind the pending line ends. *)
Definition add_out (st : body_st) (l' : bytes) (p : bool) : body_st :=
  match l' with
  | [] => mkBody p (b_lines st) (b_buf st)
  | _ => mkBody p 0 (b_buf st ++ concat (repeat CRLF (b_lines st)) ++ l')
  end.

Lemma body_char mode st c : c <> CR -> c <> LF ->
  (match mode with RELAXED => true | SIMPLE => false end) && is_wsp c = false ->
  body_byte mode st c = mkBody false 0 (b_buf st ++ concat (repeat CRLF (b_lines st)) ++ (if b_pending st then [SP] else []) ++ [c]).
Proof.
  intros N1 N2 W. unfold body_byte. rewrite !ceqb_false by auto. rewrite W. reflexivity.
Qed.
Lemma body_wsp st c : WSP c -> body_byte RELAXED st c = mkBody true (b_lines st) (b_buf st).
Proof. intros [->| ->]; reflexivity. Qed.
Lemma WSP_plain c : WSP c -> c <> CR /\ c <> LF.
Proof. intros [->| ->]; split; discriminate. Qed.

Lemma run_wsps st w : Forall WSP w -> w <> [] -> run RELAXED st w = mkBody true (b_lines st) (b_buf st).
Proof.
  intros F N. revert st. induction F as [|c w W F IH]; [congruence|]. intros st.
  cbn [run fold_left]. rewrite body_wsp by auto. change (fold_left (body_byte RELAXED) w ?s) with (run RELAXED s w).
  destruct w as [|d w]; [reflexivity|]. rewrite IH by discriminate. reflexivity.
Qed.

(** Behind the first byte of a line's output. *)
Lemma run_relaxed_line l l' : relaxed_line l l' -> ~ In LF l -> ~ In CR l -> forall n buf,
  exists p, run RELAXED (mkBody false n buf) l = add_out (mkBody false n buf) l' p.
Proof.
  induction 1 as [w W|c l l' NW R IH|w c l l' NE W NW R IH]; intros N1 N2 n buf.
  - destruct w as [|c w].
    + exists false. reflexivity.
    + exists true. apply run_wsps; auto. discriminate.
  - cbn [run fold_left]. change (fold_left (body_byte RELAXED) l ?s) with (run RELAXED s l).
    rewrite body_char; [|intros ->; apply N2; left; auto|intros ->; apply N1; left; auto|apply not_WSP_b in NW; rewrite NW; auto].
    cbn [b_buf b_lines b_pending app]. destruct (IH ltac:(intros I; apply N1; right; auto) ltac:(intros I; apply N2; right; auto) 0
      (buf ++ concat (repeat CRLF n) ++ [c])) as (p & E). exists p. rewrite E. cbn [add_out b_lines b_buf].
    destruct l'; cbn [add_out repeat concat app b_lines b_buf]; rewrite <- ?app_assoc; reflexivity.
  - rewrite run_app, (run_wsps _ w) by auto. inversion R as [| |w0 c0 l0 l0' NE0 W0]; subst.
    + exfalso. inversion H; subst. auto.
    + cbn [run fold_left]. change (fold_left (body_byte RELAXED) l ?s) with (run RELAXED s l).
      assert (In c (w ++ c :: l)) by (apply in_or_app; right; left; auto).
      rewrite body_char; [|intros ->; auto|intros ->; auto|apply not_WSP_b in NW; rewrite NW; auto].
      cbn [b_buf b_lines b_pending app].
      (* compare with the run from the same line without the whitespace *)
      destruct (IH ltac:(intros I; apply N1; apply in_or_app; auto) ltac:(intros I; apply N2; apply in_or_app; auto) n (buf ++ [])) as (p & E).
      exists p.
      cbn [run fold_left] in E. change (fold_left (body_byte RELAXED) l ?s) with (run RELAXED s l) in E.
      rewrite body_char in E; [|intros ->; auto|intros ->; auto|apply not_WSP_b in NW; rewrite NW; auto].
      cbn [b_buf b_lines b_pending app add_out] in E. rewrite app_nil_r in E.
      cbn [add_out b_lines b_buf].
      replace (buf ++ concat (repeat CRLF n) ++ [c]) with ((buf ++ concat (repeat CRLF n) ++ [c]) ++ []) in E by apply app_nil_r.
      rewrite run_prefix in E. replace (buf ++ concat (repeat CRLF n) ++ [SP; c]) with ((buf ++ concat (repeat CRLF n) ++ [SP; c]) ++ []) by apply app_nil_r.
      rewrite run_prefix. injection E as E1 E2 E3. rewrite E1, E2. f_equal.
      rewrite <- !app_assoc in E3. apply app_inv_head in E3. apply app_inv_head in E3. injection E3 as E3.
      rewrite <- !app_assoc. cbn [app]. rewrite E3. reflexivity.
    + exfalso. destruct w0 as [|x w0]; [congruence|].
      match goal with Q : (x :: w0) ++ _ = c :: l |- _ => injection Q as -> _ end. inversion W0; subst. auto.
Qed.

Lemma run_simple_line l : ~ In LF l -> ~ In CR l -> forall n buf,
  run SIMPLE (mkBody false n buf) l = add_out (mkBody false n buf) l false.
Proof.
  induction l as [|c l IH]; intros N1 N2 n buf; [reflexivity|].
  cbn [run fold_left]. change (fold_left (body_byte SIMPLE) l ?s) with (run SIMPLE s l).
  rewrite body_char; [|intros ->; apply N2; left; auto|intros ->; apply N1; left; auto|auto].
  cbn [b_buf b_lines b_pending app]. rewrite IH; [|intros I; apply N1; right; auto|intros I; apply N2; right; auto].
  destruct l; cbn [add_out repeat concat app b_lines b_buf]; rewrite <- ?app_assoc; reflexivity.
Qed.

Definition is_relaxed (mode : canon_mode) : bool := match mode with RELAXED => true | SIMPLE => false end.
Definition canon_line (mode : canon_mode) (l l' : bytes) : Prop :=
  match mode with RELAXED => relaxed_line l l' | SIMPLE => l' = l end.

Lemma run_line mode l l' : canon_line mode l l' -> ~ In LF l -> ~ In CR l -> forall n buf,
  exists p, run mode (mkBody false n buf) l = add_out (mkBody false n buf) l' p.
Proof.
  destruct mode; cbn [canon_line]; intros C N1 N2 n buf.
  - subst. exists false. apply run_simple_line; auto.
  - apply run_relaxed_line; auto.
Qed.

Lemma run_lf mode st : body_byte mode st LF = mkBody false (S (b_lines st)) (b_buf st).
Proof. destruct mode; reflexivity. Qed.

Lemma crlfs_snoc n : concat (repeat CRLF (S n)) = concat (repeat CRLF n) ++ CRLF.
Proof.
  induction n as [|n IH]; [reflexivity|]. change (concat (repeat CRLF (S (S n)))) with (CRLF ++ concat (repeat CRLF (S n))).
  rewrite IH at 1. rewrite app_assoc. reflexivity.
Qed.

(** The output for a list of lines whose canonical forms are given. *)
Lemma run_lines mode ls : forall ls', Forall2 (canon_line mode) ls ls' -> Forall (fun l => ~ In LF l) ls ->
  Forall (fun l => ~ In CR l) ls -> ls <> [] -> forall n buf,
  (forall k l m, ls' = k ++ l :: repeat [] m -> l <> [] ->
     b_buf (run mode (mkBody false n buf) (lf_joined ls)) = buf ++ concat (repeat CRLF n) ++ joined (k ++ [l])) /\
  (forall m, ls' = repeat [] m -> b_buf (run mode (mkBody false n buf) (lf_joined ls)) = buf).
Proof.
  induction ls as [|l0 ls IH]; intros ls' F2 NL NC NE n buf; [congruence|].
  inversion F2 as [|? l0' ? ls0' C F2']; subst. inversion NL as [|? ? NL0 NL']; subst. inversion NC as [|? ? NC0 NC']; subst.
  destruct (run_line mode l0 l0' C NL0 NC0 n buf) as (p & E).
  destruct ls as [|l1 ls].
  - inversion F2'; subst. cbn [lf_joined]. rewrite E. split.
    + intros k l m EQ N. destruct k as [|x k]; cbn [app] in EQ.
      * injection EQ as -> EQ. destruct l as [|c l]; [congruence|]. reflexivity.
      * injection EQ as _ EQ. destruct k; discriminate.
    + intros m EQ. destruct m; [discriminate|]. injection EQ as -> _. reflexivity.
  - change (lf_joined (l0 :: l1 :: ls)) with (l0 ++ LF :: lf_joined (l1 :: ls)).
    rewrite run_app, E. cbn [run fold_left]. change (fold_left (body_byte mode) ?d ?s) with (run mode s d).
    rewrite run_lf.
    destruct l0' as [|c0 l0']; cbn [add_out b_lines b_buf].
    + destruct (IH ls0' F2' NL' NC' ltac:(discriminate) (S n) buf) as [I1 I2]. split.
      * intros k l m EQ N. destruct k as [|x k]; cbn [app] in EQ; [injection EQ as EQ _; congruence|].
        injection EQ as <- EQ. rewrite (I1 k l m EQ N). rewrite crlfs_snoc, <- !app_assoc. do 2 f_equal.
        cbn [app joined]. destruct (k ++ [l]) as [|y z] eqn:EK; [destruct k; discriminate|reflexivity].
      * intros m EQ. destruct m; [discriminate|]. injection EQ as EQ. apply (I2 m EQ).
    + destruct (IH ls0' F2' NL' NC' ltac:(discriminate) 1 (buf ++ concat (repeat CRLF n) ++ c0 :: l0')) as [I1 I2]. split.
      * intros k l m EQ N. destruct k as [|x k]; cbn [app] in EQ.
        -- injection EQ as <- EQ. rewrite (I2 m EQ). reflexivity.
        -- injection EQ as <- EQ. rewrite (I1 k l m EQ N). cbn [repeat concat]. rewrite app_nil_r.
           cbn [app joined]. destruct (k ++ [l]) as [|y z] eqn:EK; [destruct k; discriminate|].
           rewrite <- !app_assoc. reflexivity.
      * intros m EQ. destruct m; discriminate.
Qed.

Lemma Forall2_self {A} (P : A -> A -> Prop) l l' : (forall x y, P x y <-> y = x) -> (Forall2 P l l' <-> l' = l).
Proof.
  intros H. split.
  - induction 1 as [|x y l l' XY F IH]; auto. apply H in XY. congruence.
  - intros ->. induction l; constructor; auto. apply H. reflexivity.
Qed.
Lemma canon_lines_mode mode ls ls' : canon_lines (is_relaxed mode) ls ls' <-> Forall2 (canon_line mode) ls ls'.
Proof.
  destruct mode; cbn [canon_lines is_relaxed canon_line]; [|tauto].
  symmetry. apply Forall2_self. tauto.
Qed.

Lemma In_lf_joined c ls : (exists l, In l ls /\ In c l) -> In c (lf_joined ls).
Proof.
  intros (l & I & J). induction ls as [|x ls IH]; [destruct I|]. destruct ls as [|y ls].
  - destruct I as [->|[]]. exact J.
  - change (lf_joined (x :: y :: ls)) with (x ++ LF :: lf_joined (y :: ls)). apply in_or_app.
    destruct I as [->|I]; auto. right. right. auto.
Qed.

Lemma without_cr_no b : ~ In CR (without_cr b).
Proof. unfold without_cr. rewrite filter_In. intros [_ H]. rewrite ceqb_refl in H. discriminate. Qed.

Lemma lines_no_cr b ls : lines_of b ls -> Forall (fun l => ~ In CR l) ls.
Proof.
  intros (_ & _ & E). apply Forall_forall. intros l I J. apply (without_cr_no b). rewrite <- E.
  apply In_lf_joined. eauto.
Qed.

Lemma joined_last_nonempty k l : l <> [] -> joined (k ++ [l]) <> [].
Proof.
  intros N. destruct k as [|x k]; [exact N|]. cbn [app joined]. destruct (k ++ [l]) as [|y z] eqn:E; [destruct k; discriminate|].
  destruct x; discriminate.
Qed.

Lemma pass_canonical mode b out : canonical_body (is_relaxed mode) b out -> pass mode b = out.
Proof.
  intros CB. unfold pass. inversion CB as [ls n LO CL|ls k l n LO CL NE]; subst;
    pose proof (lines_no_cr b ls LO) as NC; destruct LO as (NN & NL & E); apply canon_lines_mode in CL;
    rewrite run_without_cr, <- E; destruct (run_lines mode ls _ CL NL NC NN 0 []) as [I1 I2].
  - rewrite (I2 n eq_refl). destruct mode; reflexivity.
  - rewrite (I1 k l n eq_refl NE). cbn [repeat concat app].
    destruct (is_nil (joined (k ++ [l]))) eqn:Z.
    { pose proof (joined_last_nonempty k l NE). destruct (joined (k ++ [l])); [congruence|discriminate]. }
    cbn [negb orb]. apply joined_crlf. destruct k; discriminate.
Qed.

(** ** The specification has a value for every body *)
Fixpoint split_lf (b : bytes) : list bytes :=
  match b with
  | [] => [[]]
  | c :: r => if c =?c LF then [] :: split_lf r
              else match split_lf r with l :: ls => (c :: l) :: ls | [] => [[c]] end
  end.
Lemma split_lf_nonempty b : split_lf b <> [].
Proof. destruct b as [|c b]; cbn; [discriminate|]. destruct (c =?c LF); [discriminate|]. destruct (split_lf b); discriminate. Qed.
Lemma split_lf_joined b : lf_joined (split_lf b) = b.
Proof.
  induction b as [|c b IH]; [reflexivity|]. cbn [split_lf]. pose proof (split_lf_nonempty b) as N. destruct (c =?c LF) eqn:E.
  - apply ceqb_eq in E. subst. destruct (split_lf b) as [|l ls]; [congruence|].
    change (lf_joined ([] :: l :: ls)) with (LF :: lf_joined (l :: ls)). rewrite IH. reflexivity.
  - destruct (split_lf b) as [|l ls]; [congruence|]. rewrite <- IH. destruct ls; reflexivity.
Qed.
Lemma split_lf_no b : Forall (fun l => ~ In LF l) (split_lf b).
Proof.
  induction b as [|c b IH]; cbn [split_lf]; [repeat constructor; auto|]. destruct (c =?c LF) eqn:E.
  - constructor; auto.
  - apply ceqb_neq in E. destruct (split_lf b) as [|l ls]; constructor.
    + intros [->|[]]. auto.
    + constructor.
    + inversion IH; subst. intros [->|I]; auto.
    + inversion IH; auto.
Qed.
Lemma lines_of_exists b : lines_of b (split_lf (without_cr b)).
Proof. split; [apply split_lf_nonempty|]. split; [apply split_lf_no|apply split_lf_joined]. Qed.

Lemma lf_joined_split ls : ls <> [] -> Forall (fun l => ~ In LF l) ls -> split_lf (lf_joined ls) = ls.
Proof.
  induction ls as [|l ls IH]; intros N F; [congruence|]. inversion F as [|? ? Fl F']; subst.
  assert (X : forall rest, split_lf (l ++ LF :: rest) = l :: split_lf rest).
  { intros rest. clear -Fl. induction l as [|c l IH]; cbn [app split_lf]; [rewrite ceqb_refl; reflexivity|].
    rewrite ceqb_false by (intros ->; apply Fl; left; auto). rewrite IH; auto. intros I. apply Fl. right. auto. }
  destruct ls as [|l2 ls].
  - cbn [lf_joined]. clear -Fl. induction l as [|c l IH]; [reflexivity|]. cbn [split_lf].
    rewrite ceqb_false by (intros ->; apply Fl; left; auto). rewrite IH; auto. intros I. apply Fl. right. auto.
  - change (lf_joined (l :: l2 :: ls)) with (l ++ LF :: lf_joined (l2 :: ls)). rewrite X, IH; auto. discriminate.
Qed.
Lemma lines_of_unique b ls : lines_of b ls -> ls = split_lf (without_cr b).
Proof. intros (N & F & <-). symmetry. apply lf_joined_split; auto. Qed.

(** relaxed_line is a function. *)
Fixpoint relax (p : bool) (l : bytes) : bytes :=
  match l with
  | [] => []
  | c :: r => if is_wsp c then relax true r else (if p then [SP] else []) ++ c :: relax false r
  end.
Lemma relax_wsps w l p : Forall WSP w -> w <> [] -> relax p (w ++ l) = relax true l.
Proof.
  intros F N. revert p. induction F as [|c w W F IH]; [congruence|]. intros p. cbn [app relax].
  apply WSP_b in W. rewrite W. destruct w; [reflexivity|]. apply IH. discriminate.
Qed.
Lemma relaxed_relax l l' : relaxed_line l l' <-> relax false l = l'.
Proof.
  split.
  - induction 1 as [w W|c l l' NW R IH|w c l l' NE W NW R IH].
    + destruct w as [|c w]; [reflexivity|]. rewrite <- (app_nil_r (c :: w)), relax_wsps; auto. discriminate.
    + cbn [relax]. apply not_WSP_b in NW. rewrite NW. cbn [app]. congruence.
    + rewrite relax_wsps by auto. cbn [relax] in *. apply not_WSP_b in NW. rewrite NW in *. cbn [app] in *. congruence.
  - intros <-. remember (length l) as n eqn:L. revert l L. induction n as [n IH] using lt_wf_ind. intros l ->.
    destruct (span is_wsp l) as [w r] eqn:E. pose proof (span_app _ _ _ _ E) as A. pose proof (span_all _ _ _ _ E) as F.
    pose proof (span_stop _ _ _ _ E) as ST. apply forallb_WSP in F. destruct r as [|c r].
    + rewrite app_nil_r in A. subst. replace (relax false w) with (@nil ascii); [constructor; auto|].
      destruct w as [|x w]; [reflexivity|]. rewrite <- (app_nil_r (x :: w)) at 1. rewrite relax_wsps; auto. discriminate.
    + subst l. assert (NW : ~ WSP c) by (rewrite <- is_wsp_WSP; congruence).
      assert (R : relaxed_line (c :: r) (c :: relax false r)).
      { constructor; auto. eapply IH; [|reflexivity]. rewrite app_length. cbn [length]. lia. }
      destruct w as [|x w].
      * cbn [app relax]. rewrite ST. exact R.
      * rewrite relax_wsps; auto; [|discriminate]. cbn [relax]. rewrite ST. cbn [app]. apply (rel_run (x :: w)); auto. discriminate.
Qed.

Definition canon_fun (mode : canon_mode) (l : bytes) : bytes := match mode with RELAXED => relax false l | SIMPLE => l end.
Lemma canon_line_fun mode l l' : canon_line mode l l' <-> canon_fun mode l = l'.
Proof. destruct mode; cbn; [intuition|apply relaxed_relax]. Qed.
Lemma canon_lines_fun mode ls ls' : Forall2 (canon_line mode) ls ls' <-> ls' = map (canon_fun mode) ls.
Proof.
  split.
  - induction 1 as [|l l' ls ls' C F IH]; [reflexivity|]. apply canon_line_fun in C. cbn [map]. congruence.
  - intros ->. induction ls; cbn [map]; constructor; auto. apply canon_line_fun. reflexivity.
Qed.

(** Splitting off the empty lines at the end. *)
Lemma trailing_empty (ls : list bytes) : (exists n, ls = repeat [] n) \/ (exists k l n, ls = k ++ l :: repeat [] n /\ l <> []).
Proof.
  induction ls as [|x ls IH]; [left; exists 0; reflexivity|].
  destruct IH as [(n & ->)|(k & l & n & -> & N)].
  - destruct x as [|c x]; [left; exists (S n); reflexivity|]. right. exists [], (c :: x), n. split; [reflexivity|discriminate].
  - right. exists (x :: k), l, n. auto.
Qed.

Lemma canonical_exists r b : exists out, canonical_body r b out.
Proof.
  set (mode := if r then RELAXED else SIMPLE).
  assert (R : r = is_relaxed mode) by (destruct r; reflexivity).
  assert (CL : canon_lines r (split_lf (without_cr b)) (map (canon_fun mode) (split_lf (without_cr b)))).
  { rewrite R. apply canon_lines_mode. apply canon_lines_fun. reflexivity. }
  destruct (trailing_empty (map (canon_fun mode) (split_lf (without_cr b)))) as [(n & E)|(k & l & n & E & N)]; rewrite E in CL.
  - eexists. eapply cb_empty; [apply lines_of_exists|exact CL].
  - eexists. eapply cb_lines; [apply lines_of_exists|exact CL|exact N].
Qed.

Definition mode_of (r : bool) : canon_mode := if r then RELAXED else SIMPLE.
Lemma mode_of_relaxed r : is_relaxed (mode_of r) = r.
Proof. destruct r; reflexivity. Qed.
Lemma canonical_pass r b out : canonical_body r b out <-> out = pass (mode_of r) b.
Proof.
  split.
  - intros C. symmetry. apply pass_canonical. rewrite mode_of_relaxed. exact C.
  - intros ->. destruct (canonical_exists r b) as (out & C). erewrite pass_canonical; [exact C|]. rewrite mode_of_relaxed. exact C.
Qed.
