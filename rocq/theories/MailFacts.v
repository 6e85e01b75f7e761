(** Message parsing: proofs. *)
From Verif Require Import Bytes Outcome Stream MailParser BytesFacts StreamFacts SpecText SpecMail
  QPFacts ListFacts.

(** ** One line *)
Lemma take_line_lf l t : ~ In LF l -> take_line (l ++ LF :: t) = (l, true).
Proof.
  induction l as [|c l IH]; intros N; cbn [take_line app].
  - rewrite ceqb_refl. reflexivity.
  - rewrite ceqb_false by (intros ->; apply N; left; auto). rewrite IH; auto.
    intros I. apply N. right. auto.
Qed.
Lemma take_line_end l : ~ In LF l -> take_line l = (l, false).
Proof.
  induction l as [|c l IH]; intros N; cbn [take_line]; auto.
  rewrite ceqb_false by (intros ->; apply N; left; auto). rewrite IH; auto.
  intros I. apply N. right. auto.
Qed.

(** A line that ends: the stream stays good. *)
Lemma getline_lf s p l t : St s p (l ++ LF :: t) -> ~ In LF l ->
  exists s', getline s = (true, l, s') /\ St s' (rev (l ++ [LF]) ++ p) t /\ good s' = true.
Proof.
  intros (H1 & H2 & [G|G]) N; [|destruct l; discriminate]. unfold getline. rewrite G, H1, H2, take_line_lf by auto.
  replace (length l + 1) with (length (l ++ [LF])) by (rewrite app_length; reflexivity).
  replace (l ++ LF :: t) with ((l ++ [LF]) ++ t) by (rewrite <- app_assoc; reflexivity).
  rewrite firstn_app_exact, skipn_app_exact, rev_append_rev'.
  assert (E : Nat.eqb (length (l ++ [LF])) 0 = false) by (destruct l; reflexivity).
  rewrite E. cbn [negb]. eexists. split; [reflexivity|]. split; [|reflexivity].
  split; [reflexivity|]. split; [reflexivity|]. left. reflexivity.
Qed.
(** The last line without an end. *)
Lemma getline_end s p l : St s p l -> good s = true -> l <> [] -> ~ In LF l ->
  exists s', getline s = (true, l, s') /\ St s' (rev l ++ p) [] /\ good s' = false.
Proof.
  intros (H1 & H2 & _) G NE N. unfold getline. rewrite G, H1, H2, take_line_end by auto.
  rewrite Nat.add_0_r, firstn_all, skipn_all, rev_append_rev'.
  assert (E : Nat.eqb (length l) 0 = false) by (destruct l; [congruence|reflexivity]).
  rewrite E. cbn [negb]. eexists. split; [reflexivity|]. split; [|reflexivity].
  split; [reflexivity|]. split; [reflexivity|]. right. reflexivity.
Qed.
Lemma getline_none s p : St s p [] -> exists l s', getline s = (false, l, s') /\ St s' p [].
Proof.
  intros (H1 & H2 & _). unfold getline. destruct (good s).
  - rewrite H1, H2. cbn. do 2 eexists. split; [reflexivity|]. repeat split; auto.
  - do 2 eexists. split; [reflexivity|]. repeat split; auto.
Qed.

Lemma chop_cr_app l : chop_cr (l ++ [CR]) = l.
Proof. unfold chop_cr. rewrite rev_app_distr. cbn [rev app]. rewrite ceqb_refl. apply rev_involutive. Qed.
Lemma chop_cr_keep l : last_ok (fun c => c <> CR) l -> chop_cr l = l.
Proof.
  unfold last_ok, chop_cr. destruct (rev l) as [|c r]; auto. cbn. intros N. rewrite ceqb_false; auto.
Qed.

(** What the parser does with one non-empty line. *)
Definition add_line (m : message) (l : bytes) : message :=
  match l with
  | [] => m
  | c :: _ =>
      if is_wsp c then
        let h := match m_tmp m with Some h => h | None => new_header end in
        mkMessage (Some (Header_ParseLine h l)) (m_offset m) (m_headers m) (m_done m)
      else mkMessage (Some (Header_ParseLine new_header l)) (m_offset m)
             (m_headers m ++ opt_list (m_tmp m)) (m_done m)
  end.
Definition close_block (m : message) (off : Z) : message :=
  mkMessage None off (m_headers m ++ opt_list (m_tmp m)) true.

Lemma add_line_done m l : m_done (add_line m l) = m_done m.
Proof. destruct l as [|c l]; cbn; auto. destruct (is_wsp c); reflexivity. Qed.

Lemma line_end_chop l e t : line_end l e -> ~ In LF l ->
  exists raw, l ++ e ++ t = raw ++ LF :: t /\ ~ In LF raw /\ chop_cr raw = l /\ rev (raw ++ [LF]) = rev (l ++ e).
Proof.
  intros LE N. inversion LE as [|? LO]; subst.
  - exists (l ++ [CR]). split; [rewrite <- app_assoc; reflexivity|]. split.
    + intros I. apply in_app_or in I as [I|[I|[]]]; auto. discriminate.
    + split; [apply chop_cr_app|]. rewrite <- app_assoc. reflexivity.
  - exists l. split; [reflexivity|]. split; auto. split; [apply chop_cr_keep; auto|]. reflexivity.
Qed.

Lemma ParseLine_line m s p l e t : St s p (l ++ e ++ t) -> l <> [] -> ~ In LF l -> line_end l e ->
  exists s', Message_ParseLine m s = (true, add_line m l, s') /\ St s' (rev (l ++ e) ++ p) t /\ good s' = true.
Proof.
  intros H NE N LE. destruct (line_end_chop l e t LE N) as (raw & E & NR & CH & ER). rewrite E in H.
  destruct (getline_lf s p raw t H NR) as (s' & P & H' & G). rewrite ER in H'. exists s'. split; auto.
  unfold Message_ParseLine. rewrite P, CH. unfold add_line. destruct l as [|c l]; [congruence|].
  destruct (is_wsp c); reflexivity.
Qed.

Lemma ParseLine_blank m s p e body : St s p (e ++ body) -> line_end [] e ->
  exists s', Message_ParseLine m s = (true, close_block m (Z.of_nat (length p + length e)), s') /\
             St s' (rev e ++ p) body /\ good s' = true.
Proof.
  intros H LE. destruct (line_end_chop [] e body LE (fun x => x)) as (raw & E & NR & CH & ER). cbn [app] in E, ER.
  rewrite E in H. destruct (getline_lf s p raw body H NR) as (s' & P & H' & G). rewrite ER in H'. exists s'. split; auto.
  unfold Message_ParseLine. rewrite P, CH. unfold tellg. rewrite G. destruct H' as (-> & _).
  rewrite app_length, rev_length, Nat.add_comm. reflexivity.
Qed.

Lemma ParseLine_last m s p l : St s p l -> good s = true -> l <> [] -> ~ In LF l ->
  (chop_cr l = [] /\ exists s', Message_ParseLine m s = (true, close_block m (-1), s')) \/
  (chop_cr l <> [] /\ exists s', Message_ParseLine m s = (true, add_line m (chop_cr l), s') /\ St s' (rev l ++ p) []).
Proof.
  intros H G NE N. destruct (getline_end s p l H G NE N) as (s' & P & H' & G').
  unfold Message_ParseLine. rewrite P. destruct (chop_cr l) as [|c l'].
  - left. split; auto. unfold tellg. rewrite G'. eexists. reflexivity.
  - right. split; [discriminate|]. exists s'. split; auto. unfold add_line. destruct (is_wsp c); reflexivity.
Qed.

Lemma ParseLine_eof m s p : St s p [] ->
  exists s', Message_ParseLine m s = (false, mkMessage (m_tmp m) (-1) (m_headers m ++ opt_list (m_tmp m)) true, s').
Proof.
  intros H. destruct (getline_none s p H) as (l & s' & P & H'). unfold Message_ParseLine. rewrite P. eauto.
Qed.

(** ** The whole message *)
Definition all_headers (m : message) : list header := m_headers m ++ opt_list (m_tmp m).

Lemma parse_block ls h : header_block ls h -> forall f m s p t, St s p (h ++ t) -> good s = true -> m_done m = false ->
  length (h ++ t) < f ->
  exists f' s', parse_loop f m s = parse_loop f' (fold_left add_line ls m) s' /\ St s' (rev h ++ p) t /\
    good s' = true /\ length t < f' /\ m_done (fold_left add_line ls m) = false.
Proof.
  induction 1 as [|l e ls h NE N LE HB IH]; intros f m s p t H G D L.
  - exists f, s. auto.
  - destruct f as [|f]; [lia|]. cbn [parse_loop fold_left].
    rewrite <- !app_assoc in H. destruct (ParseLine_line m s p l e (h ++ t) H NE N LE) as (s1 & P & H1 & G1).
    rewrite P. rewrite add_line_done, D. cbn [negb andb].
    destruct (IH f (add_line m l) s1 _ t H1 G1) as (f' & s' & E & H' & G' & L' & D').
    { rewrite add_line_done. auto. }
    { rewrite !app_length in L. rewrite app_length. destruct l; [congruence|]. cbn [length] in L. lia. }
    exists f', s'. split; auto. split; auto. rewrite app_assoc, rev_app_distr, <- app_assoc. exact H'.
Qed.

Lemma parse_blank ls h e body : header_block ls h -> line_end [] e ->
  exists m s', parse_all new_message (open_str (h ++ e ++ body)) = Ok (m, s') /\
    m_offset m = Z.of_nat (length (h ++ e)) /\ m_headers m = all_headers (fold_left add_line ls new_message) /\
    m_done m = true /\ St s' (rev (h ++ e)) body /\ good s' = true.
Proof.
  intros HB LE. unfold parse_all. rewrite (St_fuel _ _ _ (St_open _)).
  destruct (parse_block ls h HB (S (length (h ++ e ++ body))) new_message _ _ (e ++ body) (St_open _) eq_refl eq_refl ltac:(lia))
    as (f' & s' & E & H' & G' & L' & D'). rewrite E. destruct f' as [|f']; [lia|]. cbn [parse_loop].
  destruct (ParseLine_blank (fold_left add_line ls new_message) s' _ e body H' LE) as (s2 & P & H2 & G2). rewrite P.
  cbn [negb andb close_block m_done]. do 2 eexists. split; [reflexivity|]. cbn. rewrite app_nil_r in *.
  split; [rewrite rev_length, app_length; auto|]. split; [reflexivity|]. split; [reflexivity|].
  split; [|auto]. rewrite rev_app_distr. exact H2.
Qed.

Lemma parse_unended ls h tail : header_block ls h -> ~ In LF tail ->
  exists m s', parse_all new_message (open_str (h ++ tail)) = Ok (m, s') /\
    m_offset m = (-1)%Z /\ m_done m = true /\
    m_headers m = all_headers (fold_left add_line (ls ++ match chop_cr tail with [] => [] | l => [l] end) new_message).
Proof.
  intros HB N. unfold parse_all. rewrite (St_fuel _ _ _ (St_open _)).
  destruct (parse_block ls h HB (S (S (length (h ++ tail)))) new_message _ _ tail (St_open _) eq_refl eq_refl ltac:(lia))
    as (f' & s' & E & H' & G' & L' & D').
  destruct (parse_block ls h HB (S (length (h ++ tail))) new_message _ _ tail (St_open _) eq_refl eq_refl ltac:(lia))
    as (f2 & s2 & E2 & H2 & G2 & L2 & D2). rewrite E2. clear E E2 H' L' D' G'.
  rewrite fold_left_app. set (m1 := fold_left add_line ls new_message) in *.
  destruct tail as [|c tail].
  - destruct f2 as [|f2]; [lia|]. cbn [parse_loop]. destruct (ParseLine_eof m1 s2 _ H2) as (s3 & P). rewrite P.
    cbn [andb]. do 2 eexists. split; [reflexivity|]. auto.
  - destruct f2 as [|f2]; [lia|]. cbn [parse_loop].
    destruct (ParseLine_last m1 s2 _ (c :: tail) H2 G2 ltac:(discriminate) N) as [(CH & s3 & P)|(CH & s3 & P & H3)].
    + rewrite P, CH. cbn [andb negb close_block m_done]. do 2 eexists. split; [reflexivity|]. auto.
    + rewrite P, add_line_done, D2. cbn [andb negb]. destruct f2 as [|f2]; [cbn [length] in L2; lia|]. cbn [parse_loop].
      destruct (ParseLine_eof (add_line m1 (chop_cr (c :: tail))) s3 _ H3) as (s4 & P4). rewrite P4. cbn [andb].
      do 2 eexists. split; [reflexivity|]. split; auto. split; auto. cbn [m_headers].
      destruct (chop_cr (c :: tail)); [congruence|]. reflexivity.
Qed.

(** Every message is of one of these two shapes. *)
Lemma line_split (raw : bytes) : exists l e, raw ++ [LF] = l ++ e /\ line_end l e /\ (~ In LF raw -> ~ In LF l).
Proof.
  destruct (rev raw) as [|c r] eqn:E.
  - apply (f_equal (@rev _)) in E. rewrite rev_involutive in E. cbn in E. subst. exists [], [LF]. split; [reflexivity|].
    split; [constructor; exact I|auto].
  - apply (f_equal (@rev _)) in E. rewrite rev_involutive in E. cbn [rev] in E. destruct (ascii_dec c CR) as [->|N].
    + exists (rev r), CRLF. rewrite E, <- app_assoc. split; [reflexivity|]. split; [constructor|].
      intros K I. apply K. apply in_or_app. auto.
    + exists raw, [LF]. split; [reflexivity|]. split; [|auto]. constructor. unfold last_ok. rewrite E, rev_app_distr. cbn. auto.
Qed.

Lemma message_shape n : forall t, length t < n -> exists ls h rest, header_block ls h /\ t = h ++ rest /\
  ((exists e body, line_end [] e /\ rest = e ++ body) \/ ~ In LF rest).
Proof.
  induction n as [|n IH]; intros t L; [lia|].
  destruct (take_line t) as [raw [|]] eqn:T.
  - assert (X : exists t', t = raw ++ LF :: t' /\ ~ In LF raw).
    { clear - T. revert raw T. induction t as [|c t IH]; cbn [take_line]; intros raw T; [discriminate|].
      destruct (c =?c LF) eqn:C.
      - injection T as <-. apply ceqb_eq in C. subst. exists t. auto.
      - destruct (take_line t) as [l b]. injection T as <- ->. destruct (IH l eq_refl) as (t' & -> & N).
        exists t'. split; auto. intros [->|I]; auto. rewrite ceqb_refl in C. discriminate. }
    destruct X as (t' & E & NR). destruct (line_split raw) as (l & e & E2 & LE & NL). specialize (NL NR).
    assert (ET : t = l ++ e ++ t').
    { rewrite E, app_assoc, <- E2, <- app_assoc. reflexivity. }
    destruct l as [|c l].
    + exists [], [], t. split; [constructor|]. split; auto. left. exists e, t'. auto.
    + destruct (IH t') as (ls & h & rest & HB & EH & R).
      { rewrite ET, !app_length in L. cbn [length] in L. lia. }
      exists ((c :: l) :: ls), ((c :: l) ++ e ++ h), rest. split; [constructor; auto; discriminate|].
      split; auto. rewrite ET, EH, <- !app_assoc. reflexivity.
  - exists [], [], t. split; [constructor|]. split; auto. right.
    clear - T. revert raw T. induction t as [|c t IH]; cbn [take_line]; intros raw T; [cbn; auto|].
    destruct (c =?c LF) eqn:C; [discriminate|]. destruct (take_line t) as [l b]. injection T as <- ->.
    intros [->|I]; [rewrite ceqb_refl in C; discriminate|]. eapply IH; eauto.
Qed.

(** ** Grouping lines into fields *)
Definition header_of (t : bytes) : header :=
  match find_char COLON t with
  | None => mkHeader [] t 0
  | Some sep => mkHeader (trim_wsp (firstn sep t)) t (S sep)
  end.

Lemma header_of_text t : h_text (header_of t) = t.
Proof. unfold header_of. destruct (find_char COLON t); reflexivity. Qed.
Lemma header_new d : Header_ParseLine new_header d = header_of d.
Proof. unfold Header_ParseLine, header_of, new_header. cbn [h_text h_voff h_name app]. destruct (find_char COLON d); reflexivity. Qed.
Lemma header_more t d : t <> [] -> Header_ParseLine (header_of t) d = header_of (t ++ CRLF ++ d).
Proof.
  intros NE. unfold Header_ParseLine. rewrite header_of_text.
  cbv zeta. assert (EQ : (match t with [] => [] | a :: l => (a :: l) ++ CRLF end) ++ d = t ++ CRLF ++ d).
  { destruct t; [congruence|]. rewrite <- app_assoc. reflexivity. }
  rewrite EQ. clear EQ. unfold header_of. destruct (find_char COLON t) as [sep|] eqn:F; cbn [h_voff h_name].
  - apply find_char_Some in F as (pre & post & E & L & N).
    rewrite E, <- app_assoc. cbn [app]. rewrite find_char_app by auto. rewrite L.
    rewrite <- L. rewrite !firstn_app, firstn_all, Nat.sub_diag. cbn [firstn]. rewrite !app_nil_r. reflexivity.
  - destruct (find_char COLON (t ++ CRLF ++ d)); reflexivity.
Qed.

Lemma joined_snoc g l : g <> [] -> joined (g ++ [l]) = joined g ++ CRLF ++ l.
Proof.
  induction g as [|x g IH]; [congruence|]. intros _. destruct g as [|y g]; [reflexivity|].
  cbn [app]. change (joined (x :: y :: g ++ [l])) with (x ++ CRLF ++ joined ((y :: g) ++ [l])).
  rewrite IH by discriminate. cbn [joined]. rewrite <- !app_assoc. reflexivity.
Qed.
Lemma joined_nonempty g : Forall (fun l => l <> []) g -> g <> [] -> joined g <> [].
Proof.
  intros F NE. destruct g as [|x g]; [congruence|]. inversion F; subst. destruct g; [auto|].
  change (joined (x :: l :: g)) with (x ++ CRLF ++ joined (l :: g)). destruct x; [congruence|discriminate].
Qed.

(** The parser's state as groups of lines: the finished groups and the current one. *)
Definition state_groups (m : message) (gs : list (list bytes)) (cur : list bytes) : Prop :=
  m_headers m = map (fun g => header_of (joined g)) gs /\
  m_tmp m = match cur with [] => None | _ => Some (header_of (joined cur)) end.

Lemma add_groups ls : Forall (fun l => l <> []) ls -> forall m gs cur,
  state_groups m gs cur -> Forall (fun l => l <> []) cur ->
  (forall g, In g gs -> field_lines g) -> (cur <> [] -> field_lines cur) -> (cur = [] -> gs = []) ->
  (forall g rest, gs ++ opt_list (match cur with [] => None | _ => Some cur end) = g :: rest -> Forall starts_field rest) ->
  exists gs', all_headers (fold_left add_line ls m) = map (fun g => header_of (joined g)) gs' /\
    concat gs' = concat gs ++ cur ++ ls /\ Forall field_lines gs' /\
    match gs' with [] => True | _ :: rest => Forall starts_field rest end.
Proof.
  induction ls as [|l ls IH]; intros NE m gs cur (SH & ST) CN FG FC CG FS.
  - cbn [fold_left]. exists (gs ++ match cur with [] => [] | _ => [cur] end).
    unfold all_headers. rewrite SH, ST. split.
    { rewrite map_app. destruct cur; reflexivity. }
    split. { rewrite concat_app. destruct cur; cbn [concat]; rewrite ?app_nil_r; reflexivity. }
    split. { apply Forall_app. split; [apply Forall_forall; auto|]. destruct cur; constructor; [apply FC; discriminate|constructor]. }
    destruct (gs ++ match cur with [] => [] | _ :: _ => [cur] end) as [|g rest] eqn:E; auto.
    apply (FS g). rewrite <- E. destruct cur; reflexivity.
  - inversion NE as [|? ? Nl NE']; subst. cbn [fold_left]. destruct l as [|c l]; [congruence|]. cbn [add_line].
    assert (K : continuation (c :: l) <-> is_wsp c = true).
    { rewrite is_wsp_WSP. split; [intros (x & r & [= -> ->] & W); auto|intros W; exists c, l; auto]. }
    destruct (is_wsp c) eqn:W.
    + edestruct (IH NE' (mkMessage (Some (Header_ParseLine (match m_tmp m with Some h => h | None => new_header end) (c :: l)))
        (m_offset m) (m_headers m) (m_done m)) gs (cur ++ [c :: l])) as (gs' & A & B & C & D); auto.
      * split; [exact SH|]. cbn [m_tmp]. rewrite ST.
        replace (match cur ++ [c :: l] with [] => None | _ :: _ => Some (header_of (joined (cur ++ [c :: l]))) end)
          with (Some (header_of (joined (cur ++ [c :: l])))) by (destruct cur; reflexivity).
        f_equal. destruct cur as [|x cur]; [apply header_new|].
        rewrite header_more by (apply joined_nonempty; [auto|discriminate]). rewrite joined_snoc by discriminate. reflexivity.
      * apply Forall_app. split; auto.
      * intros _. destruct cur as [|x cur]; cbn; [constructor|]. apply Forall_app. split.
        -- apply FC. discriminate.
        -- constructor; [apply K; auto|constructor].
      * destruct cur; discriminate.
      * intros g rest E. replace (match cur ++ [c :: l] with [] => None | _ :: _ => Some (cur ++ [c :: l]) end)
          with (Some (cur ++ [c :: l])) in E by (destruct cur; reflexivity). cbn [opt_list] in E.
        destruct gs as [|g0 gs].
        -- injection E as <- <-. constructor.
        -- injection E as <- <-. destruct cur as [|x cur].
           ++ discriminate (CG eq_refl).
           ++ specialize (FS g0 (gs ++ [x :: cur]) eq_refl). apply Forall_app in FS as [F1 F2]. apply Forall_app. split; auto.
              inversion F2; subst. constructor; auto.
      * exists gs'. split; auto. split; auto. rewrite B, <- !app_assoc. reflexivity.
    + edestruct (IH NE' (mkMessage (Some (Header_ParseLine new_header (c :: l))) (m_offset m)
             (m_headers m ++ opt_list (m_tmp m)) (m_done m)) (gs ++ match cur with [] => [] | _ => [cur] end) [c :: l])
        as (gs' & A & B & C & D); auto.
      * split; cbn [m_headers m_tmp].
        -- rewrite SH, ST, map_app. destruct cur; reflexivity.
        -- rewrite header_new. reflexivity.
      * intros g I. apply in_app_or in I as [I|I]; auto. destruct cur as [|x cur]; [destruct I|]. destruct I as [<-|[]]. apply FC. discriminate.
      * intros _. constructor.
      * discriminate.
      * intros g rest E. cbn [opt_list] in E.
        assert (SF : starts_field [c :: l]) by (cbn; rewrite K; discriminate).
        destruct (gs ++ match cur with [] => [] | _ :: _ => [cur] end) as [|g0 r0] eqn:EG.
        -- injection E as <- <-. constructor.
        -- injection E as <- <-. apply Forall_app. split; [|constructor; auto].
           apply (FS g0). rewrite <- EG. destruct cur; reflexivity.
      * exists gs'. split; auto. split; auto. rewrite B, concat_app. destruct cur; cbn [concat]; rewrite ?app_nil_r, <- ?app_assoc; reflexivity.
Qed.

Lemma fields_of ls : Forall (fun l => l <> []) ls ->
  exists gs, all_headers (fold_left add_line ls new_message) = map (fun g => header_of (joined g)) gs /\
    concat gs = ls /\ Forall field_lines gs /\ match gs with [] => True | _ :: rest => Forall starts_field rest end.
Proof.
  intros NE. destruct (add_groups ls NE new_message [] []) as (gs & A & B & C & D); cbn; auto.
  - split; reflexivity.
  - intros g [].
  - intros g rest E. discriminate E.
  - exists gs. auto.
Qed.

Lemma with_crlf_app a b : with_crlf (a ++ b) = with_crlf a ++ with_crlf b.
Proof. unfold with_crlf. rewrite map_app, concat_app. reflexivity. Qed.
Lemma with_crlf_cons a b : with_crlf (a :: b) = a ++ CRLF ++ with_crlf b.
Proof. unfold with_crlf. cbn [map concat]. rewrite <- app_assoc. reflexivity. Qed.
Lemma joined_crlf g : g <> [] -> joined g ++ CRLF = with_crlf g.
Proof.
  induction g as [|x g IH]; [congruence|]. intros _. rewrite with_crlf_cons. destruct g as [|y g].
  - cbn [joined]. unfold with_crlf. cbn [map concat]. rewrite app_nil_r. reflexivity.
  - rewrite <- IH by discriminate. cbn [joined]. rewrite <- !app_assoc. reflexivity.
Qed.

Definition rejoin (hs : list header) : bytes := concat (map (fun h => h_text h ++ CRLF) hs).

Lemma rejoin_fields ls : Forall (fun l => l <> []) ls ->
  rejoin (all_headers (fold_left add_line ls new_message)) = with_crlf ls.
Proof.
  intros NE. destruct (fields_of ls NE) as (gs & E & <- & FG & _). rewrite E. unfold rejoin. rewrite map_map.
  clear - FG. induction FG as [|g gs F _ IH]; [reflexivity|]. cbn [map concat]. rewrite with_crlf_app, header_of_text.
  rewrite joined_crlf by (destruct g; [destruct F|discriminate]). rewrite IH. reflexivity.
Qed.

Lemma header_block_nonempty ls h : header_block ls h -> Forall (fun l => l <> []) ls.
Proof. induction 1; constructor; auto. Qed.

Lemma chop_cr_lf l : ~ In LF l -> ~ In LF (chop_cr l).
Proof.
  intros N. unfold chop_cr. destruct (rev l) as [|c r] eqn:E; auto. destruct (c =?c CR); auto.
  apply (f_equal (@rev _)) in E. rewrite rev_involutive in E. cbn [rev] in E. subst. intros I. apply N. apply in_or_app. auto.
Qed.

(** trim_wsp *)
Lemma trim_wsp_spec n : exists w1 w2, n = w1 ++ trim_wsp n ++ w2 /\ Forall WSP w1 /\ Forall WSP w2 /\ trimmed (trim_wsp n).
Proof.
  unfold trim_wsp. destruct (span is_wsp n) as [w1 r] eqn:E.
  pose proof (span_app _ _ _ _ E) as A. pose proof (span_all _ _ _ _ E) as F. pose proof (span_stop _ _ _ _ E) as ST.
  destruct r as [|c r].
  - rewrite app_nil_r in A. subst n. destruct (find_first_not is_wsp w1) eqn:FF.
    { assert (X : find_first_not is_wsp w1 = None) by (apply find_first_not_None; auto). congruence. }
    cbn. exists w1, []. rewrite app_nil_r. split; auto. split; [apply forallb_WSP; auto|]. repeat split; constructor.
  - rewrite A, find_first_not_app, skipn_app_exact by auto.
    destruct (span is_wsp (rev (c :: r))) as [w2 q] eqn:E2.
    pose proof (span_app _ _ _ _ E2) as A2. pose proof (span_all _ _ _ _ E2) as F2. pose proof (span_stop _ _ _ _ E2) as ST2.
    apply (f_equal (@rev _)) in A2. rewrite rev_involutive, rev_app_distr in A2.
    destruct q as [|d q].
    + exfalso. cbn [rev app] in A2. assert (In c (rev w2)) by (rewrite <- A2; left; auto). apply in_rev in H.
      rewrite forallb_forall in F2. apply F2 in H. congruence.
    + cbn [rev] in A2. rewrite <- app_assoc in A2. cbn [app] in A2.
      assert (FL : find_last_not is_wsp (c :: r) = Some (length (rev q))).
      { rewrite A2. apply find_last_not_app; auto. rewrite forallb_forall in *. intros x I. apply F2. apply in_rev. auto. }
      rewrite FL. assert (FN : firstn (S (length (rev q))) (c :: r) = rev q ++ [d]).
      { rewrite A2. replace (rev q ++ d :: rev w2) with ((rev q ++ [d]) ++ rev w2) by (rewrite <- app_assoc; reflexivity).
        replace (S (length (rev q))) with (length (rev q ++ [d])) by (rewrite app_length; cbn; lia). apply firstn_app_exact. }
      rewrite FN. exists w1, (rev w2). split.
      { f_equal. rewrite <- app_assoc. exact A2. }
      split; [apply forallb_WSP; auto|]. split; [apply Forall_rev, forallb_WSP; auto|]. split.
      * destruct (rev q ++ [d]) as [|x y] eqn:EX; cbn; auto.
        assert (X : c = x). { pose proof (f_equal (fun l => l ++ rev w2) EX) as EY. cbn beta in EY. rewrite <- app_assoc in EY. cbn [app] in EY.
          rewrite <- A2 in EY. congruence. }
        subst. rewrite <- is_wsp_WSP. congruence.
      * unfold last_ok. rewrite rev_app_distr. cbn. rewrite <- is_wsp_WSP. congruence.
Qed.

Lemma header_of_named t : named t (h_name (header_of t)) (h_voff (header_of t)).
Proof.
  unfold header_of. destruct (find_char COLON t) as [sep|] eqn:F; cbn [h_name h_voff].
  - apply find_char_Some in F as (pre & post & -> & <- & N). rewrite firstn_app_exact.
    destruct (trim_wsp_spec pre) as (w1 & w2 & E & W1 & W2 & T). revert E T. generalize (trim_wsp pre). intros n E T. subst pre.
    apply named_colon; auto.
  - apply find_char_None in F. constructor. auto.
Qed.

(** ** The properties *)
Lemma message_lossless ls h e body : header_block ls h -> line_end [] e ->
  exists m s', parse_all new_message (open_str (h ++ e ++ body)) = Ok (m, s') /\
    m_offset m = Z.of_nat (length (h ++ e)) /\ rejoin (m_headers m) = with_crlf ls.
Proof.
  intros HB LE. destruct (parse_blank ls h e body HB LE) as (m & s' & P & O & H & _). exists m, s'. split; auto. split; auto.
  rewrite H. apply rejoin_fields. eapply header_block_nonempty; eauto.
Qed.

Lemma header_block_crlf ls : Forall (fun l => l <> [] /\ ~ In LF l) ls -> header_block ls (with_crlf ls).
Proof.
  induction 1 as [|l ls [A B] _ IH]; [constructor|]. rewrite with_crlf_cons. constructor; auto. constructor.
Qed.

Lemma message_lossless_crlf ls body : Forall (fun l => l <> [] /\ ~ In LF l) ls ->
  let t := with_crlf ls ++ CRLF ++ body in
  exists m s', parse_all new_message (open_str t) = Ok (m, s') /\
    rejoin (m_headers m) ++ CRLF ++ skipn (Z.to_nat (m_offset m)) t = t.
Proof.
  intros F t. destruct (message_lossless ls _ CRLF body (header_block_crlf ls F) (le_crlf [])) as (m & s' & P & O & R).
  exists m, s'. split; auto. rewrite O, Nat2Z.id, R. subst t. do 2 f_equal.
  rewrite app_assoc. apply skipn_app_exact.
Qed.

Lemma message_noblank ls h tail : header_block ls h -> ~ In LF tail ->
  exists m s', parse_all new_message (open_str (h ++ tail)) = Ok (m, s') /\ m_offset m = (-1)%Z /\
    rejoin (m_headers m) = with_crlf ls ++ match chop_cr tail with [] => [] | l => l ++ CRLF end.
Proof.
  intros HB N. destruct (parse_unended ls h tail HB N) as (m & s' & P & O & D & H). exists m, s'. split; auto. split; auto.
  rewrite H, rejoin_fields.
  - rewrite with_crlf_app. destruct (chop_cr tail) as [|c l]; auto. rewrite with_crlf_cons. unfold with_crlf at 2. cbn [map concat].
    rewrite app_nil_r. reflexivity.
  - apply Forall_app. split; [eapply header_block_nonempty; eauto|]. destruct (chop_cr tail); constructor; [discriminate|constructor].
Qed.

Lemma message_noblank_crlf ls : Forall (fun l => l <> [] /\ ~ In LF l) ls ->
  exists m s', parse_all new_message (open_str (with_crlf ls)) = Ok (m, s') /\ m_offset m = (-1)%Z /\
    rejoin (m_headers m) = with_crlf ls.
Proof.
  intros F. destruct (message_noblank ls _ [] (header_block_crlf ls F) (fun x => x)) as (m & s' & P & O & R).
  rewrite app_nil_r in P. exists m, s'. split; auto. split; auto. cbn in R. rewrite app_nil_r in R. exact R.
Qed.

(** Fields of any message. *)
Definition field_of (h : header) (g : list bytes) : Prop :=
  h_text h = joined g /\ named (joined g) (h_name h) (h_voff h).

Lemma message_fields t : exists ls h rest m s', header_block ls h /\ t = h ++ rest /\
  parse_all new_message (open_str t) = Ok (m, s') /\ m_done m = true /\
  exists gs, Forall2 field_of (m_headers m) gs /\ Forall field_lines gs /\
    match gs with [] => True | _ :: r => Forall starts_field r end /\
    (((exists e body, line_end [] e /\ rest = e ++ body /\ m_offset m = Z.of_nat (length (h ++ e))) /\ concat gs = ls) \/
     (~ In LF rest /\ m_offset m = (-1)%Z /\ concat gs = ls ++ match chop_cr rest with [] => [] | l => [l] end)).
Proof.
  destruct (message_shape (S (length t)) t ltac:(lia)) as (ls & h & rest & HB & E & R).
  exists ls, h, rest. subst t.
  assert (FO : forall gs, Forall2 field_of (map (fun g => header_of (joined g)) gs) gs).
  { induction gs; cbn [map]; constructor; auto. split; [apply header_of_text|apply header_of_named]. }
  destruct R as [(e & body & LE & ->)|N].
  - destruct (parse_blank ls h e body HB LE) as (m & s' & P & O & H & D & _). exists m, s'.
    split; auto. split; auto. split; auto. split; auto.
    destruct (fields_of ls (header_block_nonempty _ _ HB)) as (gs & EG & C & FL & SF).
    exists gs. rewrite H, EG. split; [apply FO|]. split; auto. split; auto. left. split; auto. exists e, body. auto.
  - destruct (parse_unended ls h rest HB N) as (m & s' & P & O & D & H). exists m, s'.
    split; auto. split; auto. split; auto. split; auto.
    destruct (fields_of (ls ++ match chop_cr rest with [] => [] | l => [l] end)) as (gs & EG & C & FL & SF).
    { apply Forall_app. split; [eapply header_block_nonempty; eauto|]. destruct (chop_cr rest); constructor; [discriminate|constructor]. }
    exists gs. rewrite H, EG. split; [apply FO|]. split; auto.
Qed.

Lemma last_line_chop t l : last_line t l <-> ~ In LF t /\ chop_cr t = l.
Proof.
  unfold last_line. split; intros [N H]; split; auto.
  - destruct H as [->|[-> L]]; [apply chop_cr_app|apply chop_cr_keep; auto].
  - unfold chop_cr in H. unfold last_ok. destruct (rev t) as [|c r] eqn:E.
    + subst. right. split; [reflexivity|exact I].
    + destruct (c =?c CR) eqn:C.
      * apply ceqb_eq in C. subst. left. apply (f_equal (@rev _)) in E. rewrite rev_involutive in E. exact E.
      * right. subst. split; auto. cbn. apply ceqb_neq. auto.
Qed.

Lemma message_noblank' ls h tail l : header_block ls h -> last_line tail l ->
  exists m s', parse_all new_message (open_str (h ++ tail)) = Ok (m, s') /\ m_offset m = (-1)%Z /\
    rejoin (m_headers m) = with_crlf (ls ++ opt_line l).
Proof.
  intros HB LL. apply last_line_chop in LL as [N E]. destruct (message_noblank ls h tail HB N) as (m & s' & P & O & R).
  exists m, s'. split; auto. split; auto. rewrite R, E, with_crlf_app. f_equal. destruct l; [reflexivity|].
  cbn [opt_line]. unfold with_crlf. cbn [map concat]. rewrite app_nil_r. reflexivity.
Qed.

Lemma message_fields' t : exists ls h rest m s', header_block ls h /\ t = h ++ rest /\
  parse_all new_message (open_str t) = Ok (m, s') /\ m_done m = true /\
  exists gs, Forall2 field_of (m_headers m) gs /\ Forall field_lines gs /\
    match gs with [] => True | _ :: r => Forall starts_field r end /\
    (((exists e body, line_end [] e /\ rest = e ++ body /\ m_offset m = Z.of_nat (length (h ++ e))) /\ concat gs = ls) \/
     (m_offset m = (-1)%Z /\ exists l, last_line rest l /\ concat gs = ls ++ opt_line l)).
Proof.
  destruct (message_fields t) as (ls & h & rest & m & s' & HB & E & P & D & gs & F2 & FL & SF & R).
  exists ls, h, rest, m, s'. split; auto. split; auto. split; auto. split; auto. exists gs. split; auto. split; auto. split; auto.
  destruct R as [R|(N & O & C)]; auto. right. split; auto. exists (chop_cr rest). split; [apply last_line_chop; auto|].
  rewrite C. destruct (chop_cr rest); reflexivity.
Qed.
