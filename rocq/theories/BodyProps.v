(** Body canonicalization: consequences of the specification. *)
From Verif Require Import Bytes Outcome Stream Canonicalization BytesFacts StreamFacts SpecText SpecMail SpecCanon
  QPFacts ListFacts MailFacts BodyFacts.

(** ** The canonical body as a function of its lines *)
Fixpoint drop_nil (l : list bytes) : list bytes := match l with [] :: r => drop_nil r | _ => l end.
Definition strip (L : list bytes) : list bytes := rev (drop_nil (rev L)).
Definition out_fun (r : bool) (L : list bytes) : bytes :=
  match strip L with [] => if r then [] else CRLF | K => with_crlf K end.

Lemma rev_repeat {A} (x : A) n : rev (repeat x n) = repeat x n.
Proof.
  induction n as [|n IH]; [reflexivity|]. cbn [repeat rev]. rewrite IH.
  clear. induction n as [|n IH]; [reflexivity|]. cbn [repeat app]. rewrite IH. reflexivity.
Qed.
Lemma drop_nil_repeat n L : drop_nil (repeat [] n ++ L) = drop_nil L.
Proof. induction n; auto. Qed.
Lemma strip_app L n : strip (L ++ repeat [] n) = strip L.
Proof. unfold strip. rewrite rev_app_distr, rev_repeat, drop_nil_repeat. reflexivity. Qed.
Lemma strip_repeat n : strip (repeat [] n) = [].
Proof. apply (strip_app [] n). Qed.
Lemma strip_last k l n : l <> [] -> strip (k ++ l :: repeat [] n) = k ++ [l].
Proof.
  intros N. replace (k ++ l :: repeat [] n) with ((k ++ [l]) ++ repeat [] n) by (rewrite <- app_assoc; reflexivity).
  rewrite strip_app. unfold strip. rewrite rev_app_distr. cbn [rev app]. destruct l; [congruence|]. cbn [drop_nil].
  cbn [rev]. rewrite rev_involutive. reflexivity.
Qed.
Lemma strip_split L : exists n, L = strip L ++ repeat [] n.
Proof.
  destruct (trailing_empty L) as [(n & ->)|(k & l & n & -> & N)]; exists n.
  - rewrite strip_repeat. reflexivity.
  - rewrite strip_last by auto. rewrite <- app_assoc. reflexivity.
Qed.

Definition canon_list (r : bool) (b : bytes) : list bytes := map (canon_fun (mode_of r)) (split_lf (without_cr b)).

Lemma canonical_out r b out : canonical_body r b out <-> out = out_fun r (canon_list r b).
Proof.
  assert (X : forall out, canonical_body r b out -> out = out_fun r (canon_list r b)).
  { intros o C. unfold out_fun. inversion C as [ls n LO CL|ls k l n LO CL NE]; subst;
      apply lines_of_unique in LO; rewrite <- (mode_of_relaxed r) in CL; apply canon_lines_mode, canon_lines_fun in CL;
      unfold canon_list; rewrite <- LO, <- CL.
    - rewrite strip_repeat. reflexivity.
    - rewrite strip_last by auto. destruct (k ++ [l]) eqn:E; [destruct k; discriminate|reflexivity]. }
  split; auto. intros ->. destruct (canonical_exists r b) as (o & C). rewrite <- (X o C). exact C.
Qed.

(** ** Canonical lines *)
Lemma relax_In c p l : In c (relax p l) -> c = SP \/ In c l.
Proof.
  revert p. induction l as [|d l IH]; intros p; cbn [relax]; [auto|]. destruct (is_wsp d).
  - intros I. apply IH in I. destruct I; auto. right. right. auto.
  - rewrite in_app_iff. intros [I|[->|I]].
    + destruct p; [destruct I as [<-|[]]; auto|destruct I].
    + right. left. auto.
    + apply IH in I. destruct I; auto. right. right. auto.
Qed.
Lemma canon_fun_In c mode l : c <> SP -> In c (canon_fun mode l) -> In c l.
Proof. destruct mode; cbn [canon_fun]; auto. intros N I. apply relax_In in I. tauto. Qed.

Definition clean (l : bytes) : Prop := ~ In CR l /\ ~ In LF l.
Lemma canon_list_clean r b : Forall clean (canon_list r b).
Proof.
  unfold canon_list. apply Forall_map. pose proof (lines_no_cr b _ (lines_of_exists b)) as F.
  pose proof (split_lf_no (without_cr b)) as F2. rewrite Forall_forall in *. intros l I.
  split; intros J; apply canon_fun_In in J; try discriminate; [eapply F|eapply F2]; eauto.
Qed.
Lemma strip_clean L : Forall clean L -> Forall clean (strip L).
Proof. intros F. destruct (strip_split L) as (n & E). rewrite E in F. apply Forall_app in F. tauto. Qed.

Lemma without_cr_app a b : without_cr (a ++ b) = without_cr a ++ without_cr b.
Proof. apply filter_app. Qed.
Lemma without_cr_id l : ~ In CR l -> without_cr l = l.
Proof.
  intros N. induction l as [|c l IH]; [reflexivity|]. cbn [without_cr filter]. 
  rewrite ceqb_false by (intros ->; apply N; left; auto). cbn [negb]. f_equal. apply IH. intros I. apply N. right. auto.
Qed.
Lemma without_cr_crlf K : Forall clean K -> without_cr (with_crlf K) = lf_joined (K ++ [[]]).
Proof.
  induction 1 as [|l K [N1 N2] F IH]; [reflexivity|]. rewrite with_crlf_cons, !without_cr_app, IH, without_cr_id by auto.
  cbn [app]. destruct K; reflexivity.
Qed.
Lemma split_crlf K : Forall clean K -> split_lf (without_cr (with_crlf K)) = K ++ [[]].
Proof.
  intros F. rewrite without_cr_crlf by auto. apply lf_joined_split; [destruct K; discriminate|].
  apply Forall_app. split; [|constructor; [cbn; auto|constructor]]. revert F. apply Forall_impl. unfold clean. tauto.
Qed.
Lemma with_crlf_inj K K' : Forall clean K -> Forall clean K' -> with_crlf K = with_crlf K' -> K = K'.
Proof.
  intros F F' E. apply (f_equal (fun x => split_lf (without_cr x))) in E. rewrite !split_crlf in E by auto.
  apply app_inj_tail in E. tauto.
Qed.

(** ** Idempotence *)
Lemma relax_true p l : relax true l = [] \/ relax true l = SP :: relax p l \/ relax true l = relax p l.
Proof.
  induction l as [|c l IH]; cbn [relax]; auto. destruct (is_wsp c); [|destruct p; auto].
  destruct (relax true l); auto.
Qed.
Lemma relax_idem l : forall p, relax p (relax p l) = relax p l /\ relax false (relax true l) = relax true l.
Proof.
  induction l as [|c l IH]; intros p; cbn [relax]; [auto|]. destruct (is_wsp c) eqn:W.
  - destruct (IH true) as [A B]. split; auto. destruct p; auto.
  - destruct (IH false) as [A B]. assert (WS : is_wsp SP = true) by reflexivity. split.
    + destruct p; cbn [app relax]; rewrite ?WS; cbn [relax]; rewrite W, A; reflexivity.
    + cbn [app relax]. rewrite WS. cbn [relax]. rewrite W, A. reflexivity.
Qed.
Lemma canon_fun_idem mode l : canon_fun mode (canon_fun mode l) = canon_fun mode l.
Proof. destruct mode; cbn [canon_fun]; auto. apply (relax_idem l false). Qed.

Lemma canonical_idem r b out : canonical_body r b out -> canonical_body r out out.
Proof.
  rewrite !canonical_out. intros ->. set (L := canon_list r b). unfold out_fun at 1 3.
  assert (CL : Forall clean (strip L)) by (apply strip_clean, canon_list_clean).
  assert (FX : map (canon_fun (mode_of r)) (strip L) = strip L).
  { destruct (strip_split L) as (n & E).
    assert (M : map (canon_fun (mode_of r)) L = L).
    { subst L. unfold canon_list. rewrite map_map. apply map_ext. intros a. apply canon_fun_idem. }
    rewrite E, map_app in M. apply (f_equal (firstn (length (map (canon_fun (mode_of r)) (strip L))))) in M.
    rewrite firstn_app_exact, map_length, firstn_app_exact in M. exact M. }
  destruct (strip L) as [|x K] eqn:ES.
  - destruct r; reflexivity.
  - rewrite <- ES in *. unfold out_fun, canon_list. rewrite split_crlf by auto. rewrite map_app, FX.
    replace (map (canon_fun (mode_of r)) [[]]) with (repeat (@nil ascii) 1) by (destruct r; reflexivity).
    rewrite strip_app.
    assert (SS : strip (strip L) = strip L).
    { destruct (strip_split L) as (n & E). rewrite E at 2. rewrite strip_app. reflexivity. }
    rewrite SS, ES. reflexivity.
Qed.

Lemma canonical_newlines r b b' out : without_cr b = without_cr b' -> canonical_body r b out -> canonical_body r b' out.
Proof. intros E. rewrite !canonical_out. unfold canon_list. rewrite E. auto. Qed.

Lemma lf_joined_snoc ls : ls <> [] -> lf_joined (ls ++ [[]]) = lf_joined ls ++ [LF].
Proof.
  induction ls as [|l ls IH]; [congruence|]. intros _. destruct ls as [|l2 ls]; [reflexivity|].
  cbn [app]. change (lf_joined (l :: l2 :: ls ++ [[]])) with (l ++ LF :: lf_joined ((l2 :: ls) ++ [[]])).
  rewrite IH by discriminate. change (lf_joined (l :: l2 :: ls)) with (l ++ LF :: lf_joined (l2 :: ls)).
  rewrite <- app_assoc. reflexivity.
Qed.
Lemma split_lf_snoc b : split_lf (b ++ [LF]) = split_lf b ++ [[]].
Proof.
  rewrite <- (split_lf_joined b) at 1. rewrite <- lf_joined_snoc by apply split_lf_nonempty.
  apply lf_joined_split; [destruct (split_lf b); discriminate|]. apply Forall_app. split; [apply split_lf_no|].
  constructor; [cbn; auto|constructor].
Qed.
Lemma canonical_blank_line r b e out : e = CRLF \/ e = [LF] -> canonical_body r b out -> canonical_body r (b ++ e) out.
Proof.
  intros He. rewrite !canonical_out. intros ->. unfold canon_list, out_fun.
  assert (E : without_cr (b ++ e) = without_cr b ++ [LF]) by (rewrite without_cr_app; destruct He as [->| ->]; reflexivity).
  rewrite E, split_lf_snoc, map_app.
  replace (map (canon_fun (mode_of r)) [[]]) with (repeat (@nil ascii) 1) by (destruct r; reflexivity).
  rewrite strip_app. reflexivity.
Qed.
Lemma canonical_blank_lines r b es out : Forall (fun e => e = CRLF \/ e = [LF]) es ->
  canonical_body r b out -> canonical_body r (b ++ concat es) out.
Proof.
  intros F. revert b. induction F as [|e es E F IH]; intros b C; cbn [concat]; [rewrite app_nil_r; auto|].
  rewrite app_assoc. apply IH. apply canonical_blank_line; auto.
Qed.

(** ** Relaxed: what is ignored *)
Lemma ws_equal_relax l l' : ws_equal l l' <-> relax false l = relax false l'.
Proof.
  assert (Z : forall w, Forall WSP w -> relax false w = []) by (intros w W; apply relaxed_relax; constructor; auto).
  split.
  - induction 1 as [w w' W W'|c l l' NW E IH|w w' c l l' N N' W W' NW E IH].
    + rewrite !Z; auto.
    + cbn [relax]. apply not_WSP_b in NW. rewrite NW, IH. reflexivity.
    + rewrite !relax_wsps by auto. cbn [relax] in *. apply not_WSP_b in NW. rewrite NW in *. cbn [app] in *. congruence.
  - intros E. assert (R : relaxed_line l (relax false l)) by (apply relaxed_relax; auto).
    assert (R' : relaxed_line l' (relax false l)) by (apply relaxed_relax; auto). clear E. revert R R'. generalize (relax false l).
    intros x R. revert l'. induction R as [w W|c l x NW R IH|w c l x NE W NW R IH]; intros l' R'.
    + inversion R'; subst. constructor; auto.
    + inversion R' as [|? l2 ? ? R2|w2 c2 l2 ? NE2 W2 NW2 R2]; subst.
      * apply we_char; auto.
      * destruct NW. left. reflexivity.
    + inversion R' as [|? l2 ? ? R2|w2 c2 l2 ? NE2 W2 NW2 R2]; subst.
      * exfalso. match goal with Q : ~ WSP SP |- _ => apply Q; left; reflexivity end.
      * assert (c2 = c).
        { clear -R R2 NW NW2. 
          assert (X : forall d m, ~ WSP d -> relaxed_line (d :: m) x -> exists y, x = d :: y).
          { intros d m ND RD. inversion RD as [? F|? ? ? ? ?|w3 ? ? ? N3 F]; subst.
            - inversion F; subst. contradiction.
            - eauto.
            - destruct w3 as [|z w3]; [congruence|]. inversion F; subst.
              match goal with Q : (z :: w3) ++ _ = d :: m |- _ => injection Q as -> _ end. contradiction. }
          destruct (X c l NW R) as (y & ->). destruct (X c2 l2 NW2 R2) as (y2 & [= -> _]). reflexivity. }
        subst c2. apply we_run; auto.
Qed.

Lemma Forall2_ws_relax ls ls' : Forall2 ws_equal ls ls' <-> map (relax false) ls = map (relax false) ls'.
Proof.
  split.
  - induction 1 as [|l l' ls ls' E F IH]; [reflexivity|]. cbn [map]. apply ws_equal_relax in E. congruence.
  - revert ls'. induction ls as [|l ls IH]; intros [|l' ls'] E; cbn [map] in E; try discriminate; constructor.
    + apply ws_equal_relax. congruence.
    + apply IH. congruence.
Qed.

Lemma relaxed_same_iff b b' ls ls' out : lines_of b ls -> lines_of b' ls' -> canonical_body true b out ->
  (canonical_body true b' out <-> exists n n', Forall2 ws_equal (ls ++ repeat [] n) (ls' ++ repeat [] n')).
Proof.
  intros LO LO' C. apply canonical_out in C. rewrite canonical_out.
  pose proof (canon_list_clean true b) as CL. pose proof (canon_list_clean true b') as CL'.
  unfold canon_list, out_fun in *. rewrite <- (lines_of_unique b ls LO) in *. rewrite <- (lines_of_unique b' ls' LO') in *.
  change (canon_fun (mode_of true)) with (relax false) in *. subst out.
  assert (MR : forall n, map (relax false) (repeat [] n) = repeat [] n).
  { induction n; [reflexivity|]. cbn [repeat map]. rewrite IHn. reflexivity. }
  split.
  - intros E. destruct (strip_split (map (relax false) ls)) as (n & EL). destruct (strip_split (map (relax false) ls')) as (n' & EL').
    exists n', n. apply Forall2_ws_relax. rewrite !map_app, !MR, EL, EL', <- !app_assoc.
    assert (S : strip (map (relax false) ls) = strip (map (relax false) ls')).
    { apply strip_clean in CL. apply strip_clean in CL'.
      destruct (strip (map (relax false) ls)) as [|x K] eqn:S1; destruct (strip (map (relax false) ls')) as [|x' K'] eqn:S2; auto.
      - rewrite with_crlf_cons in E. destruct x'; discriminate.
      - rewrite with_crlf_cons in E. destruct x; discriminate.
      - apply with_crlf_inj; auto. }
    rewrite S. rewrite <- !repeat_app, Nat.add_comm. reflexivity.
  - intros (n & n' & F). apply Forall2_ws_relax in F. rewrite !map_app, !MR in F.
    assert (S : strip (map (relax false) ls) = strip (map (relax false) ls')).
    { etransitivity; [symmetry; apply (strip_app _ n)|]. etransitivity; [exact (f_equal strip F)|]. apply strip_app. }
    rewrite S. reflexivity.
Qed.

(** ** Bytes that are not whitespace *)
Lemma visible_app a b : visible (a ++ b) = visible a ++ visible b.
Proof. apply filter_app. Qed.
Lemma visible_cons c b : visible (c :: b) = visible [c] ++ visible b.
Proof. apply (visible_app [c] b). Qed.
Lemma visible_without_cr b : visible (without_cr b) = visible b.
Proof.
  induction b as [|c b IH]; [reflexivity|]. cbn [without_cr filter]. destruct (c =?c CR) eqn:E; cbn [negb].
  - apply ceqb_eq in E. subst. exact IH.
  - rewrite visible_cons, (visible_cons c b). f_equal. exact IH.
Qed.
Lemma visible_lf_joined ls : visible (lf_joined ls) = concat (map visible ls).
Proof.
  induction ls as [|l ls IH]; [reflexivity|]. destruct ls as [|l2 ls].
  - cbn [lf_joined map concat]. rewrite app_nil_r. reflexivity.
  - change (lf_joined (l :: l2 :: ls)) with (l ++ LF :: lf_joined (l2 :: ls)).
    rewrite visible_app, visible_cons, IH. reflexivity.
Qed.
Lemma visible_with_crlf ls : visible (with_crlf ls) = concat (map visible ls).
Proof.
  induction ls as [|l ls IH]; [reflexivity|]. rewrite with_crlf_cons, !visible_app, IH. reflexivity.
Qed.
Lemma visible_relax p l : visible (relax p l) = visible l.
Proof.
  revert p. induction l as [|c l IH]; intros p; [reflexivity|]. cbn [relax]. rewrite (visible_cons c l). destruct (is_wsp c) eqn:W.
  - rewrite IH. apply is_wsp_WSP in W. destruct W as [->| ->]; reflexivity.
  - rewrite visible_app, visible_cons, IH. destruct p; reflexivity.
Qed.
Lemma visible_canon_fun mode l : visible (canon_fun mode l) = visible l.
Proof. destruct mode; cbn [canon_fun]; auto. apply visible_relax. Qed.
Lemma visible_canonical r b out : canonical_body r b out -> visible out = visible b.
Proof.
  rewrite canonical_out. intros ->. unfold out_fun.
  assert (E : visible b = concat (map visible (canon_list r b))).
  { unfold canon_list. rewrite map_map. rewrite (map_ext _ visible) by (intros; apply visible_canon_fun).
    rewrite <- visible_lf_joined, split_lf_joined, visible_without_cr. reflexivity. }
  assert (E2 : concat (map visible (canon_list r b)) = concat (map visible (strip (canon_list r b)))).
  { destruct (strip_split (canon_list r b)) as (n & EL). rewrite EL at 1. rewrite map_app, concat_app.
    replace (concat (map visible (repeat [] n))) with (@nil ascii) by (clear; induction n; auto). apply app_nil_r. }
  rewrite E, E2. destruct (strip (canon_list r b)) as [|x K]; [destruct r; reflexivity|]. apply visible_with_crlf.
Qed.

(** ** The properties *)
Lemma buffer_pos : 0 < buffer_size.
Proof. unfold buffer_size. lia. Qed.

Lemma body_canonical chunk s mode off b out : 0 < chunk -> body_at s off b -> canonical_body (is_relaxed mode) b out ->
  forall size, exists calls s', CanonicalizationBody_ chunk s mode off false size = Ok (calls, true, s') /\ concat calls = out.
Proof.
  intros CH BA C size. destruct (body_spec chunk s mode off false size b CH BA) as (calls & s' & P & E).
  exists calls, s'. split; auto. rewrite E. cbn [take]. apply pass_canonical. exact C.
Qed.
Lemma body_limited chunk s mode off b out : 0 < chunk -> body_at s off b -> canonical_body (is_relaxed mode) b out ->
  forall size, exists calls s',
    CanonicalizationBody_ chunk s mode off true size = Ok (calls, (size <=? N.of_nat (length out))%N, s') /\
    concat calls = firstn (N.to_nat size) out.
Proof.
  intros CH BA C size. destruct (body_spec chunk s mode off true size b CH BA) as (calls & s' & P & E).
  rewrite (pass_canonical mode b out C) in *. exists calls, s'. split; auto. rewrite P. do 3 f_equal.
  cbn [andb]. symmetry. rewrite N.leb_antisym. reflexivity.
Qed.

(** The library's output for a body that fills the stream. *)
Definition canonicalizes (mode : canon_mode) (b out : bytes) : Prop :=
  exists calls s', CanonicalizationBody (open_str b) mode 0 false 0 = Ok (calls, true, s') /\ concat calls = out.
Lemma canonicalizes_iff mode b out : canonicalizes mode b out <-> canonical_body (is_relaxed mode) b out.
Proof.
  assert (X : forall o, canonical_body (is_relaxed mode) b o -> canonicalizes mode b o).
  { intros o C. apply (body_canonical buffer_size (open_str b) mode 0 b o buffer_pos); auto. right. exists []. auto. }
  split; auto. intros (calls & s' & P & <-). destruct (canonical_exists (is_relaxed mode) b) as (o & C).
  destruct (X o C) as (calls2 & s2 & P2 & <-). rewrite P in P2. injection P2 as -> ->. exact C.
Qed.
Lemma code_total mode b : exists out, canonicalizes mode b out.
Proof. destruct (canonical_exists (is_relaxed mode) b) as (o & C). exists o. apply canonicalizes_iff. exact C. Qed.
Lemma code_idem mode b out : canonicalizes mode b out -> canonicalizes mode out out.
Proof. rewrite !canonicalizes_iff. apply canonical_idem. Qed.
Lemma code_newlines mode b b' out : without_cr b = without_cr b' -> canonicalizes mode b out -> canonicalizes mode b' out.
Proof. rewrite !canonicalizes_iff. apply canonical_newlines. Qed.
Lemma code_blank_lines mode b es out : Forall (fun e => e = CRLF \/ e = [LF]) es ->
  canonicalizes mode b out -> canonicalizes mode (b ++ concat es) out.
Proof. rewrite !canonicalizes_iff. apply canonical_blank_lines. Qed.
Lemma code_same_iff b b' ls ls' out : lines_of b ls -> lines_of b' ls' -> canonicalizes RELAXED b out ->
  (canonicalizes RELAXED b' out <-> exists n n', Forall2 ws_equal (ls ++ repeat [] n) (ls' ++ repeat [] n')).
Proof. rewrite !canonicalizes_iff. apply relaxed_same_iff. Qed.
Lemma code_visible mode b out : canonicalizes mode b out -> visible out = visible b.
Proof. rewrite canonicalizes_iff. apply visible_canonical. Qed.
