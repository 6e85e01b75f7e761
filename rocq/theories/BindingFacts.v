(** What equal signed texts say about two signature fields: proofs. *)
From Verif Require Import Bytes Outcome Stream Tokenizer TagList MailParser Canonicalization Util CStdlib Crypto Signature BytesFacts SpecText SpecTags
  SpecMail SpecCanon SpecVerify SpecSig QPFacts ListFacts MailFacts TagListFacts TagPosition HeaderFacts HeaderProps SelectFacts SigFacts SigProps
  VerifyFacts VerifyProps AddressClean FieldForm.

Definition signature_name (n : bytes) : Prop :=
  same_name n (str "DKIM-Signature") = true \/ same_name n (str "ARC-Message-Signature") = true.

Lemma Forall2_In_l {A B} (R : A -> B -> Prop) l l' x : Forall2 R l l' -> In x l -> exists y, In y l' /\ R x y.
Proof. induction 1 as [|a b l l' E F IH]; [intros []|]. intros [->|I]; [exists b; split; auto; left; auto|]. destruct (IH I) as (y & I' & E'). exists y. split; auto. right; auto. Qed.
Lemma field_named t m s h : parse_all new_message (open_str t) = Ok (m, s) -> In h (m_headers m) -> named (h_text h) (h_name h) (h_voff h).
Proof.
  intros P IN. destruct (message_fields' t) as (ls & hb & rest & m' & s' & HB & ET & P' & _ & gs & F2 & FL & SF & X).
  rewrite P in P'. apply Ok_inj in P'. apply (f_equal fst) in P'. cbn [fst] in P'. subst m'.
  destruct (Forall2_In_l _ _ _ _ F2 IN) as (g & _ & E & N). rewrite E. exact N.
Qed.
Lemma name_letters n : signature_name n -> map low n <> [] /\ Forall (fun c => is_lwsp c = false /\ c <> COLON) (map low n).
Proof.
  assert (K : forall x, forallb (fun c => negb (is_lwsp c) && negb (c =?c COLON)) x = true -> Forall (fun c => is_lwsp c = false /\ c <> COLON) x).
  { intros x F. apply Forall_forall. intros c I. rewrite forallb_forall in F. specialize (F c I). apply andb_true_iff in F as [A B].
    apply negb_true_iff in A. apply negb_true_iff in B. split; auto. intros ->. rewrite ceqb_refl in B. discriminate. }
  unfold signature_name, same_name. intros [E|E]; apply beqb_eq in E; rewrite E; (split; [discriminate|apply K; vm_compute; reflexivity]).
Qed.
Lemma signature_shape t m s h : parse_all new_message (open_str t) = Ok (m, s) -> In h (m_headers m) -> signature_name (h_name h) ->
  exists w w', Forall WSP w /\ Forall WSP w' /\ firstn (h_voff h) (h_text h) = (w ++ h_name h ++ w') ++ [COLON] /\
    (begins_field (h_text h) -> w = []).
Proof.
  intros P IN SN. pose proof (field_named _ _ _ _ P IN) as N. destruct (name_letters _ SN) as [NE FL].
  destruct N as [t0 NC|w1 n w2 rest NC W1 W2 T]; [destruct NE; reflexivity|].
  exists w1, w2. split; auto. split; auto. split.
  - replace ((w1 ++ n ++ w2) ++ COLON :: rest) with (((w1 ++ n ++ w2) ++ [COLON]) ++ rest) by (rewrite <- app_assoc; reflexivity).
    replace (S (length (w1 ++ n ++ w2))) with (length ((w1 ++ n ++ w2) ++ [COLON])) by (rewrite app_length; cbn; lia). apply firstn_app_exact.
  - intros (c & r & E & NW). destruct w1 as [|c1 w1]; auto. injection E as <- _. inversion W1; subst. contradiction.
Qed.
Lemma cr_before_cut x pre v post : cr_before (x ++ pre ++ v ++ post) -> v <> [] -> last_ok (fun c => c <> CR) v -> cr_before (x ++ pre ++ post).
Proof.
  intros H NV L a b E. rewrite app_assoc in *. set (y := x ++ pre) in *. destruct (app_split _ _ _ _ E) as [(l & EY & E')|(l & EA & E')].
  - destruct l as [|c l].
    + cbn in E'. rewrite app_nil_r in EY. exfalso. destruct (H (y ++ v) b) as (a' & EA); [rewrite <- app_assoc, E'; reflexivity|].
      destruct (exists_last NV) as (k & z & ->). rewrite app_assoc in EA. apply app_inj_tail in EA as [_ ->]. unfold last_ok in L. rewrite rev_app_distr in L. cbn in L. congruence.
    + injection E' as <- ->. apply (H a (l ++ v ++ post)). rewrite EY, <- app_assoc. reflexivity.
  - destruct l as [|z l] using rev_ind.
    + exfalso. cbn in E'. destruct (H (y ++ v) b) as (a' & EX); [rewrite <- app_assoc, E'; reflexivity|].
      destruct (exists_last NV) as (k & z & ->). rewrite app_assoc in EX. apply app_inj_tail in EX as [_ ->]. unfold last_ok in L. rewrite rev_app_distr in L. cbn in L. congruence.
    + clear IHl. subst a. destruct (H (y ++ v ++ l ++ [z]) b) as (a' & EX).
      { rewrite <- !app_assoc in *. rewrite E'. reflexivity. }
      rewrite !app_assoc in EX. apply app_inj_tail in EX as [_ ->]. exists (y ++ l). rewrite app_assoc. reflexivity.
Qed.

(** One side: a signature field of a message with the canonical forms. *)
Record covered (t : bytes) (m : message) (h : header) (fs : list header) (mode : canon_mode) (pre bv post : bytes) (outs : list bytes) (x : bytes) : Prop := {
  cv_parse : exists s, parse_all new_message (open_str t) = Ok (m, s);
  cv_in : In h (m_headers m);
  cv_name : signature_name (h_name h);
  cv_fields : incl fs (m_headers m);
  cv_tag : tag_at (str "b") (skipn (h_voff h) (h_text h)) pre bv post;
  cv_value : bv <> [];
  cv_outs : Forall2 (canon_of false mode) fs outs;
  cv_x : FilterHeader false mode (firstn (h_voff h) (h_text h) ++ pre ++ post) = Ok x }.

Lemma value_not_wsp v : tag_value v -> first_ok (fun c => ~ WSP c) v.
Proof.
  intros V. destruct (value_ends v V) as [F _]. destruct v as [|c v]; cbn in *; auto. intros W.
  assert (Y : LWSP c) by (destruct W; [left|right; left]; auto). apply LWSP_is in Y. congruence.
Qed.
Lemma value_not_cr v : tag_value v -> last_ok (fun c => c <> CR) v.
Proof. intros V. destruct (value_ends v V) as [_ L]. unfold last_ok in *. destruct (rev v); cbn in *; auto. intros ->. discriminate. Qed.

Lemma covered_texts t m h fs mode pre bv post outs x : covered t m h fs mode pre bv post outs x ->
  let y := firstn (h_voff h) (h_text h) ++ pre ++ post in
  lf_folds y /\ cr_before y /\ Forall (fun f => lf_folds (h_text f) /\ cr_before (h_text f)) fs /\
  (begins_field (h_text h) -> begins_field y).
Proof.
  intros [(s & P) IN SN FS TA NV FO FX] y. destruct (message_texts _ _ _ P) as [TX _]. rewrite Forall_forall in TX.
  destruct TA as (ET & TV & _). destruct (TX h IN) as [LF CB].
  assert (EX : h_text h = firstn (h_voff h) (h_text h) ++ pre ++ bv ++ post) by (rewrite <- ET, firstn_skipn; reflexivity).
  split; [|split; [|split]].
  - subst y. apply lf_folds_cut with (v := bv); auto; [|apply value_not_wsp; auto]. rewrite <- EX. exact LF.
  - subst y. apply cr_before_cut with (v := bv); auto; [|apply value_not_cr; auto]. rewrite <- EX. exact CB.
  - apply Forall_forall. intros f I. apply TX. apply FS. auto.
  - intros B. pose proof B as B'. destruct (signature_shape _ _ _ _ P IN SN) as (w & w' & W & W' & E & K). specialize (K B). subst w. subst y. rewrite E.
    destruct B' as (c & r & EC & NW). rewrite EX, E in EC. destruct (name_letters _ SN) as [NE _]. destruct (h_name h) as [|c0 n0]; [destruct NE; reflexivity|].
    injection EC as -> _. eexists c, _. split; [reflexivity|exact NW].
Qed.
Lemma covered_form t m h fs mode pre bv post outs x : covered t m h fs mode pre bv post outs x ->
  exists n' v', x = n' ++ COLON :: v' /\ ~ In COLON n' /\ norm (map low n') = map low (h_name h) /\ norm v' = norm (pre ++ post) /\
    (begins_field (h_text h) -> begins_field x).
Proof.
  intros CV. pose proof (covered_texts _ _ _ _ _ _ _ _ _ _ CV) as (LFx & CBx & _ & _). destruct CV as [(s & P) IN SN FS TA NV FO FX].
  destruct (signature_shape _ _ _ _ P IN SN) as (w & w' & W & W' & E & K). destruct (name_letters _ SN) as [NE FL].
  rewrite E in *. rewrite <- app_assoc in *. cbn [app] in *.
  destruct (form_parts mode w (h_name h) w' _ (pre ++ post) x W W' eq_refl NE FL (lf_crlf_folds _ LFx) CBx FX) as (n' & v' & -> & N' & E1 & E2 & BF).
  exists n', v'. repeat (split; auto).
Qed.
Lemma covered_no_lf t m h fs pre bv post outs x : covered t m h fs RELAXED pre bv post outs x -> ~ In LF x /\ Forall (fun o => ~ In LF o) outs.
Proof.
  intros CV. pose proof (covered_texts _ _ _ _ _ _ _ _ _ _ CV) as (LFx & CBx & TX & _). destruct CV as [(s & P) IN SN FS TA NV FO FX]. split.
  - eapply FilterHeader_no_lf; eauto. apply lf_crlf_folds. auto.
  - apply (canon_texts RELAXED _ _ FO TX).
Qed.
Definition all_begin (m : message) : Prop := Forall (fun h => begins_field (h_text h)) (m_headers m).
Lemma covered_simple t m h fs pre bv post outs x : covered t m h fs SIMPLE pre bv post outs x -> all_begin m ->
  lf_folds x /\ begins_field x /\ Forall (fun o => lf_folds o /\ begins_field o) outs.
Proof.
  intros CV AB. pose proof (covered_texts _ _ _ _ _ _ _ _ _ _ CV) as (LFx & CBx & TX & BF). unfold all_begin in AB. rewrite Forall_forall in AB.
  destruct CV as [(s & P) IN SN FS TA NV FO FX]. rewrite FilterHeader_simple in FX. apply Ok_inj in FX. subst x. split; auto. split; [auto|].
  apply (canon_texts SIMPLE _ _ FO TX). apply Forall_forall. intros f I. apply AB, FS, I.
Qed.
Lemma covered_begins t m h fs mode pre bv post outs x : covered t m h fs mode pre bv post outs x -> all_begin m -> begins_field x.
Proof.
  intros CV AB. destruct (covered_form _ _ _ _ _ _ _ _ _ _ CV) as (n' & v' & _ & _ & _ & _ & K). apply K. unfold all_begin in AB. rewrite Forall_forall in AB.
  apply AB. apply (cv_in _ _ _ _ _ _ _ _ _ _ CV).
Qed.

Lemma same_stream t1 m1 h1 fs1 mode1 pre1 b1 post1 outs1 x1 t2 m2 h2 fs2 mode2 pre2 b2 post2 outs2 x2 :
  covered t1 m1 h1 fs1 mode1 pre1 b1 post1 outs1 x1 -> covered t2 m2 h2 fs2 mode2 pre2 b2 post2 outs2 x2 ->
  (mode1 = RELAXED /\ mode2 = RELAXED) \/ (all_begin m1 /\ all_begin m2) ->
  with_crlf outs1 ++ x1 = with_crlf outs2 ++ x2 ->
  x1 = x2 /\ (mode1 = mode2 -> outs1 = outs2) /\ map low (h_name h1) = map low (h_name h2) /\ norm (pre1 ++ post1) = norm (pre2 ++ post2).
Proof.
  intros C1 C2 AB E.
  assert (X : x1 = x2 /\ (mode1 = mode2 -> outs1 = outs2)).
  { destruct mode1, mode2.
    - destruct AB as [[? _]|[A1 A2]]; [discriminate|]. destruct (covered_simple _ _ _ _ _ _ _ _ _ C1 A1) as (L1 & B1 & F1).
      destruct (covered_simple _ _ _ _ _ _ _ _ _ C2 A2) as (L2 & B2 & F2).
      destruct (stream_simple outs1 outs2 x1 x2 F1 F2 L1 L2 (or_intror B1) (or_intror B2) E). auto.
    - destruct AB as [[? _]|[A1 A2]]; [discriminate|]. split; [|discriminate]. destruct (covered_simple _ _ _ _ _ _ _ _ _ C1 A1) as (L1 & B1 & F1).
      destruct (covered_no_lf _ _ _ _ _ _ _ _ _ C2) as [N2 _]. symmetry.
      apply (last_field (with_crlf outs2) x2 (with_crlf outs1) x1); auto using with_crlf_end. eapply covered_begins; eauto.
    - destruct AB as [[_ ?]|[A1 A2]]; [discriminate|]. split; [|discriminate]. destruct (covered_simple _ _ _ _ _ _ _ _ _ C2 A2) as (L2 & B2 & F2).
      destruct (covered_no_lf _ _ _ _ _ _ _ _ _ C1) as [N1 _].
      apply (last_field (with_crlf outs1) x1 (with_crlf outs2) x2); auto using with_crlf_end. eapply covered_begins; eauto.
    - destruct (covered_no_lf _ _ _ _ _ _ _ _ _ C1) as [N1 F1]. destruct (covered_no_lf _ _ _ _ _ _ _ _ _ C2) as [N2 F2].
      destruct (stream_no_lf outs1 outs2 x1 x2 F1 F2 N1 N2 E). auto. }
  destruct X as [EX EO]. split; auto. split; auto.
  destruct (covered_form _ _ _ _ _ _ _ _ _ _ C1) as (n1 & v1 & X1 & N1 & K1 & V1 & _).
  destruct (covered_form _ _ _ _ _ _ _ _ _ _ C2) as (n2 & v2 & X2 & N2 & K2 & V2 & _).
  rewrite X1, X2 in EX. destruct (first_colon _ _ _ _ N1 N2 EX) as [-> ->]. split; congruence.
Qed.

(** The tags but b= agree up to whitespace. *)
Lemma same_tags t1 m1 h1 fs1 mode1 pre1 b1 post1 outs1 x1 t2 m2 h2 fs2 mode2 pre2 b2 post2 outs2 x2 l1 l2 :
  covered t1 m1 h1 fs1 mode1 pre1 b1 post1 outs1 x1 -> covered t2 m2 h2 fs2 mode2 pre2 b2 post2 outs2 x2 ->
  field_tags h1 l1 -> field_tags h2 l2 -> norm (pre1 ++ post1) = norm (pre2 ++ post2) ->
  map nrm_tag (blanked (str "b") l1) = map nrm_tag (blanked (str "b") l2).
Proof.
  intros C1 C2 (_ & R1 & ND1) (_ & R2 & ND2) E. assert (NB : tag_name (str "b")).
  { split; [discriminate|]. constructor; [|constructor]. right. left. vm_compute. split; discriminate. }
  pose proof (blanked_tags _ _ R1 _ _ _ _ (cv_tag _ _ _ _ _ _ _ _ _ _ C1) NB (cv_value _ _ _ _ _ _ _ _ _ _ C1) ND1) as B1.
  pose proof (blanked_tags _ _ R2 _ _ _ _ (cv_tag _ _ _ _ _ _ _ _ _ _ C2) NB (cv_value _ _ _ _ _ _ _ _ _ _ C2) ND2) as B2.
  apply norm_tags in B1, B2. rewrite E in B1. eapply rendered_unique; eauto.
Qed.
Lemma tags_has l1 l2 n v : map nrm_tag (blanked (str "b") l1) = map nrm_tag (blanked (str "b") l2) -> n <> str "b" -> In (n, v) l1 ->
  exists v', In (n, v') l2 /\ nrm false v' = nrm false v.
Proof.
  intros E NB I. assert (J : In (n, nrm false v) (map nrm_tag (blanked (str "b") l1))).
  { unfold blanked. rewrite map_map. apply in_map_iff. exists (n, v). split; auto. unfold nrm_tag. cbn [fst snd].
    destruct (beqb n (str "b")) eqn:B; auto. apply beqb_eq in B. congruence. }
  rewrite E in J. unfold blanked in J. rewrite map_map in J. apply in_map_iff in J as ([n' v'] & EQ & J). unfold nrm_tag in EQ. cbn [fst snd] in EQ.
  destruct (beqb n' (str "b")) eqn:B.
  - apply beqb_eq in B. apply (f_equal fst) in EQ. cbn [fst] in EQ. congruence.
  - exists v'. pose proof (f_equal fst EQ) as E1. pose proof (f_equal snd EQ) as E2. cbn [fst snd] in E1, E2. subst n'. auto.
Qed.
Lemma tags_names l1 l2 : map nrm_tag (blanked (str "b") l1) = map nrm_tag (blanked (str "b") l2) -> map fst l1 = map fst l2.
Proof.
  intros E. apply (f_equal (map fst)) in E. unfold blanked in E. rewrite !map_map in E. cbn [nrm_tag fst] in E. exact E.
Qed.
