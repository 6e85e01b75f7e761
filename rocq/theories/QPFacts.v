(** Quoted-printable: proofs. *)
From Verif Require Import Bytes Outcome Stream Tokenizer QuotedPrintable BytesFacts StreamFacts
  TokenizerFacts SpecText.

Lemma is_wsp_WSP c : is_wsp c = true <-> WSP c.
Proof. unfold is_wsp, WSP. rewrite orb_true_iff, !ceqb_eq. tauto. Qed.
Lemma forallb_WSP w : forallb is_wsp w = true <-> Forall WSP w.
Proof.
  rewrite forallb_forall, Forall_forall. split; intros H x Hx; apply is_wsp_WSP, H, Hx.
Qed.

(** What the FWS reader returns is FWS. *)
Lemma l_fws_FWS r w r' : l_fws r = Some (w, r') -> w <> [] -> FWS w.
Proof.
  unfold l_fws. destruct (span is_wsp r) as [a b] eqn:E.
  pose proof (span_all _ _ _ _ E) as A. apply forallb_WSP in A.
  destruct b as [|c b].
  - intros [= <- <-] N. constructor; auto.
  - destruct (c =?c CR) eqn:C; [|intros [= <- <-] N; constructor; auto].
    destruct b as [|d b]; [discriminate|]. destruct (d =?c LF); [|discriminate].
    destruct (span is_wsp b) as [w2 r4] eqn:E2.
    pose proof (span_all _ _ _ _ E2) as A2. apply forallb_WSP in A2.
    destruct w2 as [|x w2]; intros [= <- <-] N; [congruence|].
    apply FWS_fold; auto. discriminate.
Qed.

(** The same grammar, one byte (or one fold) at a time. *)
Inductive qe (us : bool) : bytes -> bytes -> Prop :=
| qe_end : qe us [] []
| qe_under s d : us = true -> qe us s d -> qe us (chr 95 :: s) (SP :: d)
| qe_char c s d : printable c -> c <> SEMI -> c <> EQUALS -> (us = true -> c <> chr 95) ->
    qe us s d -> qe us (c :: s) (c :: d)
| qe_hex h1 h2 a b s d : hex_digit h1 a -> hex_digit h2 b ->
    qe us s d -> qe us (EQUALS :: h1 :: h2 :: s) (chr (16 * a + b) :: d)
| qe_wsp c s d : WSP c -> qe us s d -> qe us (c :: s) d
| qe_fold c s d : WSP c -> qe us s d -> qe us (CR :: LF :: c :: s) d.

Lemma qe_wsps us w s d : Forall WSP w -> qe us s d -> qe us (w ++ s) d.
Proof. induction 1; cbn; auto. intros. apply qe_wsp; auto. Qed.
Lemma qe_FWS us w s d : FWS w -> qe us s d -> qe us (w ++ s) d.
Proof.
  intros [v H N|w1 w2 H1 H2 N] Q.
  - apply qe_wsps; auto.
  - rewrite <- !app_assoc. apply qe_wsps; auto. destruct w2 as [|c w2]; [congruence|].
    inversion H2; subst. cbn. apply qe_fold; auto. apply qe_wsps; auto.
Qed.
Lemma qp_qe us s d : qp_text us s d <-> qe us s d.
Proof.
  split; induction 1; try (econstructor; eauto; fail).
  - apply qe_FWS; auto.
  - apply (qp_space us [c]); auto. constructor; [constructor; auto|discriminate].
  - apply (qp_space us ([] ++ CRLF ++ [c])); auto.
    apply FWS_fold; auto. discriminate.
Qed.

Lemma WSP_not_print c : WSP c -> ~ printable c.
Proof. intros [->| ->] []; cbn in *; unfold SP, HT in *; vm_compute in H, H0; congruence. Qed.

Lemma CR_not_print : ~ printable CR.
Proof. intros []. vm_compute in H. congruence. Qed.

(** Inversions. *)
Lemma qe_wsp_inv us c s d : WSP c -> qe us (c :: s) d -> qe us s d.
Proof.
  intros W Q. inversion Q; subst; auto.
  - destruct W; discriminate.
  - exfalso. eapply WSP_not_print; eauto.
  - destruct W; discriminate.
  - destruct W; discriminate.
Qed.
Lemma qe_wsps_inv us w s d : Forall WSP w -> qe us (w ++ s) d -> qe us s d.
Proof. induction 1; cbn; auto. intros Q. apply qe_wsp_inv in Q; auto. Qed.
Lemma qe_CR_inv us s d : qe us (CR :: s) d -> exists c s', s = LF :: c :: s' /\ WSP c /\ qe us s' d.
Proof.
  intros Q. inversion Q; subst; try discriminate.
  - exfalso. apply CR_not_print. auto.
  - destruct H1; discriminate.
  - eauto.
Qed.

Lemma qe_FWS_inv us w s d : FWS w -> qe us (w ++ s) d -> qe us s d.
Proof.
  intros [v H N|w1 w2 H1 H2 N] Q.
  - eapply qe_wsps_inv; eauto.
  - rewrite <- !app_assoc in Q. apply qe_wsps_inv in Q; auto. apply qe_CR_inv in Q.
    destruct Q as (c & s' & E & W & Q). destruct w2 as [|x w2]; [congruence|].
    cbn in E. injection E as -> <-. inversion H2; subst. eapply qe_wsps_inv; eauto.
Qed.

(** When nothing (or an error) is read although the text starts with WSP or CR, no reading exists. *)
Lemma l_fws_stuck us r d :
  match r with [] => False | c :: _ => is_wsp c = true \/ c = CR end ->
  match l_fws r with Some ([], _) => True | None => True | _ => False end ->
  ~ qe us r d.
Proof.
  intros F L Q. unfold l_fws in L. destruct (span is_wsp r) as [a b] eqn:E.
  pose proof (span_all _ _ _ _ E) as A. apply forallb_WSP in A.
  pose proof (span_app _ _ _ _ E) as EA. rewrite EA in Q. apply qe_wsps_inv in Q; auto.
  pose proof (span_stop _ _ _ _ E) as SS.
  destruct b as [|c b].
  - destruct a; [|destruct L]. subst. destruct F.
  - destruct (c =?c CR) eqn:C.
    + apply ceqb_eq in C. subst c. apply qe_CR_inv in Q. destruct Q as (x & s' & -> & W & Q).
      rewrite ceqb_refl in L. cbn [span] in L. apply is_wsp_WSP in W. rewrite W in L.
      destruct (span is_wsp s'). destruct a; exact L.
    + apply ceqb_neq in C. destruct a; [|destruct L]. subst r. cbn [app] in F. destruct F; congruence.
Qed.

Lemma in_range_between lo hi c : in_range lo hi c = true <-> between lo hi c.
Proof. unfold in_range, between. rewrite andb_true_iff, !N.leb_le. tauto. Qed.

Lemma is_uhex_spec h : is_uhex h = true <-> hex_digit h (uhex_val h).
Proof.
  unfold is_uhex, uhex_val. rewrite orb_true_iff, !in_range_between. split.
  - intros [H|H].
    + apply in_range_between in H. rewrite H. apply hex_AF. apply in_range_between; auto.
    + replace (in_range 65 70 h) with false. { apply hex_09; auto. }
      symmetry. unfold in_range. destruct H. apply andb_false_iff. left. apply N.leb_gt. lia.
  - intros H. inversion H; subst; auto.
Qed.
Lemma hex_digit_uhex h v : hex_digit h v -> is_uhex h = true /\ uhex_val h = v.
Proof.
  intros H. unfold is_uhex, uhex_val. inversion H; subst.
  - assert (in_range 65 70 h = false) as ->.
    { unfold in_range. destruct H0. apply andb_false_iff. left. apply N.leb_gt. lia. }
    split; auto. cbn. apply in_range_between; auto.
  - apply in_range_between in H0. rewrite H0. auto.
Qed.

Lemma qp_safe_spec c : qp_safe c = true <-> printable c /\ c <> SEMI /\ c <> EQUALS.
Proof.
  enough (Hb : forall c, Bool.eqb (qp_safe c) (in_range 33 126 c && negb (c =?c SEMI) && negb (c =?c EQUALS)) = true).
  { specialize (Hb c). apply Bool.eqb_prop in Hb. rewrite Hb, !andb_true_iff, !negb_true_iff, !ceqb_neq.
    rewrite in_range_between. tauto. }
  apply byte_sweep. vm_compute. reflexivity.
Qed.

(** The decoder against the grammar. *)
Lemma qp_loop_spec us f : forall s p r out, St s p r -> length r < f ->
  (exists d, qe us r d /\ qp_loop f us s out = Ok (out ++ d)) \/
  ((forall d, ~ qe us r d) /\ qp_loop f us s out = perm).
Proof.
  induction f as [|f IH]; intros s p r out H L; [lia|]. cbn [qp_loop].
  destruct r as [|c r]; peek_at H.
  { left. exists []. rewrite app_nil_r. split; [constructor|reflexivity]. }
  cbn [length] in L.
  destruct (us && (c =?c USCORE)) eqn:U.
  { apply andb_true_iff in U as [U1 U2]. apply ceqb_eq in U2. subst c.
    get_at H. destruct (IH _ _ _ (out ++ [SP]) H0 ltac:(lia)) as [(d & Q & R)|(Q & R)]; rewrite R.
    - left. exists (SP :: d). rewrite <- app_assoc. split; auto. apply qe_under; auto.
    - right. split; auto. intros d Qd. inversion Qd; subst; try discriminate; auto.
      + eapply Q; eauto.
      + apply H6; auto.
      + destruct H3; discriminate. }
  destruct (c =?c EQUALS) eqn:EQ.
  { apply ceqb_eq in EQ. subst c. get_at H.
    assert (INV : forall d, qe us (EQUALS :: r) d ->
      exists h1 h2 a b s' d', r = h1 :: h2 :: s' /\ hex_digit h1 a /\ hex_digit h2 b /\ qe us s' d' /\ d = chr (16*a+b) :: d').
    { intros d Q. inversion Q; subst; try congruence; try discriminate.
      - eauto 12.
      - destruct H3; discriminate. }
    destruct r as [|h1 r]; peek_at H0.
    { right. split; auto. intros d Q. apply INV in Q. destruct Q as (? & ? & ? & ? & ? & ? & ? & _). discriminate. }
    destruct (is_uhex h1) eqn:X1.
    2:{ right. split; auto. intros d Q. apply INV in Q. destruct Q as (? & ? & ? & ? & ? & ? & E9 & X & _).
        injection E9 as <- ->. apply hex_digit_uhex in X. destruct X; congruence. }
    get_at H0. destruct r as [|h2 r]; peek_at H1.
    { right. split; auto. intros d Q. apply INV in Q. destruct Q as (? & ? & ? & ? & ? & ? & ? & _). discriminate. }
    destruct (is_uhex h2) eqn:X2.
    2:{ right. split; auto. intros d Q. apply INV in Q. destruct Q as (? & ? & ? & ? & ? & ? & E9 & _ & X & _).
        injection E9 as <- <- ->. apply hex_digit_uhex in X. destruct X; congruence. }
    get_at H1. cbn [length] in L.
    destruct (IH _ _ _ (out ++ [chr (16 * uhex_val h1 + uhex_val h2)]) H2 ltac:(lia)) as [(d & Q & R)|(Q & R)]; rewrite R.
    - left. eexists. rewrite <- app_assoc. split; [|reflexivity]. cbn [app].
      apply qe_hex; auto; apply is_uhex_spec; auto.
    - right. split; auto. intros d Qd. apply INV in Qd.
      destruct Qd as (? & ? & ? & ? & ? & ? & E3 & _ & _ & X & _). injection E3 as <- <- <-. eapply Q; eauto. }
  apply ceqb_neq in EQ.
  destruct (qp_safe c) eqn:QS.
  { apply qp_safe_spec in QS. destruct QS as (P1 & P2 & P3).
    assert (PU : us = true -> c <> chr 95).
    { intros -> ->. discriminate. }
    get_at H. destruct (IH _ _ _ (out ++ [c]) H0 ltac:(lia)) as [(d & Q & R)|(Q & R)]; cbn [as_char]; rewrite R.
    - left. exists (c :: d). rewrite <- app_assoc. split; auto. apply qe_char; auto.
    - right. split; auto. intros d Qd. inversion Qd; subst; try congruence; auto.
      + apply PU; auto.
      + eapply Q; eauto.
      + eapply WSP_not_print; eauto.
      + eapply CR_not_print; eauto. }
  assert (NP : ~ (printable c /\ c <> SEMI /\ c <> EQUALS)).
  { rewrite <- qp_safe_spec. congruence. }
  destruct (is_wsp c || (c =?c CR)) eqn:WC.
  - (* whitespace *)
    assert (WC' : is_wsp c = true \/ c = CR).
    { apply orb_true_iff in WC. rewrite ceqb_eq in WC. exact WC. }
    pose proof (read_fws_St s p (c :: r) H) as RF.
    pose proof (l_fws_stuck us (c :: r)) as ST. cbn beta iota in ST.
    destruct (l_fws (c :: r)) as [[w r']|] eqn:LF1.
    + destruct RF as (s2 & RF & H2). rewrite RF. cbn [obind].
      destruct w as [|x w].
      * right. split; [|reflexivity]. intros d. apply ST; auto.
      * pose proof (l_fws_app _ _ _ LF1) as EA. pose proof (l_fws_FWS _ _ _ LF1 ltac:(discriminate)) as FW.
        pose proof (l_fws_length _ _ _ LF1) as EL. cbn [length] in EL.
        destruct (IH _ _ _ out H2 ltac:(lia)) as [(d & Q & R)|(Q & R)]; rewrite R; rewrite EA.
        -- left. exists d. split; auto. apply qe_FWS; auto.
        -- right. split; auto. intros d Qd. eapply Q. eapply qe_FWS_inv; eauto.
    + rewrite RF. right. split; [|reflexivity]. intros d. apply ST; auto.
  - apply orb_false_iff in WC as [W1 W2]. apply ceqb_neq in W2.
    pose proof (read_fws_St s p (c :: r) H) as RF. rewrite (l_fws_none c r W1 W2) in RF.
    destruct RF as (s2 & -> & H2). cbn [obind]. right. split; auto.
    intros d Q. inversion Q; subst; try congruence; auto.
    + vm_compute in U. discriminate.
    + apply is_wsp_WSP in H3. congruence.
Qed.

Lemma qe_fun us s d1 d2 : qe us s d1 -> qe us s d2 -> d1 = d2.
Proof.
  intros Q1. revert d2. induction Q1; intros d2 Q2.
  - inversion Q2; auto.
  - inversion Q2; subst; try discriminate.
    + f_equal; auto.
    + exfalso; match goal with H : _ = true -> _ <> _ |- _ => apply H; auto end.
    + destruct H2; discriminate.
  - inversion Q2; subst; try congruence.
    + exfalso; match goal with H : _ = true -> _ <> _ |- _ => apply H; auto end.
    + f_equal; auto.
    + exfalso; eapply WSP_not_print; eauto.
    + exfalso; eapply CR_not_print; eauto.
  - inversion Q2; subst; try congruence.
    + repeat match goal with H : hex_digit _ _ |- _ => apply hex_digit_uhex in H; destruct H end.
      subst. f_equal; auto.
    + destruct H3; discriminate.
  - apply qe_wsp_inv in Q2; auto.
  - apply qe_CR_inv in Q2. destruct Q2 as (c' & s' & E & _ & Q). injection E as <- <-. auto.
Qed.

Lemma qp_decode_grammar us s :
  (forall d, qp_decode s us = Ok d <-> qp_text us s d) /\
  ((forall d, ~ qp_text us s d) -> qp_decode s us = perm).
Proof.
  unfold qp_decode. rewrite (St_fuel _ _ _ (St_open s)).
  destruct (qp_loop_spec us (S (length s)) _ _ _ [] (St_open s) ltac:(lia)) as [(d & Q & R)|(Q & R)]; rewrite R.
  - split.
    + intros d'. rewrite qp_qe. split.
      * intros [= <-]. exact Q.
      * intros Q'. f_equal. eapply qe_fun; eauto.
    + intros N. exfalso. apply (N d). apply qp_qe; auto.
  - split; auto. intros d. rewrite qp_qe. split; [discriminate|]. intros Q'. destruct (Q d Q').
Qed.

(** The encoder. *)
Definition qp_unit (c : ascii) : bytes :=
  if qp_plain c then [c] else [EQUALS; qp_digit (code c / 16); qp_digit (code c mod 16)].
Lemma qp_encode_cons c s : qp_encode (c :: s) = qp_unit c ++ qp_encode s.
Proof. reflexivity. Qed.

Lemma qp_plain_safe c : qp_plain c = qp_safe c.
Proof. apply Bool.eqb_prop. revert c. apply byte_sweep. vm_compute. reflexivity. Qed.

Lemma qp_unit_decodes c s d : qe false s d -> qe false (qp_unit c ++ s) (c :: d).
Proof.
  intros Q. unfold qp_unit. destruct (qp_plain c) eqn:P.
  - rewrite qp_plain_safe in P. apply qp_safe_spec in P. destruct P as (P1 & P2 & P3).
    apply qe_char; auto. discriminate.
  - assert (T : (is_uhex (qp_digit (code c / 16)) && is_uhex (qp_digit (code c mod 16)) &&
      (chr (16 * uhex_val (qp_digit (code c / 16)) + uhex_val (qp_digit (code c mod 16))) =?c c)) = true).
    { revert c P. enough (H : forall c, (qp_plain c || (is_uhex (qp_digit (code c / 16)) && is_uhex (qp_digit (code c mod 16)) &&
      (chr (16 * uhex_val (qp_digit (code c / 16)) + uhex_val (qp_digit (code c mod 16))) =?c c))) = true).
      { intros c P. specialize (H c). rewrite P in H. exact H. }
      apply byte_sweep. vm_compute. reflexivity. }
    apply andb_true_iff in T as [T T3]. apply andb_true_iff in T as [T1 T2].
    apply ceqb_eq in T3. rewrite <- T3 at 3.
    cbn [app]. apply qe_hex; auto; apply is_uhex_spec; auto.
Qed.

Lemma qp_encode_qe s : qe false (qp_encode s) s.
Proof.
  induction s as [|c s IH]; [constructor|]. rewrite qp_encode_cons. apply qp_unit_decodes; auto.
Qed.

Lemma qp_round_trip s : qp_decode (qp_encode s) false = Ok s.
Proof. apply qp_decode_grammar, qp_qe, qp_encode_qe. Qed.

Lemma qp_output_safe s : Forall (fun c => printable c /\ c <> SEMI) (qp_encode s).
Proof.
  induction s as [|c s IH]; [constructor|]. rewrite qp_encode_cons. apply Forall_app. split; auto.
  assert (T : forallb (fun x => in_range 33 126 x && negb (x =?c SEMI)) (qp_unit c) = true).
  { revert c. apply byte_sweep. vm_compute. reflexivity. }
  rewrite forallb_forall in T. apply Forall_forall. intros x Hx. apply T in Hx.
  apply andb_true_iff in Hx as [H1 H2]. split.
  - apply in_range_between; auto.
  - apply negb_true_iff, ceqb_neq in H2. auto.
Qed.
