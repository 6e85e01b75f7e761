(** EncodedWord::Decode computes [decoded]. *)
From Verif Require Import Bytes Outcome Stream Tokenizer QuotedPrintable Base64 EncodedWord SpecText SpecWord BytesFacts StreamFacts TokenizerFacts QPFacts ListFacts.

Definition clear_of (r : bytes) : Prop := first_ok (fun c => is_wsp c = false /\ c <> CR) r.
Lemma ew_space_gap w v : gap w v -> forall f s p r ws, St s p (w ++ r) -> clear_of r -> length w < f ->
  exists s', ew_space f s ws = Ok (ws ++ v, s') /\ St s' (rev w ++ p) r.
Proof.
  induction 1 as [|c w v W G IH|w v G IH]; intros f s p r ws H CL L; (destruct f as [|f]; [cbn in L; lia|]); cbn [ew_space].
  - cbn [app] in H. destruct (read_wsp_no s p r H) as (s1 & E1 & H1). { destruct r; [exact I|apply CL]. }
    rewrite E1. destruct (read_crlf_no s1 p r H1) as (s2 & E2 & H2). { destruct r; [exact I|apply CL]. }
    rewrite E2. cbn [obind]. rewrite app_nil_r. eauto.
  - apply is_wsp_WSP in W. cbn [app] in H. destruct (read_wsp_yes s p c _ H W) as (s1 & E1 & H1). rewrite E1.
    destruct (IH f s1 _ r (ws ++ [c]) H1 CL) as (s2 & E2 & H2); [cbn in L; lia|]. rewrite E2, <- app_assoc. eexists. split; [reflexivity|].
    cbn [rev]. rewrite <- app_assoc. exact H2.
  - cbn [app] in H. destruct (read_wsp_no s p _ H) as (s1 & E1 & H1). { reflexivity. }
    rewrite E1. destruct (read_crlf_yes s1 p _ H1) as (s2 & E2 & H2). rewrite E2. cbn [obind CRLF].
    destruct (IH f s2 _ r ws H2 CL) as (s3 & E3 & H3); [cbn in L; lia|]. rewrite E3. eexists. split; [reflexivity|].
    cbn [rev]. rewrite <- !app_assoc. exact H3.
Qed.
Lemma gap_lone w v : gap w v -> forall f s p r ws, St s p (w ++ CR :: r) -> first_ok (fun c => c <> LF) r -> length w < f -> ew_space f s ws = perm.
Proof.
  induction 1 as [|c w v W G IH|w v G IH]; intros f s p r ws H CL L; (destruct f as [|f]; [cbn in L; lia|]); cbn [ew_space].
  - cbn [app] in H. destruct (read_wsp_no s p _ H) as (s1 & E1 & H1). { reflexivity. }
    rewrite E1, (read_crlf_throw s1 p r H1); [reflexivity|]. destruct r; [exact I|exact CL].
  - apply is_wsp_WSP in W. cbn [app] in H. destruct (read_wsp_yes s p c _ H W) as (s1 & E1 & H1). rewrite E1.
    eapply IH; eauto. cbn in L; lia.
  - cbn [app] in H. destruct (read_wsp_no s p _ H) as (s1 & E1 & H1). { reflexivity. }
    rewrite E1. destruct (read_crlf_yes s1 p _ H1) as (s2 & E2 & H2). rewrite E2. cbn [obind CRLF].
    eapply IH; eauto. cbn in L; lia.
Qed.
Lemma gap_split r : exists w v r', r = w ++ r' /\ gap w v /\ (clear_of r' \/ exists x, r' = CR :: x /\ first_ok (fun c => c <> LF) x).
Proof.
  induction r as [r IH] using (well_founded_induction (Wf_nat.well_founded_ltof _ (@length ascii))). unfold Wf_nat.ltof in IH. destruct r as [|c r].
  - exists [], [], []. repeat split; [constructor|]. left. exact I.
  - destruct (is_wsp c) eqn:W.
    + destruct (IH r) as (w & v & r' & -> & G & K); [cbn; lia|]. exists (c :: w), (c :: v), r'. split; [reflexivity|]. split; [|exact K].
      constructor; auto. apply is_wsp_WSP. exact W.
    + destruct (ascii_dec c CR) as [->|N].
      * destruct r as [|e r]. { exists [], [], [CR]. split; [reflexivity|]. split; [constructor|]. right. exists []. split; [reflexivity|exact I]. }
        destruct (ascii_dec e LF) as [->|N].
        -- destruct (IH r) as (w & v & r' & -> & G & K); [cbn; lia|]. exists (CR :: LF :: w), v, r'. split; [reflexivity|]. split; [|exact K]. constructor; auto.
        -- exists [], [], (CR :: e :: r). split; [reflexivity|]. split; [constructor|]. right. exists (e :: r). split; [reflexivity|exact N].
      * exists [], [], (c :: r). split; [reflexivity|]. split; [constructor|]. left. split; auto.
Qed.

Lemma MARK_Q : QMARK = MARK. Proof. reflexivity. Qed.
Lemma ew_until_end x : ~ In MARK x -> forall f s p acc, St s p x -> length x < f ->
  exists s', ew_until f s acc = Ok (true, acc ++ x, s') /\ St s' (rev x ++ p) [].
Proof.
  induction x as [|c x IH]; intros NI f s p acc H L; (destruct f as [|f]; [cbn in L; lia|]); cbn [ew_until].
  - peek_at H. rewrite app_nil_r. eauto.
  - peek_at H. rewrite MARK_Q, ceqb_false by (intros ->; apply NI; left; reflexivity). get_at H. cbn [as_char].
    destruct (IH ltac:(intros K; apply NI; right; exact K) f s0 _ (acc ++ [c]) H0) as (s' & E' & H'); [cbn in L; lia|]. rewrite E', <- app_assoc. eexists. split; [reflexivity|].
    cbn [rev]. rewrite <- app_assoc. exact H'.
Qed.
Lemma ew_until_mark x : ~ In MARK x -> forall f s p r acc, St s p (x ++ MARK :: r) -> length x < f ->
  exists s', ew_until f s acc = Ok (false, acc ++ x, s') /\ St s' (rev x ++ p) (MARK :: r).
Proof.
  induction x as [|c x IH]; intros NI f s p r acc H L; (destruct f as [|f]; [cbn in L; lia|]); cbn [ew_until app] in *.
  - peek_at H. rewrite MARK_Q, ceqb_refl, app_nil_r. eauto.
  - peek_at H. rewrite MARK_Q, ceqb_false by (intros ->; apply NI; left; reflexivity). get_at H. cbn [as_char].
    destruct (IH ltac:(intros K; apply NI; right; exact K) f s0 _ r (acc ++ [c]) H0) as (s' & E' & H'); [cbn in L; lia|]. rewrite E', <- app_assoc. eexists. split; [reflexivity|].
    cbn [rev]. rewrite <- app_assoc. exact H'.
Qed.
Lemma ew_field_end s p x : ~ In MARK x -> St s p (MARK :: x) ->
  exists s', ew_field false s = Ok (true, x, MARK :: x, s') /\ St s' (rev x ++ MARK :: p) [].
Proof.
  intros NI H. unfold ew_field. peek_at H. rewrite MARK_Q, ceqb_refl. get_at H. rewrite (St_fuel _ _ _ H0).
  destruct (ew_until_end x NI (S (length x)) s0 _ [] H0 ltac:(lia)) as (s' & E' & H'). rewrite E'. cbn [obind app as_char]. eauto.
Qed.
Lemma ew_field_mark s p x r : ~ In MARK x -> St s p (MARK :: x ++ MARK :: r) ->
  exists s', ew_field false s = Ok (false, x, MARK :: x, s') /\ St s' (rev x ++ MARK :: p) (MARK :: r).
Proof.
  intros NI H. unfold ew_field. peek_at H. rewrite MARK_Q, ceqb_refl. get_at H. rewrite (St_fuel _ _ _ H0).
  destruct (ew_until_mark x NI (S (length (x ++ MARK :: r))) s0 _ r [] H0) as (s' & E' & H'). { rewrite app_length. cbn. lia. }
  rewrite E'. cbn [obind app as_char]. eauto.
Qed.
Lemma ew_field_none s p r : first_ok (fun c => c <> MARK) r -> St s p r -> exists s', ew_field false s = Ok (true, [], [], s') /\ St s' p r.
Proof.
  intros F H. unfold ew_field. destruct r as [|c r]; peek_at H; [eauto|]. rewrite MARK_Q, ceqb_false by exact F. eauto.
Qed.
Lemma ew_close_mark s p r : first_ok (fun c => c <> EQUALS) r -> St s p (MARK :: r) -> exists s', ew_close false s = (true, [MARK], s') /\ St s' (MARK :: p) r.
Proof.
  intros F H. unfold ew_close. peek_at H. rewrite MARK_Q, ceqb_refl. get_at H. destruct r as [|c r]; peek_at H0; [eauto|]. rewrite ceqb_false by exact F. eauto.
Qed.
Definition bad_follow (r : bytes) : bool := match r with [] => false | c :: _ => negb (is_lwsp c) end.
Lemma ew_close_end s p r : St s p (MARK :: EQUALS :: r) -> exists s', ew_close false s = (bad_follow r, [MARK; EQUALS], s') /\ St s' (EQUALS :: MARK :: p) r.
Proof.
  intros H. unfold ew_close. peek_at H. rewrite MARK_Q, ceqb_refl. get_at H. peek_at H0. rewrite ceqb_refl. get_at H0.
  destruct r as [|c r]; peek_at H1; cbn [as_char bad_follow]; eauto.
Qed.
Lemma content_decided junk enc x :
  (exists y, ew_payload junk false enc x = Ok (Some y) /\ content junk enc x y) \/ (ew_payload junk false enc x = Ok None /\ forall y, ~ content junk enc x y).
Proof.
  unfold ew_payload, content. destruct (beqb enc (str "q") || beqb enc (str "Q")) eqn:Q.
  - rewrite orb_true_iff, !beqb_eq in Q. destruct (qp_decode_grammar true x) as [G1 G2].
    assert (NB : ~ (enc = str "b" \/ enc = str "B")). { destruct Q as [-> | ->]; intros [B|B]; discriminate. }
    destruct (qp_decode x true) as [d|e|k|] eqn:D.
    + left. exists d. split; [reflexivity|]. left. split; auto. apply G1. reflexivity.
    + right. split; [reflexivity|]. intros y [[_ Y]|[B _]]; [|tauto]. apply G1 in Y. discriminate.
    + exfalso. discriminate G2. intros d Y. apply G1 in Y. discriminate.
    + exfalso. discriminate G2. intros d Y. apply G1 in Y. discriminate.
  - rewrite orb_false_iff in Q. destruct Q as [Q1 Q2].
    assert (NQ : ~ (enc = str "q" \/ enc = str "Q")). { intros [-> | ->]; [rewrite beqb_refl in Q1|rewrite beqb_refl in Q2]; discriminate. }
    destruct (beqb enc (str "b") || beqb enc (str "B")) eqn:B.
    + rewrite orb_true_iff, !beqb_eq in B. left. eexists. split; [reflexivity|]. right. auto.
    + rewrite orb_false_iff in B. destruct B as [B1 B2]. right. split; [reflexivity|]. intros y [[Q _]|[[-> | ->] _]]; [tauto| |];
        [rewrite beqb_refl in B1|rewrite beqb_refl in B2]; discriminate.
Qed.
Lemma content_fun junk enc x y : content junk enc x y -> ew_payload junk false enc x = Ok (Some y).
Proof.
  intros K. destruct (content_decided junk enc x) as [(z & E & Z)|(_ & N)]; [|destruct (N y K)]. rewrite E. f_equal. f_equal.
  destruct K as [[Q K]|[B K]], Z as [[Q' Z]|[B' Z]].
  - destruct (qp_decode_grammar true x) as [G _]. apply G in K, Z. congruence.
  - destruct Q, B'; subst; discriminate.
  - destruct B, Q'; subst; discriminate.
  - congruence.
Qed.

(** Steps of the loop. *)
Section Steps.
  Variables (junk : bytes -> bytes) (f : nat) (s : istream) (p w v out : bytes).
  Hypothesis G : gap w v.
  Lemma step_space r : St s p (w ++ r) -> clear_of r -> exists s', ew_space (fuel_of s) s [] = Ok (v, s') /\ St s' (rev w ++ p) r.
  Proof. intros H CL. rewrite (St_fuel _ _ _ H). apply (ew_space_gap w v G _ s p r [] H CL). rewrite app_length. lia. Qed.
  Lemma step_end : St s p w -> ew_loop junk (S f) s [] out = Ok out.
  Proof.
    intros H. rewrite <- (app_nil_r w) in H. cbn [ew_loop]. destruct (step_space [] H I) as (s1 & E1 & H1). rewrite E1. cbn [obind]. peek_at H1. reflexivity.
  Qed.
  Lemma step_char c r : St s p (w ++ c :: r) -> ~ WSP c -> c <> CR -> c <> EQUALS ->
    exists s' p', ew_loop junk (S f) s [] out = ew_loop junk f s' [] (out ++ v ++ [c]) /\ St s' p' r.
  Proof.
    intros H NW NC NE. cbn [ew_loop]. destruct (step_space (c :: r) H) as (s1 & E1 & H1).
    { split; auto. apply not_true_iff_false. rewrite is_wsp_WSP. exact NW. }
    rewrite E1. cbn [obind]. peek_at H1. rewrite (ceqb_false c EQUALS) by auto. get_at H1. cbn [as_char]. eauto.
  Qed.
  Lemma step_lone r : St s p (w ++ CR :: r) -> first_ok (fun c => c <> LF) r -> ew_loop junk (S f) s [] out = perm.
  Proof. intros H F. cbn [ew_loop]. rewrite (St_fuel _ _ _ H), (gap_lone w v G _ s p r [] H F); [reflexivity|]. rewrite app_length. lia. Qed.
  Lemma clear_eq r : clear_of (EQUALS :: r). Proof. split; [reflexivity|discriminate]. Qed.
  Lemma step_bad b r : St s p (w ++ b ++ r) -> bad junk b r ->
    exists s' p', ew_loop junk (S f) s [] out = ew_loop junk f s' [] (out ++ v ++ b) /\ St s' p' r.
  Proof.
    intros H B. assert (exists b', b = EQUALS :: b') as (b' & ->) by (destruct B; eexists; reflexivity).
    cbn [ew_loop]. cbn [app] in H. destruct (step_space _ H (clear_eq _)) as (s1 & E1 & H1). rewrite E1. cbn [obind]. peek_at H1. rewrite ceqb_refl.
    get_at H1. inversion B as [r0 F|x NI|cs x NI1 NI2|cs enc x P|cs enc x r0 P F|cs enc x c r0 P F|cs enc x r0 P WE NC]; subst; cbn [app] in H0; cbn [as_char].
    - destruct (ew_field_none _ _ _ F H0) as (s3 & E3 & H3). rewrite E3. cbn. eexists _, _. split; [reflexivity|exact H3].
    - rewrite app_nil_r in H0. destruct (ew_field_end _ _ _ NI H0) as (s3 & E3 & H3). rewrite E3. cbn. rewrite !app_nil_r. eexists _, _. split; [reflexivity|exact H3].
    - rewrite app_nil_r in H0. destruct (ew_field_mark _ _ _ _ NI1 H0) as (s3 & E3 & H3). rewrite E3. cbn [obind].
      destruct (ew_field_end _ _ _ NI2 H3) as (s4 & E4 & H4). rewrite E4. cbn. rewrite !app_nil_r. eexists _, _. split; [reflexivity|exact H4].
    - destruct P as (P1 & P2 & P3). rewrite app_nil_r in H0. destruct (ew_field_mark _ _ _ _ P1 H0) as (s3 & E3 & H3). rewrite E3. cbn [obind].
      destruct (ew_field_mark _ _ _ _ P2 H3) as (s4 & E4 & H4). rewrite E4. cbn [obind].
      destruct (ew_field_end _ _ _ P3 H4) as (s5 & E5 & H5). rewrite E5. cbn. rewrite !app_nil_r. eexists _, _. split; [reflexivity|exact H5].
    - destruct P as (P1 & P2 & P3). repeat (rewrite <- app_assoc in H0; cbn [app] in H0). destruct (ew_field_mark _ _ _ _ P1 H0) as (s3 & E3 & H3). rewrite E3. cbn [obind].
      destruct (ew_field_mark _ _ _ _ P2 H3) as (s4 & E4 & H4). rewrite E4. cbn [obind].
      destruct (ew_field_mark _ _ _ _ P3 H4) as (s5 & E5 & H5). rewrite E5. cbn [obind].
      destruct (ew_close_mark _ _ _ F H5) as (s6 & E6 & H6). rewrite E6. cbn.
      eexists _, _. split; [|exact H6]. repeat (rewrite <- ?app_assoc; cbn [app]). reflexivity.
    - destruct P as (P1 & P2 & P3). repeat (rewrite <- app_assoc in H0; cbn [app] in H0). destruct (ew_field_mark _ _ _ _ P1 H0) as (s3 & E3 & H3). rewrite E3. cbn [obind].
      destruct (ew_field_mark _ _ _ _ P2 H3) as (s4 & E4 & H4). rewrite E4. cbn [obind].
      destruct (ew_field_mark _ _ _ _ P3 H4) as (s5 & E5 & H5). rewrite E5. cbn [obind].
      destruct (ew_close_end _ _ _ H5) as (s6 & E6 & H6). rewrite E6. cbn [bad_follow].
      replace (negb (is_lwsp c)) with true. 2: { symmetry. apply negb_true_iff, not_true_iff_false. rewrite is_lwsp_LWSP. exact F. }
      cbn. eexists _, _. split; [|exact H6]. repeat (rewrite <- ?app_assoc; cbn [app]). reflexivity.
    - destruct P as (P1 & P2 & P3). repeat (rewrite <- app_assoc in H0; cbn [app] in H0). destruct (ew_field_mark _ _ _ _ P1 H0) as (s3 & E3 & H3). rewrite E3. cbn [obind].
      destruct (ew_field_mark _ _ _ _ P2 H3) as (s4 & E4 & H4). rewrite E4. cbn [obind].
      destruct (ew_field_mark _ _ _ _ P3 H4) as (s5 & E5 & H5). rewrite E5. cbn [obind].
      destruct (ew_close_end _ _ _ H5) as (s6 & E6 & H6). rewrite E6.
      replace (bad_follow r) with false. 2: { destruct r as [|c r]; [reflexivity|]. cbn. symmetry. apply negb_false_iff, is_lwsp_LWSP. exact WE. }
      destruct (content_decided junk enc x) as [(y & _ & K)|(K & _)]; [destruct (NC y K)|]. rewrite K. cbn [obind].
      eexists _, _. split; [|exact H6]. repeat (rewrite <- ?app_assoc; cbn [app]). reflexivity.
  Qed.
  Lemma step_word cs enc x y r : St s p (w ++ word cs enc x ++ r) -> parts cs enc x -> word_end r -> content junk enc x y ->
    exists s' p', ew_loop junk (S f) s [] out = ew_loop junk f s' [] (out ++ y) /\ St s' p' r.
  Proof.
    intros H (P1 & P2 & P3) WE K. unfold word in H. cbn [app] in H.
    cbn [ew_loop]. destruct (step_space _ H (clear_eq _)) as (s1 & E1 & H1). rewrite E1. cbn [obind]. peek_at H1. rewrite ceqb_refl.
    get_at H1. cbn [as_char]. repeat (rewrite <- app_assoc in H0; cbn [app] in H0). destruct (ew_field_mark _ _ _ _ P1 H0) as (s3 & E3 & H3). rewrite E3. cbn [obind].
    destruct (ew_field_mark _ _ _ _ P2 H3) as (s4 & E4 & H4). rewrite E4. cbn [obind].
    destruct (ew_field_mark _ _ _ _ P3 H4) as (s5 & E5 & H5). rewrite E5. cbn [obind].
    destruct (ew_close_end _ _ _ H5) as (s6 & E6 & H6). rewrite E6.
    replace (bad_follow r) with false. 2: { destruct r as [|c r]; [reflexivity|]. cbn. symmetry. apply negb_false_iff, is_lwsp_LWSP. exact WE. }
    rewrite (content_fun _ _ _ _ K). cbn [obind]. eauto.
  Qed.
End Steps.

Lemma bad_nonempty junk b r : bad junk b r -> b <> []. Proof. intros B. destruct B; discriminate. Qed.
Lemma loop_decoded junk r d : decoded junk r d -> forall f s p out, St s p r -> length r < f -> ew_loop junk f s [] out = Ok (out ++ d).
Proof.
  induction 1 as [w v G|w v c r d G NW NC NE D IH|w v cs enc x r y d G P WE K D IH|w v b r d G B D IH]; intros f s p out H L; (destruct f as [|f]; [cbn in L; lia|]).
  - rewrite (step_end junk f s p w v out G H), app_nil_r. reflexivity.
  - destruct (step_char junk f s p w v out G c r H NW NC NE) as (s' & p' & E & H'). rewrite E, (IH f s' p'); auto.
    + f_equal. repeat (rewrite <- ?app_assoc; cbn [app]). reflexivity.
    + rewrite app_length in L. cbn in L. lia.
  - destruct (step_word junk f s p w v out G cs enc x y r H P WE K) as (s' & p' & E & H'). rewrite E, (IH f s' p'), app_assoc; auto.
    rewrite !app_length in L. cbn in L. lia.
  - destruct (step_bad junk f s p w v out G b r H B) as (s' & p' & E & H'). rewrite E, (IH f s' p'); auto.
    + f_equal. repeat (rewrite <- ?app_assoc; cbn [app]). reflexivity.
    + rewrite !app_length in L. apply bad_nonempty in B. destruct b; [congruence|]. cbn in L. lia.
Qed.

Lemma split_mark r : (~ In MARK r) \/ exists x y, r = x ++ MARK :: y /\ ~ In MARK x.
Proof.
  destruct (find_char MARK r) as [n|] eqn:F.
  - apply find_char_Some in F as (x & y & E & _ & N). right. eauto.
  - apply find_char_None in F. auto.
Qed.
Lemma equals_cases junk r : (exists cs enc x y t, EQUALS :: r = word cs enc x ++ t /\ parts cs enc x /\ word_end t /\ content junk enc x y) \/
  exists b t, EQUALS :: r = b ++ t /\ bad junk b t.
Proof.
  destruct r as [|c r]. { right. exists [EQUALS], []. split; [reflexivity|]. constructor. exact I. }
  destruct (ascii_dec c MARK) as [->|N].
  2: { right. exists [EQUALS], (c :: r). split; [reflexivity|]. constructor. exact N. }
  destruct (split_mark r) as [N|(cs & r1 & -> & N1)]. { right. exists (EQUALS :: MARK :: r), []. split; [rewrite app_nil_r; reflexivity|]. constructor. exact N. }
  destruct (split_mark r1) as [N|(enc & r2 & -> & N2)].
  { right. exists (EQUALS :: MARK :: cs ++ MARK :: r1), []. split; [rewrite app_nil_r; reflexivity|]. apply bad_encoding; auto. }
  destruct (split_mark r2) as [N|(x & r3 & -> & N3)].
  { right. exists (EQUALS :: MARK :: cs ++ MARK :: enc ++ MARK :: r2), []. split; [rewrite app_nil_r; reflexivity|]. apply bad_text. split; auto. }
  assert (P : parts cs enc x) by (split; auto).
  assert (CL : first_ok (fun c => c <> EQUALS) r3 \/ exists r4, r3 = EQUALS :: r4).
  { destruct r3 as [|c r3]; [left; exact I|]. destruct (ascii_dec c EQUALS) as [->|N]; [right; eauto|left; exact N]. }
  destruct CL as [CL|(t & ->)].
  { right. exists (EQUALS :: MARK :: cs ++ MARK :: enc ++ MARK :: x ++ [MARK]), r3. split; [repeat (rewrite <- ?app_assoc; cbn [app]); reflexivity|]. apply bad_close; auto. }
  assert (ET : EQUALS :: MARK :: cs ++ MARK :: enc ++ MARK :: x ++ MARK :: EQUALS :: t = word cs enc x ++ t).
  { unfold word. repeat (rewrite <- ?app_assoc; cbn [app]). reflexivity. }
  rewrite ET. assert (WE : word_end t \/ exists c t', t = c :: t' /\ ~ LWSP c).
  { destruct t as [|c t']; [left; exact I|]. destruct (is_lwsp c) eqn:W; [left; apply is_lwsp_LWSP; exact W|].
    right. exists c, t'. split; auto. rewrite <- is_lwsp_LWSP. congruence. }
  destruct WE as [WE|(c & t' & -> & NL)].
  - destruct (content_decided junk enc x) as [(y & _ & K)|(_ & K)].
    + left. exists cs, enc, x, y, t. auto.
    + right. eexists _, _. split; [reflexivity|]. apply bad_content; auto.
  - right. eexists _, _. split; [reflexivity|]. apply bad_end; auto.
Qed.
Lemma loop_total junk f : forall s p r out, St s p r -> length r < f -> ew_loop junk f s [] out = perm \/ exists d, decoded junk r d.
Proof.
  induction f as [|f IH]; intros s p r out H L; [lia|]. destruct (gap_split r) as (w & v & r' & -> & G & [CL|(x & -> & F)]).
  2: { left. eapply step_lone; eauto. }
  destruct r' as [|c r].
  - right. exists []. rewrite app_nil_r. apply (dec_end junk w v G).
  - destruct CL as [NW NC]. destruct (ascii_dec c EQUALS) as [->|NE].
    + destruct (equals_cases junk r) as [(cs & enc & x & y & t & E & P & WE & K)|(b & t & E & B)]; rewrite E in H |- *; rewrite E in L.
      * destruct (step_word junk f s p w v out G cs enc x y t H P WE K) as (s' & p' & ES & H').
        destruct (IH s' p' t (out ++ y) H') as [Q|(d & D)]. { rewrite !app_length in L. cbn in L. lia. }
        -- left. congruence.
        -- right. exists (y ++ d). apply (dec_word junk w v); auto.
      * destruct (step_bad junk f s p w v out G b t H B) as (s' & p' & ES & H').
        destruct (IH s' p' t (out ++ v ++ b) H') as [Q|(d & D)]. { pose proof (bad_nonempty _ _ _ B). rewrite !app_length in L. destruct b; [congruence|]. cbn in L. lia. }
        -- left. congruence.
        -- right. exists (v ++ b ++ d). apply (dec_bad junk w v); auto.
    + assert (NW' : ~ WSP c). { rewrite <- is_wsp_WSP. congruence. }
      destruct (step_char junk f s p w v out G c r H NW' NC NE) as (s' & p' & ES & H').
      destruct (IH s' p' r (out ++ v ++ [c]) H') as [Q|(d & D)]. { rewrite app_length in L. cbn in L. lia. }
      * left. congruence.
      * right. exists (v ++ c :: d). apply (dec_char junk w v); auto.
Qed.

Lemma decode_total junk t : ew_decode junk t = perm \/ exists d, ew_decode junk t = Ok d.
Proof.
  unfold ew_decode. rewrite (St_fuel _ _ _ (St_open t)). destruct (skip_fws_any (S (length t)) _ _ t (St_open t) ltac:(lia)) as [E|(s' & p' & a & r' & E & H & _)]; rewrite E; [left; reflexivity|].
  cbn [obind]. rewrite (St_fuel _ _ _ H). destruct (loop_total junk (S (length r')) s' p' r' [] H ltac:(lia)) as [Q|(d & D)]; [auto|].
  right. exists d. apply (loop_decoded junk r' d D _ s' p' [] H). lia.
Qed.
(** Text that begins with no whitespace left after the folding whitespace before it. *)
Definition begins_plain (r : bytes) : Prop := first_ok (fun c => ~ WSP c /\ c <> CR) r.
Lemma decode_iff junk w r : FWSs w -> begins_plain r ->
  (forall d, ew_decode junk (w ++ r) = Ok d <-> decoded junk r d) /\ ((forall d, ~ decoded junk r d) -> ew_decode junk (w ++ r) = perm).
Proof.
  intros W B. unfold ew_decode. rewrite (St_fuel _ _ _ (St_open _)).
  destruct (skip_fws_ws (S (length (w ++ r))) _ _ w r (St_open _) (FWSs_ws _ W)) as (s' & E & H).
  { destruct r as [|c r]; [exact I|]. destruct B as [B1 B2]. split; auto. apply not_true_iff_false. rewrite is_wsp_WSP. exact B1. }
  { rewrite app_length. lia. }
  rewrite E. cbn [obind]. rewrite (St_fuel _ _ _ H).
  assert (D1 : forall d, decoded junk r d -> ew_loop junk (S (length r)) s' [] [] = Ok d).
  { intros d D. apply (loop_decoded junk r d D _ s' _ [] H). lia. }
  destruct (loop_total junk (S (length r)) s' _ r [] H ltac:(lia)) as [Q|(d & D)].
  - split; [|auto]. intros d. split; [rewrite Q; discriminate|]. auto.
  - split; [|intros N; destruct (N d D)]. intros d'. split; [|auto]. intros E'. apply D1 in D as D2. congruence.
Qed.

(** Consequences *)
Lemma gap_WSP w : Forall WSP w -> gap w w. Proof. induction 1; constructor; auto. Qed.
(** Text without "?=" and CR. *)
Lemma span_wsp_spec s : exists w r, s = w ++ r /\ Forall WSP w /\ first_ok (fun c => ~ WSP c) r.
Proof.
  induction s as [|c s (w & r & -> & W & F)]; [exists [], []; repeat split; constructor|]. destruct (is_wsp c) eqn:E.
  - exists (c :: w), r. split; [reflexivity|]. split; auto. constructor; auto. apply is_wsp_WSP. exact E.
  - exists [], (c :: w ++ r). split; [reflexivity|]. split; [constructor|]. cbn. rewrite <- is_wsp_WSP. congruence.
Qed.
Lemma last_blank w : Forall WSP w -> last_ok (fun c => ~ WSP c) w -> w = [].
Proof.
  intros W LO. unfold last_ok in LO. destruct (rev w) as [|c q] eqn:E. { apply (f_equal (@rev ascii)) in E. rewrite rev_involutive in E. exact E. }
  exfalso. apply LO. rewrite Forall_forall in W. apply W. rewrite in_rev, E. left. reflexivity.
Qed.
Lemma last_app a b : last_ok (fun c => ~ WSP c) (a ++ b) -> last_ok (fun c => ~ WSP c) b.
Proof. unfold last_ok. rewrite rev_app_distr. destruct (rev b); [intros; exact I|intros H; exact H]. Qed.
Lemma verbatim junk n : forall s, length s <= n -> (forall a b, s <> a ++ [MARK; EQUALS] ++ b) -> ~ In CR s -> last_ok (fun c => ~ WSP c) s -> decoded junk s s.
Proof.
  induction n as [|n IH]; intros s L NM NC LO.
  - destruct s; [|cbn in L; lia]. apply (dec_end junk [] []). constructor.
  - destruct (span_wsp_spec s) as (w & r & -> & W & F). destruct r as [|c r].
    { rewrite app_nil_r in *. rewrite (last_blank w W LO). apply (dec_end junk [] []). constructor. }
    assert (SUF : forall b t, w ++ c :: r = b ++ t -> b <> [] -> decoded junk t t).
    { intros b t E NB. rewrite E in *. apply IH.
      - rewrite app_length in L. destruct b; [congruence|]. cbn [length] in L. lia.
      - intros a b' E'. apply (NM (b ++ a) b'). rewrite <- !app_assoc, E'. reflexivity.
      - intros I'. apply NC. apply in_or_app. auto.
      - eapply last_app; eauto. }
    destruct (ascii_dec c EQUALS) as [->|NE].
    + destruct (equals_cases junk r) as [(cs & enc & x & y & t & E & P & WE & K)|(b & t & E & B)].
      * exfalso. destruct (NM (w ++ EQUALS :: MARK :: cs ++ MARK :: enc ++ MARK :: x) t). rewrite E. unfold word. repeat (rewrite <- ?app_assoc; cbn [app]). reflexivity.
      * rewrite E. apply (dec_bad junk w w); auto; [apply gap_WSP; auto|]. apply (SUF (w ++ b) t); [rewrite E, app_assoc; reflexivity|].
        pose proof (bad_nonempty _ _ _ B). destruct w; [auto|discriminate].
    + apply (dec_char junk w w c r r); auto.
      * apply gap_WSP. auto.
      * intros ->. apply NC. apply in_or_app. right. left. reflexivity.
      * apply (SUF (w ++ [c]) r); [rewrite <- app_assoc; reflexivity|]. destruct w; discriminate.
Qed.
Lemma plain_text junk w2 n : Forall WSP w2 -> forall s, length s <= n -> ~ In EQUALS s -> ~ In CR s -> last_ok (fun c => ~ WSP c) s -> decoded junk (s ++ w2) s.
Proof.
  intros W2. induction n as [|n IH]; intros s L NE NC LO.
  - destruct s; [|cbn in L; lia]. apply (dec_end junk w2 w2). apply gap_WSP. auto.
  - destruct (span_wsp_spec s) as (w & r & -> & W & F). destruct r as [|c r].
    { rewrite app_nil_r in *. rewrite (last_blank w W LO). apply (dec_end junk w2 w2). apply gap_WSP. auto. }
    rewrite <- app_assoc. cbn [app]. apply (dec_char junk w w c (r ++ w2) r).
    + apply gap_WSP. auto.
    + exact F.
    + intros ->. apply NC. apply in_or_app. right. left. reflexivity.
    + intros ->. apply NE. apply in_or_app. right. left. reflexivity.
    + apply IH.
      * rewrite app_length in L. cbn [length] in L. lia.
      * intros K. apply NE. apply in_or_app. right. right. exact K.
      * intros K. apply NC. apply in_or_app. right. right. exact K.
      * apply (last_app (w ++ [c])). rewrite <- app_assoc. exact LO.
Qed.
Lemma words_decoded junk t d : words junk t d -> decoded junk t d.
Proof. induction 1 as [w v G|w v cs enc x y r d G P K WE W IH]; [eapply dec_end; eauto|]. apply (dec_word junk w v); auto. Qed.

(** The statements of PropsWord. *)
Lemma begins_trimmed s : trimmed s -> ~ In CR s -> begins_plain s.
Proof. intros [T _] NC. destruct s as [|c s]; [exact I|]. split; [exact T|]. intros ->. apply NC. left. reflexivity. Qed.
Lemma begins_app s w2 : s <> [] -> begins_plain s -> begins_plain (s ++ w2).
Proof. destruct s; [congruence|]. intros _ B. exact B. Qed.
Lemma decode_verbatim junk w s : FWSs w -> trimmed s -> ~ In CR s -> (forall a b, s <> a ++ [MARK; EQUALS] ++ b) -> ew_decode junk (w ++ s) = Ok s.
Proof. intros W T NC NM. apply (decode_iff junk w s W); [apply begins_trimmed; auto|]. apply (verbatim junk (length s)); auto. apply T. Qed.
Lemma decode_plain junk w s w2 : FWSs w -> trimmed s -> Forall WSP w2 -> ~ In CR s -> ~ In EQUALS s -> ew_decode junk (w ++ s ++ w2) = Ok s.
Proof.
  intros W T W2 NC NE. destruct s as [|c s].
  - cbn [app]. rewrite <- (app_nil_r (w ++ w2)). apply (decode_iff junk (w ++ w2) []).
    + apply ws_FWSs, ws_app; [apply FWSs_ws; auto|apply ws_wsps; auto].
    + exact I.
    + apply (dec_end junk [] []). constructor.
  - apply (decode_iff junk w _ W); [apply begins_app; [discriminate|apply begins_trimmed; auto]|]. eapply plain_text; eauto. apply T.
Qed.
Lemma decode_words junk w cs enc x y r d : FWSs w -> parts cs enc x -> content junk enc x y -> word_end r -> words junk r d ->
  ew_decode junk (w ++ word cs enc x ++ r) = Ok (y ++ d).
Proof.
  intros W P K WE WS. apply (decode_iff junk w _ W); [split; [intros [E|E]; discriminate|discriminate]|].
  apply (dec_word junk [] []); auto; [constructor|]. apply words_decoded. auto.
Qed.
Lemma decode_bad junk w b r d : FWSs w -> bad junk b r -> decoded junk r d -> ew_decode junk (w ++ b ++ r) = Ok (b ++ d).
Proof.
  intros W B D. apply (decode_iff junk w _ W); [|apply (dec_bad junk [] []); auto; constructor].
  destruct B; (split; [intros [E|E]; discriminate|discriminate]).
Qed.
