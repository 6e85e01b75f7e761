(** How signing ends, for every key and clock. *)
From Verif Require Import VerifyProps Bytes Outcome Stream Tokenizer QuotedPrintable Base64 MailParser Canonicalization Util CStdlib Crypto PublicKey
  SignatoryOptions Signatory BytesFacts StreamFacts TokenizerFacts SpecText SpecTags SpecMail SpecCanon SpecVerify SpecSig SpecPass SpecOptions SpecSign SpecOutcome
  PassFacts MailFacts BodyFacts BodyProps HeaderFacts HeaderProps SelectFacts VerifyFacts SignNumbers SignText SignFacts SignMail SignRound LoneFacts SafetyFacts OutcomeFacts.

Definition classed (C : crypto) (o : options) (q : sig_options) : Prop := able C o q \/ unable C o q \/ keyless q.
Lemma able_not_keyless C o q : able C o q -> ~ keyless q.
Proof. unfold able, keyless. intros A [E K]. rewrite E in A. destruct A as [L _]. rewrite K in L. discriminate. Qed.

(** One signature. *)
Lemma one_ends C o now hashed names bh q : classed C o q ->
  (o_chead o = RELAXED -> existsb lone names = false <-> (forall n, In n (o_oversign o) -> ~ has_lone_CR n)) ->
  (exists h, one_signature C false o now hashed names bh q = Ok h) /\ goes_well C o now q \/
  one_signature C false o now hashed names bh q = perm /\ in_time o now /\ ~ (signature_clean o q /\ (able C o q \/ keyless q)) \/
  one_signature C false o now hashed names bh q = UB UB_overflow /\ ~ in_time o now \/
  one_signature C false o now hashed names bh q = UB UB_oob_read /\ in_time o now /\ signature_clean o q /\ keyless q.
Proof.
  intros CL ON. unfold one_signature. unfold goes_well.
  assert (DT : in_time o now \/ ~ in_time o now).
  { unfold in_time. destruct (o_exsign o); [|left; discriminate].
    destruct (Z.leb_spec (-9223372036854775808) (expiry o now)) as [Z1|Z1]; [|right; intros K; specialize (K eq_refl); lia].
    destruct (Z.leb_spec (expiry o now) 9223372036854775807) as [Z2|Z2]; [left; auto|right; intros K; specialize (K eq_refl); lia]. }
  destruct DT as [IT|NT].
  2:{ right. right. left. split; [|exact NT]. unfold sig_template. rewrite time_tags_text.
      assert (V : o_exsign o && negb (in_int64 (expiry o now)) = true).
      { unfold in_time in NT. destruct (o_exsign o); [|destruct NT; discriminate]. cbn [andb]. apply negb_true_iff. apply not_true_iff_false. intros K. apply NT. intros _.
        unfold in_int64, LONG_MIN, LONG_MAX in K. apply andb_true_iff in K as [K1 K2]. apply Z.leb_le in K1, K2. lia. }
      rewrite V. reflexivity. }
  assert (ET : exists T, sig_template o q now names bh = Ok T).
  { unfold sig_template. rewrite time_tags_text. assert (V : o_exsign o && negb (in_int64 (expiry o now)) = false).
    { destruct (o_exsign o) eqn:X; [|reflexivity]. cbn [andb]. apply negb_false_iff. specialize (IT X). unfold in_int64, LONG_MIN, LONG_MAX.
      apply andb_true_iff. split; apply Z.leb_le; lia. }
    rewrite V. cbn [obind]. destruct (h_list _ _ _ _). eauto. }
  destruct ET as (T & ET). rewrite ET. cbn [obind]. destruct (template_lone _ _ _ _ _ _ ET) as [LT IC].
  assert (EQ : (o_chead o = RELAXED -> lone T = false) <-> signature_clean o q).
  { unfold signature_clean. split; intros K M; specialize (K M).
    - rewrite LT, !orb_false_iff in K. rewrite <- !lone_false. rewrite <- (ON M). tauto.
    - rewrite LT, !orb_false_iff. rewrite <- !lone_false, <- (ON M) in K. tauto. }
  assert (FM : (exists c, FilterHeader false (o_chead o) T = Ok c) /\ (o_chead o = RELAXED -> lone T = false) \/
    FilterHeader false (o_chead o) T = perm /\ ~ (o_chead o = RELAXED -> lone T = false)).
  { destruct (o_chead o); [left; split; [eexists; reflexivity|discriminate]|].
    destruct (FilterHeader_exact T) as [[E [X|X]]|(E & X & _)]; [right|contradiction|left]; split; auto. intros K. specialize (K eq_refl). congruence. }
  destruct FM as [[(c & E) G]|[E G]]; rewrite E; cbn [obind]; cbv zeta; [|right; left; split; [reflexivity|]; split; [exact IT|]; tauto].
  apply EQ in G. destruct CL as [A|[U|K]].
  - destruct (able_signs C o q (digest C (o_digest o) (hashed ++ c)) A) as (x & ->). cbn [obind]. left. split; [eauto|tauto].
  - rewrite unable_signs by auto. right. left. split; [reflexivity|]. split; [exact IT|]. intros [_ [A|[K1 K2]]].
    + destruct (able_signs C o q [] A) as (x & X). rewrite unable_signs in X by auto. discriminate.
    + unfold unable in U. rewrite K1 in U. destruct U as [L _]. rewrite K2 in L. discriminate.
  - right. right. right. split; [|tauto]. destruct K as [K1 K2]. unfold make_signature. rewrite K1, K2. reflexivity.
Qed.

(** All of them: the first that does not go well decides. *)
Definition bad_end (C : crypto) (o : options) (now : Z) (q : sig_options) (r : outcome bytes) : Prop :=
  r = UB UB_overflow /\ ~ in_time o now \/ r = UB UB_oob_read /\ in_time o now /\ signature_clean o q /\ keyless q \/
  r = perm /\ in_time o now /\ ~ (signature_clean o q /\ (able C o q \/ keyless q)).
Lemma bad_not_well C o now q r : bad_end C o now q r -> ~ goes_well C o now q.
Proof. intros B (I & S & A). pose proof (able_not_keyless C o q A). destruct B as [[_ B]|[(_ & _ & _ & B)|(_ & _ & B)]]; tauto. Qed.
Lemma all_ends C o clock hashed names bh l : forall n acc, Forall (classed C o) l ->
  (o_chead o = RELAXED -> existsb lone names = false <-> (forall n, In n (o_oversign o) -> ~ has_lone_CR n)) ->
  (exists H, all_sigs C false o clock n hashed names bh l acc = Ok H) /\ (forall i q, nth_error l i = Some q -> goes_well C o (clock (n + i)) q) \/
  exists i q, nth_error l i = Some q /\ (forall k p, k < i -> nth_error l k = Some p -> goes_well C o (clock (n + k)) p) /\
    bad_end C o (clock (n + i)) q (all_sigs C false o clock n hashed names bh l acc).
Proof.
  induction l as [|q l IH]; intros n acc F ON; cbn [all_sigs].
  - left. split; [eauto|]. intros [|i] q; discriminate.
  - inversion F as [|? ? F1 F2]; subst.
    destruct (one_ends C o (clock n) hashed names bh q F1 ON) as [[(h & E) G]|[[E G]|[[E G]|[E G]]]]; rewrite E; cbn [obind].
    + destruct (IH (S n) (match acc with [] => h | _ => acc ++ CRLF ++ h end) F2 ON) as [[E2 G2]|(i & p & N & G2 & B)].
      * left. split; [exact E2|]. intros [|i] p N; cbn [nth_error] in N.
        -- injection N as <-. rewrite Nat.add_0_r. exact G.
        -- rewrite <- Nat.add_succ_comm. apply G2. exact N.
      * right. exists (S i), p. split; [exact N|]. rewrite <- Nat.add_succ_comm. split; [|exact B].
        intros [|k] p' L N'; cbn [nth_error] in N'.
        -- injection N' as <-. rewrite Nat.add_0_r. exact G.
        -- rewrite <- Nat.add_succ_comm. apply G2; [lia|exact N'].
    + right. exists 0, q. split; [reflexivity|]. split; [lia|]. rewrite Nat.add_0_r. unfold bad_end. tauto.
    + right. exists 0, q. split; [reflexivity|]. split; [lia|]. rewrite Nat.add_0_r. unfold bad_end. tauto.
    + right. exists 0, q. split; [reflexivity|]. split; [lia|]. rewrite Nat.add_0_r. unfold bad_end. tauto.
Qed.

(** CreateSignature up to the signatures. *)
Lemma create_split C clock o t fs b out : has_fields t fs -> message_body t b -> canonical_body (is_relaxed (o_cbody o)) b out ->
  let r := snd (CreateSignature C false clock o (new_signatory (open_str t))) in
  let ready := (o_signlen o = true -> (o_bodylen o <= N.of_nat (length out))%N) /\ fields_clean o fs in
  r = perm /\ ~ ready \/
  ready /\ exists d names bh, r = all_sigs C false o clock 0 d names bh (rev (all_signatures o)) [] /\
    (o_chead o = RELAXED -> existsb lone names = false <-> (forall n, In n (o_oversign o) -> ~ has_lone_CR n)).
Proof.
  intros HF MB CB. cbv zeta. unfold CreateSignature, new_signatory. cbn [y_msg y_file].
  destruct (message_fields' t) as (_ & _ & _ & m & s & _ & _ & PA & _). rewrite PA.
  assert (EF : m_headers m = fs) by (eapply has_fields_unique; [eapply parse_fields; eauto|exact HF]).
  assert (BA : body_at s (m_offset m) b).
  { eapply message_body_at; eauto. transitivity (contents (open_str t)); [|reflexivity]. unfold parse_all in PA. eapply parse_loop_contents; eauto. }
  assert (X : exists chunks ok s1, CanonicalizationBody s (o_cbody o) (m_offset m) (o_signlen o) (o_bodylen o) = Ok (chunks, ok, s1) /\
    (ok = true <-> (o_signlen o = true -> (o_bodylen o <= N.of_nat (length out))%N))).
  { unfold CanonicalizationBody, cut. destruct (o_signlen o).
    - destruct (body_limited buffer_size s (o_cbody o) (m_offset m) b out buffer_pos BA CB (o_bodylen o)) as (calls & s' & E & K). rewrite E.
      do 3 eexists. split; [reflexivity|]. rewrite N.leb_le. tauto.
    - destruct (body_canonical buffer_size s (o_cbody o) (m_offset m) b out buffer_pos BA CB (o_bodylen o)) as (calls & s' & E & K). rewrite E.
      do 3 eexists. split; [reflexivity|]. split; auto; discriminate. }
  destruct X as (chunks & ok & s1 & E & LIM). rewrite E. cbn [snd]. destruct ok.
  2: { left. split; [reflexivity|]. intros [K _]. apply LIM in K. discriminate. }
  cbv zeta. rewrite !omap_lower_false. cbn [obind]. rewrite EF.
  assert (IN : forall h, In h (rev fs) <-> In h fs) by (intros h; symmetry; apply in_rev).
  destruct (fields_exact (o_chead o) (map lower (o_headers o)) (rev fs)) as [[(d & E2) G]|[E2 G]].
  { intros h K NE. apply IN in K. eapply name_in_text; eauto. }
  2: { rewrite E2. left. split; [reflexivity|]. intros (_ & W). apply G. intros h K PK M. apply lone_false. apply (W M); [apply IN; auto|]. apply picked_chosen. auto. }
  rewrite E2. cbn [obind]. right.
  assert (FC : fields_clean o fs).
  { intros M f K CH. apply lone_false. apply G; auto; [apply IN; auto|apply picked_chosen; auto]. }
  split; [split; [apply LIM; reflexivity|exact FC]|]. do 3 eexists. split; [reflexivity|]. intros M. split.
  - intros Z n K. apply lone_false. rewrite <- lone_own. apply not_true_iff_false. intros L.
    assert (Z1 : existsb lone (map lname (filter (picked (map lower (o_headers o))) (rev fs)) ++ map lower (o_oversign o)) = true); [|congruence].
    apply existsb_exists. exists (lower n). split; auto. apply in_or_app. right. apply in_map. auto.
  - intros W2. apply not_true_iff_false. intros L. apply existsb_exists in L as (n & IN1 & L). apply in_app_or in IN1 as [IN1|IN1].
    + apply in_map_iff in IN1 as (h & <- & K2). apply filter_In in K2 as [K2 PK]. unfold lname in L. rewrite lone_own in L.
      apply IN in K2. apply picked_chosen in PK. destruct (name_in_text t fs h HF K2 (proj1 PK)) as [_ Z1]. rewrite Z1 in L; [discriminate|].
      apply lone_false. apply FC; auto.
    + apply in_map_iff in IN1 as (n0 & <- & K2). rewrite lone_own in L. apply lone_spec in L. exact (W2 _ K2 L).
Qed.

(** Signing leaves the language exactly when a signature is reached that has no key or an x= that does not fit. *)
Lemma create_undefined C clock o t fs b out : has_fields t fs -> message_body t b -> canonical_body (is_relaxed (o_cbody o)) b out ->
  Forall (fun q => able C o q \/ unable C o q \/ keyless q) (all_signatures o) -> forall k,
  snd (CreateSignature C false clock o (new_signatory (open_str t))) = UB k <->
  (o_signlen o = true -> (o_bodylen o <= N.of_nat (length out))%N) /\ fields_clean o fs /\
  exists i q, nth_error (rev (all_signatures o)) i = Some q /\
    (forall j p, j < i -> nth_error (rev (all_signatures o)) j = Some p -> goes_well C o (clock j) p) /\
    (k = UB_overflow /\ ~ in_time o (clock i) \/ k = UB_oob_read /\ in_time o (clock i) /\ signature_clean o q /\ keyless q).
Proof.
  intros HF MB CB CL k. destruct (create_split C clock o t fs b out HF MB CB) as [[E NR]|[[R1 R2] (d & names & bh & E & ON)]]; rewrite E.
  - split; [discriminate|tauto].
  - clear E. destruct (all_ends C o clock d names bh (rev (all_signatures o)) 0 [] (Forall_rev CL) ON) as [[(H & E) G]|(i & q & N & G & B)]; cbn [Nat.add] in *.
    + rewrite E. split; [discriminate|]. intros (_ & _ & i & q & N & _ & D). destruct (G i q N) as (I & S & A). pose proof (able_not_keyless C o q A). tauto.
    + split.
      * intros U. split; [exact R1|]. split; [exact R2|]. exists i, q. split; [exact N|]. split; [exact G|].
        destruct B as [[B1 B]|[[B1 B]|[B1 B]]]; rewrite B1 in U; [injection U as <-; auto|injection U as <-; auto|discriminate].
      * intros (_ & _ & i' & q' & N' & G' & D').
        assert (BD : ~ goes_well C o (clock i') q') by (intros (I & S & A); pose proof (able_not_keyless C o q' A); tauto).
        assert (i = i').
        { destruct (Nat.lt_trichotomy i i') as [L|[->|L]]; [|reflexivity|].
          - exfalso. exact (bad_not_well _ _ _ _ _ B (G' i q L N)).
          - exfalso. exact (BD (G i' q' L N')). }
        subst i'. rewrite N in N'. injection N' as <-.
        destruct B as [[B1 B]|[[B1 B]|[B1 B]]]; rewrite B1; destruct D' as [[-> D']|[-> D']]; tauto.
Qed.
(** It succeeds exactly when all goes well. *)
Lemma create_succeeds C clock o t fs b out : has_fields t fs -> message_body t b -> canonical_body (is_relaxed (o_cbody o)) b out ->
  Forall (fun q => able C o q \/ unable C o q \/ keyless q) (all_signatures o) ->
  ((exists H, snd (CreateSignature C false clock o (new_signatory (open_str t))) = Ok H) <->
   (o_signlen o = true -> (o_bodylen o <= N.of_nat (length out))%N) /\ fields_clean o fs /\
   forall i q, nth_error (rev (all_signatures o)) i = Some q -> goes_well C o (clock i) q).
Proof.
  intros HF MB CB CL. destruct (create_split C clock o t fs b out HF MB CB) as [[E NR]|[[R1 R2] (d & names & bh & E & ON)]]; rewrite E.
  - split; [intros (H & K); discriminate|tauto].
  - clear E. destruct (all_ends C o clock d names bh (rev (all_signatures o)) 0 [] (Forall_rev CL) ON) as [[(H & E) G]|(i & q & N & G & B)]; cbn [Nat.add] in *.
    + split; [auto|]. intros _. eauto.
    + split; [|intros (_ & _ & W); exfalso; exact (bad_not_well _ _ _ _ _ B (W i q N))].
      intros (H & K). destruct B as [[B1 _]|[[B1 _]|[B1 _]]]; rewrite B1 in K; discriminate.
Qed.
