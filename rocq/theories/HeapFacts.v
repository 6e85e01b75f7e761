(** What CreateSignature leaves allocated. *)
From Verif Require Import VerifyProps Bytes Outcome Stream Base64 MailParser Canonicalization Util CStdlib Crypto SignatoryOptions Signatory SignatoryHeap
  SpecText SpecTags SpecMail SpecCanon SpecVerify SpecPass SpecSign SpecOutcome SpecHeap BytesFacts MailFacts BodyFacts BodyProps HeaderFacts HeaderProps SelectFacts VerifyFacts SignNumbers SignText SignFacts SignMail SignRound
  PassFacts LoneFacts FieldsProps OutcomeFacts VerifyExamples SignExamples TransportExamples OutcomeExamples Examples.

(** ** The result is that of CreateSignature *)
Lemma make_heap C o s md h : make_signature_heap C o s md h = (h, make_signature C o s md).
Proof.
  unfold make_signature_heap, make_signature, hbind, hnew, hdel, hlift, alloc. destruct (so_alg s).
  - destruct (so_rsa s); [|reflexivity]. destruct (c_rsa_sign _ _ _ _); reflexivity.
  - destruct (c_read 64 (so_ed s)); reflexivity.
Qed.
Lemma one_heap C strict o now hd names bh s h : one_signature_heap C strict o now hd names bh s h =
  (match sig_template o s now names bh with
   | Ok t => match FilterHeader strict (o_chead o) t with Ok _ => h | _ => FieldCtx :: h end
   | _ => h
   end, one_signature C strict o now hd names bh s).
Proof.
  unfold one_signature_heap, one_signature, hbind, hnew, hdel, hlift, alloc. destruct (sig_template o s now names bh) as [t| | |]; try reflexivity.
  cbn [obind]. destruct (FilterHeader strict (o_chead o) t) as [c| | |]; try reflexivity. rewrite make_heap. cbn [obind release block_eqb]. cbv zeta.
  destruct (make_signature C o s _); reflexivity.
Qed.
Lemma all_heap C strict o clock hd names bh l : forall n acc h,
  snd (all_sigs_heap C strict o clock n hd names bh l acc h) = all_sigs C strict o clock n hd names bh l acc /\
  (fst (all_sigs_heap C strict o clock n hd names bh l acc h) = h \/
   fst (all_sigs_heap C strict o clock n hd names bh l acc h) = FieldCtx :: h /\ o_chead o = RELAXED /\ forall H, all_sigs C strict o clock n hd names bh l acc <> Ok H).
Proof.
  induction l as [|s l IH]; intros n acc h; cbn [all_sigs_heap all_sigs]; [split; [reflexivity|left; reflexivity]|].
  unfold hbind. rewrite one_heap. unfold one_signature. destruct (sig_template o s (clock n) names bh) as [t| | |]; try (split; [reflexivity|left; reflexivity]).
  cbn [obind]. destruct (FilterHeader strict (o_chead o) t) as [c| | |] eqn:F; cbn [obind].
  - cbv zeta. destruct (make_signature C o s _) as [x| | |]; try (split; [reflexivity|left; reflexivity]). cbn [obind]. apply IH.
  - split; [reflexivity|]. right. split; [reflexivity|]. split; [destruct (o_chead o); [discriminate|reflexivity]|discriminate].
  - split; [reflexivity|]. right. split; [reflexivity|]. split; [destruct (o_chead o); [discriminate|reflexivity]|discriminate].
  - split; [reflexivity|]. right. split; [reflexivity|]. split; [destruct (o_chead o); [discriminate|reflexivity]|discriminate].
Qed.
Lemma hbind_lift {A B} (x : outcome A) (k : A -> hstep B) h :
  hbind (hlift x) k h = match x with Ok a => k a h | Throw e => (h, Throw e) | UB u => (h, UB u) | Diverge => (h, Diverge) end.
Proof. reflexivity. Qed.
Lemma hscope_in {A} b (m : hstep A) h : hscope b m h = let '(h1, r) := m (alloc b h) in (release b h1, r).
Proof. reflexivity. Qed.
Lemma create_heap C strict clock o y : let r := CreateSignature_heap C strict clock o y [] in
  snd r = snd (CreateSignature C strict clock o y) /\
  (fst r = [] \/ fst r = [FieldCtx] /\ o_chead o = RELAXED /\ forall H, snd r <> Ok H).
Proof.
  cbv zeta. unfold CreateSignature_heap, CreateSignature. rewrite hbind_lift.
  destruct (parse_all (y_msg y) (y_file y)) as [[m s]| | |]; try (split; [reflexivity|left; reflexivity]).
  rewrite hscope_in. rewrite hbind_lift.
  destruct (CanonicalizationBody s (o_cbody o) (m_offset m) (o_signlen o) (o_bodylen o)) as [[[chunks ok] s1]| | |]; try (split; [reflexivity|left; reflexivity]).
  cbn [snd]. destruct ok; [|split; [reflexivity|left; reflexivity]]. cbv zeta. rewrite hscope_in. rewrite hbind_lift.
  destruct (omap (lower_str strict) (o_headers o)) as [ts| | |]; try (split; [reflexivity|left; reflexivity]). cbn [obind].
  rewrite hbind_lift.
  destruct (sign_headers strict (o_chead o) ts (rev (m_headers m))) as [[hd names]| | |]; try (split; [reflexivity|left; reflexivity]). cbn [obind].
  rewrite hbind_lift. destruct (omap (lower_str strict) (o_oversign o)) as [ov| | |]; try (split; [reflexivity|left; reflexivity]). cbn [obind].
  destruct (all_heap C strict o clock hd (names ++ ov) (digest_chunks C (o_digest o) chunks) (rev (all_signatures o)) 0 [] (alloc HeadCtx (alloc BodyCtx []))) as [E F].
  destruct (all_sigs_heap _ _ _ _ _ _ _ _ _ _ _) as [h1 r]. cbn [fst snd] in *. split; [exact E|]. destruct F as [->|(-> & M & X)]; [left; reflexivity|right].
  split; [reflexivity|]. split; [exact M|]. intros H K. apply (X H). rewrite <- E. exact K.
Qed.

(** ** Exactly when a context is left *)
Lemma one_left C o now hd names bh q h T : sig_template o q now names bh = Ok T -> o_chead o = RELAXED ->
  fst (one_signature_heap C false o now hd names bh q h) = (if lone T then FieldCtx :: h else h) /\
  (lone T = true -> forall H, snd (one_signature_heap C false o now hd names bh q h) <> Ok H).
Proof.
  intros ET M. rewrite one_heap, ET, M. cbn [fst snd]. unfold one_signature. rewrite ET, M. cbn [obind]. destruct (template_lone _ _ _ _ _ _ ET) as [_ IC].
  destruct (FilterHeader_exact T) as [[F [X|X]]|(F & X & _)]; [|contradiction|]; rewrite X.
  - rewrite F. split; [reflexivity|discriminate].
  - destruct F as (c & F). rewrite F. split; [reflexivity|discriminate].
Qed.
Lemma all_kept C o clock hd names bh : o_chead o = RELAXED -> existsb lone names = false -> forall l n acc h,
  Forall (fun q => lone (so_domain q) = false /\ lone (so_selector q) = false) l ->
  fst (all_sigs_heap C false o clock n hd names bh l acc h) = h.
Proof.
  intros M EN. induction l as [|q l IH]; intros n acc h F; cbn [all_sigs_heap]; [reflexivity|]. apply Forall_cons_iff in F as [[D S0] F]. unfold hbind.
  assert (K : fst (one_signature_heap C false o (clock n) hd names bh q h) = h).
  { destruct (sig_template o q (clock n) names bh) as [T| | |] eqn:ET; [|rewrite one_heap, ET; reflexivity..].
    destruct (one_left C o (clock n) hd names bh q h T ET M) as [-> _]. destruct (template_lone _ _ _ _ _ _ ET) as [-> _]. rewrite D, S0, EN. reflexivity. }
  destruct (one_signature_heap C false o (clock n) hd names bh q h) as [h1 r]. cbn [fst] in K. subst h1. destruct r; try reflexivity. apply IH, F.
Qed.
Lemma template_in_time o q now names bh : in_time o now -> exists T, sig_template o q now names bh = Ok T.
Proof.
  intros IT. unfold sig_template. rewrite time_tags_text. assert (V : o_exsign o && negb (in_int64 (expiry o now)) = false).
  { destruct (o_exsign o) eqn:X; [|reflexivity]. cbn [andb]. apply negb_false_iff. specialize (IT X). unfold in_int64, LONG_MIN, LONG_MAX.
    apply andb_true_iff. split; apply Z.leb_le; lia. }
  rewrite V. cbn [obind]. destruct (h_list _ _ _ _). eauto.
Qed.
Lemma all_left C o clock hd names bh l n acc h : o_chead o = RELAXED -> existsb lone names = true -> in_time o (clock n) -> l <> [] ->
  fst (all_sigs_heap C false o clock n hd names bh l acc h) = FieldCtx :: h.
Proof.
  intros M EN IT NE. destruct l as [|q l]; [congruence|]. cbn [all_sigs_heap]. unfold hbind.
  destruct (template_in_time o q (clock n) names bh IT) as (T & ET). destruct (one_left C o (clock n) hd names bh q h T ET M) as [A B].
  destruct (template_lone _ _ _ _ _ _ ET) as [LT _]. rewrite EN, !orb_true_r in LT. rewrite LT in *.
  destruct (one_signature_heap C false o (clock n) hd names bh q h) as [h1 r]. cbn [fst snd] in *. subst h1. specialize (B eq_refl). destruct r as [x| | |]; try reflexivity.
  destruct (B x). reflexivity.
Qed.
Lemma built_names C l : Forall (fun q => lone (so_domain q) = false /\ lone (so_selector q) = false) (all_signatures (run_ops C l new_options)).
Proof.
  assert (V : forall v, Forall value_byte v -> lone v = false).
  { intros v F. apply not_true_iff_false. rewrite lone_spec. intros (a & b & E & L). apply (values_no_cr v F). rewrite E. apply in_or_app. right.
    destruct L; left; reflexivity. }
  eapply Forall_impl; [|apply (history_well C l)]. intros q [A B]. split; apply V, dotted_or_empty; auto.
Qed.
Lemma create_left C clock l t fs b out : has_fields t fs -> message_body t b ->
  let o := run_ops C l new_options in canonical_body (is_relaxed (o_cbody o)) b out -> in_time o (clock 0) ->
  let left := fst (CreateSignature_heap C false clock o (new_signatory (open_str t)) []) in
  (left = [FieldCtx] \/ left = []) /\
  (left = [FieldCtx] <->
   (o_signlen o = true -> (o_bodylen o <= N.of_nat (length out))%N) /\ o_chead o = RELAXED /\ fields_without_CR o fs /\
   exists n, In n (o_oversign o) /\ has_lone_CR n).
Proof.
  intros HF MB o CB IT. pose proof (built_names C l) as BN. fold o in BN. clearbody o. cbv zeta.
  destruct (create_heap C false clock o (new_signatory (open_str t))) as [_ CH].
  split. { destruct CH as [->|(-> & _)]; auto. }
  destruct (o_chead o) eqn:M.
  { destruct CH as [->|(_ & X & _)]; [|discriminate]. split; [discriminate|]. intros (_ & X & _). discriminate. }
  clear CH. unfold CreateSignature_heap, new_signatory. cbn [y_msg y_file]. rewrite hbind_lift.
  destruct (message_fields' t) as (_ & _ & _ & m & s & _ & _ & PA & _). rewrite PA.
  assert (EF : m_headers m = fs) by (eapply has_fields_unique; [eapply parse_fields; eauto|exact HF]).
  assert (BA : body_at s (m_offset m) b).
  { eapply message_body_at; eauto. transitivity (contents (open_str t)); [|reflexivity]. unfold parse_all in PA. eapply parse_loop_contents; eauto. }
  assert (X : exists chunks ok s1, CanonicalizationBody s (o_cbody o) (m_offset m) (o_signlen o) (o_bodylen o) = Ok (chunks, ok, s1) /\
    (ok = true <-> (o_signlen o = true -> (o_bodylen o <= N.of_nat (length out))%N))).
  { unfold CanonicalizationBody, cut. destruct (o_signlen o).
    - destruct (body_limited buffer_size s (o_cbody o) (m_offset m) b out buffer_pos BA CB (o_bodylen o)) as (calls & s' & E & K). rewrite E.
      do 3 eexists. split; [reflexivity|]. rewrite N.leb_le. tauto.
    - destruct (body_canonical buffer_size s (o_cbody o) (m_offset m) b out buffer_pos BA CB (o_bodylen o)) as (calls & s' & E & K). rewrite E.
      do 3 eexists. split; [reflexivity|]. split; auto; discriminate. }
  destruct X as (chunks & ok & s1 & E & LIM). rewrite hscope_in, hbind_lift, E.
  destruct ok.
  2: { cbn. split; [discriminate|]. intros [K _]. apply LIM in K. discriminate. }
  cbv zeta. rewrite hscope_in, hbind_lift, !omap_lower_false, EF.
  assert (IN : forall h, In h (rev fs) <-> In h fs) by (intros h; symmetry; apply in_rev).
  rewrite hbind_lift, M.
  destruct (fields_exact RELAXED (map lower (o_headers o)) (rev fs)) as [[(d & E2) G]|[E2 G]].
  { intros h K NE. apply IN in K. eapply name_in_text; eauto. }
  2: { rewrite E2. cbn. split; [discriminate|]. intros (_ & _ & W & _). destruct G. intros h K PK _. apply lone_false. apply W; [apply IN; auto|]. apply picked_chosen. auto. }
  rewrite E2, hbind_lift.
  assert (FW : fields_without_CR o fs).
  { intros f K CH. apply lone_false. apply G; auto; [apply IN; auto|apply picked_chosen; auto]. }
  set (names := map lname (filter (picked (map lower (o_headers o))) (rev fs))).
  assert (EN : existsb lone (names ++ map lower (o_oversign o)) = existsb lone (o_oversign o)).
  { rewrite existsb_app. assert (Z : existsb lone names = false).
    { apply not_true_iff_false. intros L. apply existsb_exists in L as (n & IN1 & L). apply in_map_iff in IN1 as (h & <- & K2). apply filter_In in K2 as [K2 PK].
      unfold lname in L. rewrite lone_own in L. apply IN in K2. apply picked_chosen in PK. destruct (name_in_text t fs h HF K2 (proj1 PK)) as [_ Z1].
      rewrite Z1 in L; [discriminate|]. apply lone_false. auto. }
    rewrite Z. cbn [orb]. clear. induction (o_oversign o) as [|n l IH]; [reflexivity|]. cbn [map existsb]. rewrite lone_own, IH. reflexivity. }
  destruct (existsb lone (o_oversign o)) eqn:OV.
  - pose proof (all_left C o clock d (names ++ map lower (o_oversign o)) (digest_chunks C (o_digest o) chunks) (rev (all_signatures o)) 0 [] (alloc HeadCtx (alloc BodyCtx []))
      M EN IT) as E3.
    destruct (all_sigs_heap _ _ _ _ _ _ _ _ _ _ _) as [h1 r]. cbn [fst] in *. rewrite E3 by (unfold all_signatures; cbn [rev]; intros K; apply app_eq_nil in K as [_ K]; discriminate).
    cbn [alloc release block_eqb]. split; [intros _|reflexivity].
    split; [apply LIM; reflexivity|]. split; [reflexivity|]. split; [exact FW|]. apply existsb_exists in OV as (n & I & L). exists n. split; [exact I|]. apply lone_spec, L.
  - pose proof (all_kept C o clock d (names ++ map lower (o_oversign o)) (digest_chunks C (o_digest o) chunks) M EN (rev (all_signatures o)) 0 [] (alloc HeadCtx (alloc BodyCtx []))
      (Forall_rev BN)) as E3.
    destruct (all_sigs_heap _ _ _ _ _ _ _ _ _ _ _) as [h1 r]. cbn [fst] in *. subst h1. cbn [alloc release block_eqb]. split; [discriminate|].
    intros (_ & _ & _ & n & I & L). apply lone_spec in L. assert (Z : existsb lone (o_oversign o) = true) by (apply existsb_exists; eauto). congruence.
Qed.
(** ** Witnesses *)
Definition left_by (o : options) (t : bytes) : heap := fst (CreateSignature_heap toy false (fun _ => 5%Z) o (new_signatory (open_str t)) []).
Lemma left_refuted : left_by (relaxed_rsa [SetOversignHeaders [esc "x\r"]]) letter = [FieldCtx].
Proof. vm_compute; reflexivity. Qed.
Lemma left_cases : left_by full letter = [] /\ left_by (relaxed_rsa []) cr_letter = [] /\ left_by (with_rsa [SetOversignHeaders [esc "x\r"]]) letter = [] /\
  left_by (relaxed_rsa [SetOversignHeaders [esc "x\r"]]) cr_letter = [] /\ left_by new_options letter = [].
Proof. repeat split; vm_compute; reflexivity. Qed.
Definition cr_oversign : list op := rsa_calls ++ [SetCanonModeHeader RELAXED; SetOversignHeaders [esc "x\r"]].
Lemma left_case : let o := run_ops toy cr_oversign new_options in exists fs b out, has_fields letter fs /\ message_body letter b /\
  canonical_body (is_relaxed (o_cbody o)) b out /\ in_time o 5 /\ (o_signlen o = true -> (o_bodylen o <= N.of_nat (length out))%N) /\ o_chead o = RELAXED /\
  fields_without_CR o fs /\ exists n, In n (o_oversign o) /\ has_lone_CR n.
Proof.
  cbv zeta. destruct letter_parsed as (m & s & P & HM). exists (m_headers m), (esc "hi\r\n"), (esc "hi\r\n").
  split; [eapply parse_fields; eauto|]. split; [exact letter_body|].
  split. { apply canonical_out. vm_compute. reflexivity. }
  split. { intros _. vm_compute. split; discriminate. }
  split; [discriminate|]. split; [reflexivity|]. split.
  - rewrite HM. intros f K _. apply lone_false. rewrite letter_fields_are in K. destruct K as [<-|[<-|[]]]; vm_compute; reflexivity.
  - exists (esc "x\r"). split; [left; reflexivity|]. apply lone_spec. vm_compute. reflexivity.
Qed.
