(** When CreateSignature succeeds, and how it fails. *)
From Verif Require Import Bytes Outcome Stream Tokenizer QuotedPrintable Base64 MailParser Canonicalization Util CStdlib Crypto PublicKey
  SignatoryOptions Signatory BytesFacts StreamFacts TokenizerFacts SpecText SpecTags SpecMail SpecCanon SpecVerify SpecSig SpecPass SpecOptions SpecSign SpecOutcome
  QPFacts Base64Facts ListFacts MailFacts BodyFacts BodyProps HeaderFacts HeaderProps SelectFacts VerifyFacts VerifyProps SignNumbers SignText SignFacts SignMail SignRound
  PassFacts LoneFacts SafetyFacts.

(** ** The generated field *)
Lemma lone_own n : lone (lower n) = lone n.
Proof.
  pose proof (lone_lower n []) as E. rewrite !lone_app in E by discriminate. change (lone [COLON]) with false in E. rewrite !orb_false_r in E. exact E.
Qed.
Lemma values_no_cr v : Forall value_byte v -> ~ In CR v.
Proof. intros F K. rewrite Forall_forall in F. apply F in K as [[A B] _]. vm_compute in A. congruence. Qed.
Lemma layout_lone names : forall first t r, h_layout first names t -> lone (t ++ SEMI :: r) = existsb lone names || lone r.
Proof.
  induction names as [|n names IH]; intros first t r H; inversion H as [|? ? ? w t' W H' E1 E2]; subst; [reflexivity|].
  cbn [existsb]. rewrite <- orb_assoc, <- (IH false t' r H'). rewrite <- !app_assoc. rewrite lone_skip by (destruct first; [intros []|intros [K|[]]; discriminate]).
  assert (EW : lone (w ++ n ++ t' ++ SEMI :: r) = lone (n ++ t' ++ SEMI :: r)) by (destruct W as [->| ->]; reflexivity). rewrite EW.
  apply lone_app. inversion H'; subst; discriminate.
Qed.
Lemma template_lone o s now names bh T : sig_template o s now names bh = Ok T ->
  lone T = lone (so_domain s) || (lone (so_selector s) || existsb lone names) /\ In COLON T.
Proof.
  unfold sig_template. rewrite time_tags_text. destruct (o_exsign o && negb (in_int64 (expiry o now))); cbn [obind]; [discriminate|].
  pose proof (h_list_text names true (HT :: str "h=") []) as (t & HT1 & HE). destruct (h_list true names (HT :: str "h=") []) as [hl cur].
  cbn [fst snd app] in HE. intros E. apply Ok_inj in E. subst T.
  set (tail := str ";" ++ CRLF ++ [HT] ++ str "bh=" ++ Base64_Encode bh ++ str ";" ++ CRLF ++ [HT] ++ str "b=").
  rewrite (app_assoc hl cur), HE. clear HE.
  assert (DG : forall z, ~ In CR (fmt_lu z)) by (intros z; apply values_no_cr, digits_bytes, fmt_lu_digits).
  assert (ST : forall l, forallb (fun c => negb (c =?c CR)) l = true -> ~ In CR l).
  { intros l F K. rewrite forallb_forall in F. apply F in K. rewrite ceqb_refl in K. discriminate. }
  assert (AP : forall a b, ~ In CR a -> ~ In CR b -> ~ In CR (a ++ b)) by (intros a b A B K; apply in_app_or in K as [K|K]; auto).
  split.
  - set (start := (if (o_arc o =? 0)%N then _ else _) ++ _). assert (N1 : ~ In CR start).
    { subst start. destruct (o_arc o =? 0)%N; repeat apply AP; try apply DG; try (apply ST; reflexivity); apply ST; destruct (so_alg (o_main o)), (o_digest o), (o_chead o), (o_cbody o); reflexivity. }
    set (tx := (if o_tssign o then _ else _) ++ _). assert (N2 : ~ In CR tx).
    { subst tx. apply AP; [destruct (o_tssign o)|destruct (o_exsign o)]; try (intros K; exact K); repeat apply AP; try apply DG; apply ST; reflexivity. }
    rewrite lone_skip by exact N1. rewrite lone_skip by exact N2. rewrite lone_crlf.
    rewrite lone_skip by (apply ST; reflexivity). rewrite lone_skip by (apply ST; reflexivity). rewrite lone_app by discriminate. f_equal.
    rewrite lone_skip by (apply ST; reflexivity). rewrite lone_app.
    2: { destruct (o_identity o); [|discriminate]. destruct (o_signlen o); discriminate. }
    f_equal.
    match goal with |- lone (?i ++ ?l ++ _) = _ => assert (NI : ~ In CR i); [|assert (NL : ~ In CR l)] end.
    { destruct (o_identity o) as [|c i]; [intros []|]. apply AP; [apply ST; reflexivity|]. rewrite qp_c_str. apply values_no_cr, qp_output_safe. }
    { destruct (o_signlen o); [|intros []]. apply AP; [apply ST; reflexivity|apply DG]. }
    rewrite lone_skip by exact NI. rewrite lone_skip by exact NL. rewrite lone_skip by (apply ST; reflexivity). rewrite lone_crlf.
    change (lone ((HT :: str "h=") ++ t ++ tail) = existsb lone names). rewrite lone_skip by (apply ST; reflexivity).
    subst tail. change (str ";" ++ ?x) with (SEMI :: x). rewrite (layout_lone _ _ _ _ HT1). 
    rewrite lone_crlf. rewrite lone_skip by (apply ST; reflexivity). rewrite lone_skip by (apply ST; reflexivity). rewrite lone_skip by (apply values_no_cr, b64_bytes).
    change (lone _) with false at 1. apply orb_false_r.
  - apply in_or_app. left. destruct (o_arc o =? 0)%N; apply in_or_app; left; [|apply in_or_app; left]; vm_compute; intuition.
Qed.

(** ** One signature *)
Definition fits (C : crypto) (o : options) (names : list bytes) (q : sig_options) : Prop :=
  (o_chead o = RELAXED -> lone (so_domain q) = false /\ lone (so_selector q) = false /\ existsb lone names = false) /\ able C o q.
Lemma able_signs C o q md : able C o q -> exists x, make_signature C o q md = Ok x.
Proof.
  unfold able, make_signature. destruct (so_alg q).
  - intros (k & -> & H). specialize (H md). destruct (c_rsa_sign C (o_digest o) md k); [eauto|congruence].
  - intros [L H]. rewrite c_read_64 by auto. cbn [obind]. specialize (H md). destruct (c_ed_sign C md (so_ed q)); [eauto|congruence].
Qed.
Lemma unable_signs C o q md : unable C o q -> make_signature C o q md = perm.
Proof.
  unfold unable, make_signature. destruct (so_alg q).
  - intros H. destruct (so_rsa q) as [k|]; [rewrite (H k eq_refl)|]; reflexivity.
  - intros [L H]. rewrite c_read_64 by auto. cbn [obind]. rewrite H. reflexivity.
Qed.
Lemma one_exact C o now hashed names bh q : in_time o now -> able C o q \/ unable C o q ->
  (exists h, one_signature C false o now hashed names bh q = Ok h) /\ fits C o names q \/
  one_signature C false o now hashed names bh q = perm /\ ~ fits C o names q.
Proof.
  intros IT AU. unfold one_signature.
  assert (ET : exists T, sig_template o q now names bh = Ok T).
  { unfold sig_template. rewrite time_tags_text. assert (V : o_exsign o && negb (in_int64 (expiry o now)) = false).
    { destruct (o_exsign o) eqn:X; [|reflexivity]. cbn [andb]. apply negb_false_iff. specialize (IT X). unfold in_int64, LONG_MIN, LONG_MAX.
      apply andb_true_iff. split; apply Z.leb_le; lia. }
    rewrite V. cbn [obind]. destruct (h_list _ _ _ _). eauto. }
  destruct ET as (T & ET). rewrite ET. cbn [obind]. destruct (template_lone _ _ _ _ _ _ ET) as [LT IC]. unfold fits.
  assert (FM : (exists c, FilterHeader false (o_chead o) T = Ok c) /\ (o_chead o = RELAXED -> lone T = false) \/
    FilterHeader false (o_chead o) T = perm /\ ~ (o_chead o = RELAXED -> lone T = false)).
  { destruct (o_chead o); [left; split; [eexists; reflexivity|discriminate]|].
    destruct (FilterHeader_exact T) as [[E [X|X]]|(E & X & _)]; [right|contradiction|left]; split; auto. intros K. specialize (K eq_refl). congruence. }
  assert (EQ : (o_chead o = RELAXED -> lone T = false) <->
    (o_chead o = RELAXED -> lone (so_domain q) = false /\ lone (so_selector q) = false /\ existsb lone names = false)).
  { rewrite LT. rewrite !orb_false_iff. tauto. }
  destruct FM as [[(c & E) G]|[E G]]; rewrite E; cbn [obind]; cbv zeta; [|right; split; auto; tauto].
  destruct AU as [A|U].
  - destruct (able_signs C o q (digest C (o_digest o) (hashed ++ c)) A) as (x & ->). cbn [obind]. left. split; [eauto|tauto].
  - rewrite unable_signs by auto. right. split; [reflexivity|]. intros [_ A]. destruct (able_signs C o q [] A) as (x & X). rewrite unable_signs in X by auto. discriminate.
Qed.
Lemma all_exact C o clock hashed names bh l : forall n acc, (forall i, n <= i < n + length l -> in_time o (clock i)) ->
  Forall (fun q => able C o q \/ unable C o q) l ->
  (exists H, all_sigs C false o clock n hashed names bh l acc = Ok H) /\ Forall (fits C o names) l \/
  all_sigs C false o clock n hashed names bh l acc = perm /\ ~ Forall (fits C o names) l.
Proof.
  induction l as [|q l IH]; intros n acc IT F; cbn [all_sigs].
  - left. split; eauto.
  - inversion F; subst. cbn [length] in IT. destruct (one_exact C o (clock n) hashed names bh q (IT n ltac:(lia)) H1) as [[(h & E) G]|[E G]]; rewrite E; cbn [obind].
    + destruct (IH (S n) (match acc with [] => h | _ => acc ++ CRLF ++ h end)) as [[E2 G2]|[E2 G2]]; auto.
      * intros i Hi. apply IT. lia.
      * right. split; auto. intros K. inversion K; auto.
    + right. split; auto. intros K. inversion K; auto.
Qed.

(** ** The fields *)
Lemma fields_exact mode toSign hs : (forall h, In h hs -> h_name h <> [] -> In COLON (h_text h)) ->
  (exists d, sign_headers false mode toSign hs = Ok (d, map lname (filter (picked toSign) hs))) /\
    (forall h, In h hs -> picked toSign h = true -> mode = RELAXED -> lone (h_text h) = false) \/
  sign_headers false mode toSign hs = perm /\ ~ (forall h, In h hs -> picked toSign h = true -> mode = RELAXED -> lone (h_text h) = false).
Proof.
  induction hs as [|h hs IH]; intros IC; cbn [sign_headers].
  - left. split; [eexists; reflexivity|]. intros h [].
  - specialize (IH (fun x K => IC x (or_intror K))). unfold lower_str. cbn [andb obind].
    assert (SKIP : picked toSign h = false -> 
      (exists d, sign_headers false mode toSign hs = Ok (d, map lname (filter (picked toSign) (h :: hs)))) /\
        (forall x, In x (h :: hs) -> picked toSign x = true -> mode = RELAXED -> lone (h_text x) = false) \/
      sign_headers false mode toSign hs = perm /\ ~ (forall x, In x (h :: hs) -> picked toSign x = true -> mode = RELAXED -> lone (h_text x) = false)).
    { intros P. cbn [filter]. rewrite P. destruct IH as [[E G]|[E G]]; [left|right]; (split; [auto|]).
      - intros x [<-|K]; [congruence|auto].
      - intros K. apply G. intros x X. apply K. right. auto. }
    destruct (lower (h_name h)) as [|c n] eqn:LN; [apply SKIP; unfold picked; rewrite LN; reflexivity|].
    destruct (negb match toSign with [] => true | _ => false end && negb (memb (c :: n) toSign)) eqn:Q.
    { apply SKIP. unfold picked. rewrite LN. apply andb_true_iff in Q as [Q1 Q2]. apply negb_true_iff in Q2. destruct toSign; [discriminate|auto]. }
    assert (P : picked toSign h = true).
    { unfold picked. rewrite LN. destruct toSign; auto. cbn [negb andb] in Q. apply negb_false_iff in Q. exact Q. }
    assert (NE : h_name h <> []) by (intros E; rewrite E in LN; discriminate).
    assert (FM : (exists c, FilterHeader false mode (h_text h) = Ok c) /\ (mode = RELAXED -> lone (h_text h) = false) \/
      FilterHeader false mode (h_text h) = perm /\ ~ (mode = RELAXED -> lone (h_text h) = false)).
    { destruct mode; [left; split; [eexists; reflexivity|discriminate]|].
      destruct (FilterHeader_exact (h_text h)) as [[E [X|X]]|(E & X & _)]; [right|destruct X; apply IC; [left|]; auto|left]; split; auto.
      intros K. specialize (K eq_refl). congruence. }
    destruct FM as [[(x & E) G]|[E G]]; rewrite E; cbn [obind].
    + cbn [filter]. rewrite P. destruct IH as [[(d & E2) G2]|[E2 G2]]; rewrite E2; cbn [obind].
      * left. split; [eexists; cbn [map]; unfold lname at 2; rewrite LN; reflexivity|]. intros y [<-|K]; auto.
      * right. split; auto. intros K. apply G2. intros y Y. apply K. right. auto.
    + right. split; auto. intros K. apply G. intros M. apply K; auto. left. auto.
Qed.

(** ** CreateSignature *)
Lemma name_in_text t fs f : has_fields t fs -> In f fs -> h_name f <> [] -> In COLON (h_text f) /\ (lone (h_text f) = false -> lone (h_name f) = false).
Proof.
  intros HF K NE. pose proof (fields_named _ _ _ HF K) as N. inversion N as [|w1 n w2 rest NC W1 W2 TR E1 E2 E3]; [congruence|]. subst n.
  split; [apply in_or_app; right; left; auto|]. rewrite <- !app_assoc. rewrite lone_skip, lone_app; [intros L; apply orb_false_iff in L; tauto| |].
  - destruct w2 as [|c w2]; [discriminate|]. inversion W2 as [|? ? [X|X] ?]; subst; discriminate.
  - intros I1. rewrite Forall_forall in W1. apply W1 in I1 as [X|X]; discriminate.
Qed.
Lemma omap_lower_false l : omap (lower_str false) l = Ok (map lower l).
Proof. induction l as [|x l IH]; cbn [omap]; [reflexivity|]. unfold lower_str at 1. cbn [andb obind]. rewrite IH. reflexivity. Qed.
Lemma create_exact C clock o t fs b out : has_fields t fs -> message_body t b -> canonical_body (is_relaxed (o_cbody o)) b out ->
  (forall i, i < length (all_signatures o) -> in_time o (clock i)) -> Forall (fun q => able C o q \/ unable C o q) (all_signatures o) ->
  let r := snd (CreateSignature C false clock o (new_signatory (open_str t))) in
  ((exists H, r = Ok H) <->
   (o_signlen o = true -> (o_bodylen o <= N.of_nat (length out))%N) /\ (o_chead o = RELAXED -> without_lone_CR o fs) /\ Forall (able C o) (all_signatures o)) /\
  ((exists H, r = Ok H) \/ r = Throw (PermanentError AR_PERMERROR)).
Proof.
  intros HF MB CB IT AU. cbv zeta. unfold CreateSignature, new_signatory. cbn [y_msg y_file].
  destruct (message_fields' t) as (_ & _ & _ & m & s & _ & _ & PA & _). rewrite PA.
  assert (EF : m_headers m = fs) by (eapply has_fields_unique; [eapply parse_fields; eauto|exact HF]).
  assert (BA : body_at s (m_offset m) b).
  { eapply message_body_at; eauto. transitivity (contents (open_str t)); [|reflexivity]. unfold parse_all in PA. eapply parse_loop_contents; eauto. }
  assert (X : exists chunks ok s1, CanonicalizationBody s (o_cbody o) (m_offset m) (o_signlen o) (o_bodylen o) = Ok (chunks, ok, s1) /\
    (ok = true <-> (o_signlen o = true -> (o_bodylen o <= N.of_nat (length out))%N))).
  { unfold CanonicalizationBody, cut. destruct (o_signlen o).
    - destruct (body_limited buffer_size s (o_cbody o) (m_offset m) b out buffer_pos BA CB (o_bodylen o)) as (calls & s' & E & K). rewrite E.
      do 3 eexists. split; [reflexivity|]. rewrite N.leb_le. tauto.
    - destruct (body_canonical buffer_size s (o_cbody o) (m_offset m) b out buffer_pos BA CB (o_bodylen o)) as (calls & s' & E & K). rewrite E.
      do 3 eexists. split; [reflexivity|]. split; auto; discriminate. }
  destruct X as (chunks & ok & s1 & E & LIM). rewrite E. cbn [snd].
  assert (NO : forall (P : Prop) (r : outcome bytes), r = perm -> ~ P -> ((exists H, r = Ok H) <-> P) /\ ((exists H, r = Ok H) \/ r = Throw (PermanentError AR_PERMERROR))).
  { intros P r -> NP. split; [|auto]. split; [intros (H & K); discriminate|tauto]. }
  destruct ok.
  2: { apply NO; auto. intros [K _]. apply LIM in K. discriminate. }
  cbv zeta. rewrite !omap_lower_false. cbn [obind]. rewrite EF.
  assert (IN : forall h, In h (rev fs) <-> In h fs) by (intros h; symmetry; apply in_rev).
  destruct (fields_exact (o_chead o) (map lower (o_headers o)) (rev fs)) as [[(d & E2) G]|[E2 G]].
  { intros h K NE. apply IN in K. eapply name_in_text; eauto. }
  2: { rewrite E2. apply NO; auto. intros (_ & W & _). apply G. intros h K PK M. apply lone_false. destruct (W M) as [W1 _]. apply W1; [apply IN; auto|]. apply picked_chosen. auto. }
  rewrite E2. cbn [obind].
  destruct (all_exact C o clock d (map lname (filter (picked (map lower (o_headers o))) (rev fs)) ++ map lower (o_oversign o)) (digest_chunks C (o_digest o) chunks)
    (rev (all_signatures o)) 0 []) as [[E3 G3]|[E3 G3]].
  { intros i Hi. rewrite rev_length in Hi. apply IT. lia. }
  { apply Forall_rev. auto. }
  - split; [|left; auto]. split; auto. intros _. split; [apply LIM; auto|]. rewrite Forall_forall in G3. split.
    + intros M. split; [|split].
      * intros f K CH. apply lone_false. apply G; auto; [apply IN; auto|apply picked_chosen; auto].
      * intros n K. destruct (G3 (o_main o)) as [W _]; [apply in_rev; rewrite rev_involutive; left; auto|]. specialize (W M) as (_ & _ & W).
        apply lone_false. rewrite <- lone_own. apply not_true_iff_false. intros L.
        assert (Z1 : existsb lone (map lname (filter (picked (map lower (o_headers o))) (rev fs)) ++ map lower (o_oversign o)) = true);
          [|congruence]. apply existsb_exists. exists (lower n). split; auto. apply in_or_app. right. apply in_map. auto.
      * intros q K. destruct (G3 q) as [W _]; [apply in_rev; rewrite rev_involutive; auto|]. specialize (W M) as (W1 & W2 & _). rewrite <- !lone_false. auto.
    + apply Forall_forall. intros q K. apply G3. apply in_rev. rewrite rev_involutive. auto.
  - apply NO; auto. intros (_ & W & A). apply G3. apply Forall_forall. intros q K. apply in_rev in K. rewrite Forall_forall in A. split; [|auto]. intros M.
    destruct (W M) as (W1 & W2 & W3). destruct (W3 q K) as [D1 D2]. split; [apply lone_false; auto|]. split; [apply lone_false; auto|].
    apply not_true_iff_false. intros L. apply existsb_exists in L as (n & IN1 & L). apply in_app_or in IN1 as [IN1|IN1].
    + apply in_map_iff in IN1 as (h & <- & K2). apply filter_In in K2 as [K2 PK]. unfold lname in L. rewrite lone_own in L.
      apply IN in K2. apply picked_chosen in PK. destruct (name_in_text t fs h HF K2 (proj1 PK)) as [_ Z1]. rewrite Z1 in L; [discriminate|].
      apply lone_false. auto.
    + apply in_map_iff in IN1 as (n0 & <- & K2). rewrite lone_own in L. apply lone_spec in L. exact (W2 _ K2 L).
Qed.

(** ** The class of a failure *)
Definition ordinary {A} (x : outcome A) : Prop := (exists a, x = Ok a) \/ x = perm \/ exists k, x = UB k.
Lemma ordinary_ok {A} (a : A) : ordinary (Ok a). Proof. left. eauto. Qed.
Lemma ordinary_perm {A} : ordinary (@perm A). Proof. right. left. auto. Qed.
Lemma ordinary_bind {A B} (x : outcome A) (k : A -> outcome B) : ordinary x -> (forall a, ordinary (k a)) -> ordinary (obind x k).
Proof. intros [(a & ->)|[->|(u & ->)]] K; [apply K|right; left; reflexivity|right; right; exists u; reflexivity]. Qed.
Lemma ordinary_lower strict n : ordinary (lower_str strict n).
Proof. unfold lower_str. destruct (_ && _); [right; right; eauto|apply ordinary_ok]. Qed.
Lemma ordinary_omap strict l : ordinary (omap (lower_str strict) l).
Proof. induction l as [|x l IH]; cbn [omap]; [apply ordinary_ok|]. apply ordinary_bind; [apply ordinary_lower|]. intros a. apply ordinary_bind; auto. intros l'. apply ordinary_ok. Qed.
Lemma ordinary_filter strict mode t : ordinary (FilterHeader strict mode t).
Proof.
  assert (F : ordinary (FilterHeader false mode t)).
  { destruct mode; [apply ordinary_ok|]. destruct (FilterHeader_exact t) as [[-> _]|[(out & ->) _]]; [apply ordinary_perm|apply ordinary_ok]. }
  destruct strict; auto. revert F. unfold FilterHeader. destruct mode; auto. destruct (find_char COLON t); auto. unfold lower_str.
  cbn [andb]. destruct (existsb is_8bit _); auto. intros _. right. right. eexists. reflexivity.
Qed.
Lemma ordinary_fields strict mode ts hs : ordinary (sign_headers strict mode ts hs).
Proof.
  induction hs as [|h hs IH]; cbn [sign_headers]; [apply ordinary_ok|]. apply ordinary_bind; [apply ordinary_lower|]. intros name. cbv zeta.
  destruct name as [|c name]; auto. destruct (_ && _); auto. apply ordinary_bind; [apply ordinary_filter|]. intros x. apply ordinary_bind; auto.
  intros [d n]. apply ordinary_ok.
Qed.
Lemma ordinary_one C strict o now hd names bh q : ordinary (one_signature C strict o now hd names bh q).
Proof.
  unfold one_signature. apply ordinary_bind.
  - unfold sig_template. rewrite time_tags_text. destruct (_ && _); cbn [obind]; [right; right; eauto|]. destruct (h_list _ _ _ _). apply ordinary_ok.
  - intros t. apply ordinary_bind; [apply ordinary_filter|]. intros c. cbv zeta. apply ordinary_bind; [|intros x; apply ordinary_ok].
    unfold make_signature. destruct (so_alg q).
    + destruct (so_rsa q); [|apply ordinary_perm]. destruct (c_rsa_sign _ _ _ _); [apply ordinary_ok|apply ordinary_perm].
    + apply ordinary_bind; [unfold c_read; destruct (_ <=? _); [apply ordinary_ok|right; right; eauto]|].
      intros k. destruct (c_ed_sign _ _ _); [apply ordinary_ok|apply ordinary_perm].
Qed.
Lemma ordinary_all C strict o clock hd names bh l : forall n acc, ordinary (all_sigs C strict o clock n hd names bh l acc).
Proof. induction l as [|q l IH]; intros n acc; cbn [all_sigs]; [apply ordinary_ok|]. apply ordinary_bind; [apply ordinary_one|]. intros h. apply IH. Qed.
Lemma create_class C strict clock o t : let r := snd (CreateSignature C strict clock o (new_signatory (open_str t))) in
  (exists H, r = Ok H) \/ r = Throw (PermanentError AR_PERMERROR) \/ exists k, r = UB k.
Proof.
  cbv zeta. unfold CreateSignature, new_signatory. cbn [y_msg y_file].
  destruct (message_fields' t) as (_ & _ & _ & m & s & _ & _ & PA & _). rewrite PA.
  destruct (message_body_exists t) as (b & MB). set (r := is_relaxed (o_cbody o)).
  set (out := out_fun r (canon_list r b)). assert (CB : canonical_body r b out) by (apply canonical_out; reflexivity).
  assert (BA : body_at s (m_offset m) b).
  { eapply message_body_at; eauto. transitivity (contents (open_str t)); [|reflexivity]. unfold parse_all in PA. eapply parse_loop_contents; eauto. }
  assert (X : exists chunks ok s1, CanonicalizationBody s (o_cbody o) (m_offset m) (o_signlen o) (o_bodylen o) = Ok (chunks, ok, s1)).
  { unfold CanonicalizationBody. destruct (o_signlen o).
    - destruct (body_limited buffer_size s (o_cbody o) (m_offset m) b out buffer_pos BA CB (o_bodylen o)) as (calls & s' & E & K). rewrite E. eauto.
    - destruct (body_canonical buffer_size s (o_cbody o) (m_offset m) b out buffer_pos BA CB (o_bodylen o)) as (calls & s' & E & K). rewrite E. eauto. }
  destruct X as (chunks & ok & s1 & E). rewrite E. cbn [snd]. destruct ok; [|apply ordinary_perm].
  cbv zeta. apply ordinary_bind; [apply ordinary_omap|]. intros ts. apply ordinary_bind; [apply ordinary_fields|]. intros [hd names].
  apply ordinary_bind; [apply ordinary_omap|]. intros ov. apply ordinary_all.
Qed.
