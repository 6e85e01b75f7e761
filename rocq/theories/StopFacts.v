(** Why and where signing stops: proofs. *)
From Verif Require Import VerifyProps Bytes Outcome Stream Tokenizer QuotedPrintable Base64 MailParser Canonicalization Util CStdlib Crypto PublicKey
  SignatoryOptions Signatory Tool Reasons SignReasons BytesFacts StreamFacts TokenizerFacts SpecText SpecTags SpecMail SpecCanon SpecVerify SpecSig SpecBase64 SpecPass SpecOptions SpecSign
  SpecError SpecOutcome SpecReason SpecRelaxed SpecMade SpecStop PassFacts MailFacts BodyFacts BodyProps HeaderFacts HeaderProps SelectFacts VerifyFacts SignNumbers SignText SignFacts
  SignMail SignRound LoneFacts SafetyFacts OptionsFacts OutcomeFacts ReasonCheck RelaxedFacts BindingProps MadeFacts.

(** ** One signature *)
Lemma filter_two mode t : (exists c, FilterHeader false mode t = Ok c) \/ mode = RELAXED /\ FilterHeader false mode t = perm /\ field_reason t (filter_what false t).
Proof.
  destruct mode; [left; eexists; reflexivity|]. destruct (FilterHeader_exact t) as [[P _]|((out & E) & _)]; [|eauto].
  right. split; [reflexivity|]. split; [exact P|]. apply filter_says. exact P.
Qed.
Definition one_event (C : crypto) (o : options) (now : Z) (names : list bytes) (data bh : bytes) (q : sig_options) (e : event) : Prop :=
  match e with
  | Refused m => one_signature C false o now data names bh q = perm /\ one_what false o now names bh q = m
  | Leaves k => one_signature C false o now data names bh q = UB k
  end.
Lemma template_late o q now names bh : ~ in_time o now -> sig_template o q now names bh = UB UB_overflow.
Proof.
  rewrite in_time_int64. intros N. unfold sig_template. rewrite time_tags_text. destruct (o_exsign o); cbn [andb]; [|destruct N; discriminate].
  destruct (in_int64 (expiry o now)); cbn [negb]; [destruct N; auto|reflexivity].
Qed.
Lemma template_ok o q now names bh : in_time o now -> exists T, sig_template o q now names bh = Ok T.
Proof.
  rewrite in_time_int64. intros N. unfold sig_template. rewrite time_tags_text. destruct (o_exsign o); cbn [andb obind].
  - rewrite N by auto. cbn [negb obind]. destruct h_list. eauto.
  - destruct h_list. eauto.
Qed.
Lemma one_stop C o now names data bh q e : sig_stop C o now names data bh q e <-> one_event C o now names data bh q e.
Proof.
  split.
  - assert (UP : forall T, in_time o now -> field_up_to_b o q now names bh T -> sig_template o q now names bh = Ok T) by (intros T A B; apply up_to_b; auto).
    intros [NT|T m IT M F R|T c IT F FT A K|T c k IT F FT A K S1|T c IT F FT A K|T c IT F FT A K S1]; cbn [one_event]; unfold one_signature, one_what;
      [rewrite (template_late _ _ _ _ _ NT); reflexivity| rewrite (UP T IT F); cbn [obind]..].
    + rewrite M. apply filter_exact in R as [R1 R2]. rewrite R1. cbn [obind]. auto.
    + apply form_text in FT. rewrite FT. cbn [obind]. unfold make_signature, make_what. rewrite A, K. auto.
    + apply form_text in FT. rewrite FT. cbn [obind]. unfold make_signature, make_what. rewrite A, K, S1. auto.
    + apply form_text in FT. rewrite FT. cbn [obind]. unfold make_signature, c_read. rewrite A. destruct (Nat.leb_spec 64 (S (length (so_ed q)))); [lia|reflexivity].
    + apply form_text in FT. rewrite FT. cbn [obind]. unfold make_signature, c_read, make_what. rewrite A. destruct (Nat.leb_spec 64 (S (length (so_ed q)))); [|lia]. cbn [obind]. rewrite S1. auto.
  - assert (DI : in_time o now \/ ~ in_time o now).
    { rewrite in_time_int64. destruct (o_exsign o); [|left; discriminate]. destruct (in_int64 (expiry o now)); auto. right. intros K. specialize (K eq_refl). discriminate. }
    destruct DI as [IT|NT].
    2: { unfold one_event, one_signature. rewrite (template_late _ _ _ _ _ NT). destruct e; [intros [K _]; discriminate K|]. intros [= <-]. apply ss_time. exact NT. }
    destruct (template_ok o q now names bh IT) as (T & ET). pose proof (proj2 (up_to_b _ _ _ _ _ _) ET) as [_ F].
    unfold one_event, one_signature, one_what. rewrite ET. cbn [obind].
    destruct (filter_two (o_chead o) T) as [(c & EF)|(M & EF & R)].
    + rewrite EF. cbn [obind]. apply form_text in EF. unfold make_signature, make_what. destruct (so_alg q) eqn:A.
      * destruct (so_rsa q) as [k|] eqn:K.
        { destruct (c_rsa_sign C (o_digest o) (digest C (o_digest o) (data ++ c)) k) eqn:S1; cbn [obind].
          - destruct e; [intros [X _]; discriminate X|intros X; discriminate X].
          - destruct e; [|intros X; discriminate X]. intros [_ <-]. eapply ss_rsa; eauto. }
        { destruct e; [|intros X; discriminate X]. intros [_ <-]. eapply ss_no_key; eauto. }
      * unfold c_read. destruct (Nat.leb_spec 64 (S (length (so_ed q)))) as [L|L]; cbn [obind].
        { destruct (c_ed_sign C (digest C (o_digest o) (data ++ c)) (firstn 64 (so_ed q ++ [chr 0]))) eqn:S1; cbn [obind].
          - destruct e; [intros [X _]; discriminate X|intros X; discriminate X].
          - destruct e; [|intros X; discriminate X]. intros [_ <-]. eapply ss_ed; eauto. lia. }
        { destruct e; [intros [X _]; discriminate X|]. intros [= <-]. eapply ss_short; eauto. lia. }
    + rewrite EF. cbn [obind]. destruct e; [|intros X; discriminate X]. intros [_ <-]. eapply ss_text; eauto.
Qed.
Lemma one_classes C o now names data bh q : (exists H, one_signature C false o now data names bh q = Ok H) \/
  one_signature C false o now data names bh q = perm \/ exists k, one_signature C false o now data names bh q = UB k.
Proof. exact (ordinary_one C false o now data names bh q). Qed.
Lemma one_event_fun C o now names data bh q e e' : one_event C o now names data bh q e -> one_event C o now names data bh q e' -> e = e'.
Proof.
  destruct e, e'; cbn [one_event].
  - intros [_ <-] [_ <-]. reflexivity.
  - intros [E _] E'. rewrite E in E'. discriminate E'.
  - intros E' [E _]. rewrite E in E'. discriminate E'.
  - intros E E'. rewrite E in E'. injection E' as <-. reflexivity.
Qed.

(** ** The signatures *)
Definition at_first (st : nat -> event -> Prop) (k : nat) (e : event) : Prop := st k e /\ forall j x, st j x -> k <= j.
(** A result and the first event. *)
Definition ends_as {A} (st : nat -> event -> Prop) (r : outcome A) (what : bytes) : Prop :=
  match r with
  | Ok _ => forall k e, ~ st k e
  | Throw x => x = PermanentError AR_PERMERROR /\ exists k, at_first st k (Refused what)
  | UB u => exists k, at_first st k (Leaves u)
  | Diverge => False
  end.
Definition sigs_stop C o (clock : nat -> Z) n data names bh (l : list sig_options) (k : nat) (e : event) : Prop :=
  exists q, nth_error l k = Some q /\ one_event C o (clock (n + k)) names data bh q e.
Lemma sigs_ends C o clock data names bh l : forall n acc,
  ends_as (sigs_stop C o clock n data names bh l) (all_sigs C false o clock n data names bh l acc) (sigs_what C false o clock n data names bh l).
Proof.
  induction l as [|q l IH]; intros n acc; cbn [all_sigs sigs_what].
  - intros k e (q & N & _). destruct k; discriminate N.
  - destruct (one_classes C o (clock n) names data bh q) as [(H & E)|[E|(u & E)]]; rewrite E; cbn [obind].
    + specialize (IH (S n) (match acc with [] => H | _ => acc ++ CRLF ++ H end)).
      assert (SH : forall k e, sigs_stop C o clock n data names bh (q :: l) k e -> exists k', k = S k' /\ sigs_stop C o clock (S n) data names bh l k' e).
      { intros [|k] e (q1 & N & O).
        - cbn [nth_error] in N. injection N as <-. rewrite Nat.add_0_r in O. destruct e; cbn [one_event] in O; [destruct O as [O _]|]; rewrite E in O; discriminate O.
        - exists k. split; [reflexivity|]. exists q1. split; [exact N|]. replace (S n + k) with (n + S k) by lia. exact O. }
      assert (HS : forall k e, sigs_stop C o clock (S n) data names bh l k e -> sigs_stop C o clock n data names bh (q :: l) (S k) e).
      { intros k e (q1 & N & O). exists q1. split; [exact N|]. replace (n + S k) with (S n + k) by lia. exact O. }
      assert (AF : forall k e, at_first (sigs_stop C o clock (S n) data names bh l) k e -> at_first (sigs_stop C o clock n data names bh (q :: l)) (S k) e).
      { intros k e [A B]. split; [apply HS; exact A|]. intros j x J. apply SH in J as (k' & -> & J). apply B in J. lia. }
      destruct (all_sigs C false o clock (S n) data names bh l (match acc with [] => H | _ => acc ++ CRLF ++ H end)) as [a|x|u|]; cbn [ends_as] in *.
      * intros k e K. apply SH in K as (k' & -> & K). exact (IH _ _ K).
      * destruct IH as [-> (k & K)]. split; [reflexivity|]. exists (S k). apply AF. exact K.
      * destruct IH as (k & K). exists (S k). apply AF. exact K.
      * exact IH.
    + split; [reflexivity|]. exists 0. split; [|intros; lia]. exists q. split; [reflexivity|]. rewrite Nat.add_0_r. split; [exact E|reflexivity].
    + exists 0. split; [|intros; lia]. exists q. split; [reflexivity|]. rewrite Nat.add_0_r. exact E.
Qed.

(** ** The fields *)
Definition fields_stop (strict : bool) (mode : canon_mode) (ts : list bytes) (hs : list header) (k : nat) (e : event) : Prop :=
  exists f, nth_error hs k = Some f /\
    (strict = true /\ ~ ascii_text (h_name f) /\ e = Leaves UB_ctype \/
     (strict = true -> ascii_text (h_name f)) /\ picked ts f = true /\ mode = RELAXED /\ exists m, field_reason (h_text f) m /\ e = Refused m).
Lemma ascii_dec n : ascii_text n \/ ~ ascii_text n.
Proof. unfold ascii_text. rewrite <- eight_seven. destruct existsb; [right; discriminate|auto]. Qed.
Lemma what_seven strict h : h_name h <> [] -> own_name h -> ascii_text (h_name h) -> filter_what strict (h_text h) = filter_what false (h_text h).
Proof.
  intros NE ON S7. destruct (ON NE) as (w1 & w2 & r & -> & NC & W1 & W2). unfold filter_what. rewrite find_char_app by exact NC.
  rewrite firstn_app_exact. assert (X : lower_str strict (w1 ++ h_name h ++ w2) = lower_str false (w1 ++ h_name h ++ w2)); [|rewrite X; reflexivity].
  assert (Y : lower_str strict (w1 ++ h_name h ++ w2) = Ok (lower (w1 ++ h_name h ++ w2))); [|rewrite Y; reflexivity].
  apply lower_seven. split; [reflexivity|]. intros _.
  assert (W : forall w, Forall WSP w -> Forall (fun c => (code c < 128)%N) w) by (intros w; apply Forall_impl; intros c [->| ->]; vm_compute; reflexivity).
  repeat (apply Forall_app; split); auto.
Qed.
Lemma fields_ends strict mode ts hs : (forall h, In h hs -> own_name h) ->
  ends_as (fields_stop strict mode ts hs) (sign_headers strict mode ts hs) (fields_what strict mode ts hs).
Proof.
  induction hs as [|h hs IH]; intros ON; cbn [sign_headers fields_what].
  - intros k e (f & N & _). destruct k; discriminate N.
  - specialize (IH (fun g I => ON g (or_intror I))). specialize (ON h (or_introl eq_refl)).
    assert (HS : forall k e, fields_stop strict mode ts hs k e -> fields_stop strict mode ts (h :: hs) (S k) e) by (intros k e (f & N & O); exists f; auto).
    destruct (lower_str strict (h_name h)) as [n| | |] eqn:E.
    2, 4: unfold lower_str in E; destruct (strict && existsb is_8bit (h_name h)); discriminate E.
    2: { cbn [obind]. unfold lower_str in E. destruct (strict && existsb is_8bit (h_name h)) eqn:X; [|discriminate E]. injection E as <-. apply andb_true_iff in X as [-> X].
         exists 0. split; [|intros; lia]. exists h. split; [reflexivity|]. left. split; [reflexivity|]. split; [|reflexivity]. unfold ascii_text. rewrite <- eight_seven. congruence. }
    apply lower_seven in E as [-> S7]. cbn [obind].
    assert (SK : (forall e, ~ fields_stop strict mode ts (h :: hs) 0 e) ->
      ends_as (fields_stop strict mode ts (h :: hs)) (sign_headers strict mode ts hs) (fields_what strict mode ts hs)).
    { intros NO. assert (SH : forall k e, fields_stop strict mode ts (h :: hs) k e -> exists k', k = S k' /\ fields_stop strict mode ts hs k' e).
      { intros [|k] e K; [destruct (NO e K)|]. exists k. split; [reflexivity|]. destruct K as (f & N & O). exists f. auto. }
      assert (AF : forall k e, at_first (fields_stop strict mode ts hs) k e -> at_first (fields_stop strict mode ts (h :: hs)) (S k) e).
      { intros k e [A B]. split; [apply HS; exact A|]. intros j x J. apply SH in J as (k' & -> & J). apply B in J. lia. }
      destruct (sign_headers strict mode ts hs) as [a|x|u|]; cbn [ends_as] in *.
      * intros k e K. apply SH in K as (k' & -> & K). exact (IH _ _ K).
      * destruct IH as [-> (k & K)]. split; [reflexivity|]. exists (S k). apply AF. exact K.
      * destruct IH as (k & K). exists (S k). apply AF. exact K.
      * exact IH. }
    assert (PF : picked ts h = false -> forall e, ~ fields_stop strict mode ts (h :: hs) 0 e).
    { intros P e (f & N & O). cbn [nth_error] in N. injection N as <-. destruct O as [(S1 & NA & _)|(_ & P2 & _)]; [exact (NA (S7 S1))|congruence]. }
    destruct (lower (h_name h)) as [|c n] eqn:EN.
    { apply SK, PF. unfold picked. rewrite EN. reflexivity. }
    assert (NE : h_name h <> []) by (intros K; rewrite K in EN; discriminate EN).
    destruct (negb match ts with [] => true | _ => false end && negb (memb (c :: n) ts)) eqn:Q.
    { apply SK, PF. unfold picked. rewrite EN. apply andb_true_iff in Q as [Q1 Q2]. apply negb_true_iff in Q2. destruct ts; [discriminate Q1|exact Q2]. }
    assert (P : picked ts h = true).
    { unfold picked. rewrite EN. destruct ts; [reflexivity|]. cbn [negb andb] in Q. apply negb_false_iff in Q. exact Q. }
    assert (FE : FilterHeader strict mode (h_text h) = FilterHeader false mode (h_text h)) by (destruct strict; [apply filter_seven; auto|reflexivity]).
    assert (FW : filter_what strict (h_text h) = filter_what false (h_text h)) by (destruct strict; [apply what_seven; auto; apply S7; reflexivity|reflexivity]).
    rewrite FE, FW. destruct (filter_two mode (h_text h)) as [(y & EF)|(M & EF & R)].
    + rewrite EF. cbn [obind].
      assert (NO : forall e, ~ fields_stop strict mode ts (h :: hs) 0 e).
      { intros e (f & N & O). cbn [nth_error] in N. injection N as <-. destruct O as [(S1 & NA & _)|(_ & _ & M & m & R & _)]; [exact (NA (S7 S1))|].
        apply field_reason_none in R. subst mode. rewrite EF in R. discriminate R. }
      specialize (SK NO). destruct (sign_headers strict mode ts hs) as [[d names]|x|u|]; cbn [obind ends_as] in *; exact SK.
    + rewrite EF. cbn [obind]. split; [reflexivity|]. exists 0. split; [|intros; lia]. exists h. split; [reflexivity|]. right. eauto 10.
Qed.
Lemma omap_two strict l : omap (lower_str strict) l = Ok (map lower l) /\ (strict = true -> Forall ascii_text l) \/
  omap (lower_str strict) l = UB UB_ctype /\ strict = true /\ ~ Forall ascii_text l.
Proof.
  induction l as [|n l IH]; [left; split; [reflexivity|constructor]|]. cbn [omap]. unfold lower_str at 1 3. destruct strict; cbn [andb].
  - destruct (existsb is_8bit n) eqn:X; cbn [obind].
    + right. split; [reflexivity|]. split; [reflexivity|]. intros F. inversion F as [|? ? A _]; subst. unfold ascii_text in A. rewrite <- eight_seven in A. congruence.
    + apply eight_seven in X. destruct IH as [[-> F]|(-> & _ & F)]; cbn [obind]; [left|right].
      * split; [reflexivity|]. intros S1. constructor; auto.
      * split; [reflexivity|]. split; [reflexivity|]. intros K. inversion K; auto.
  - cbn [obind]. destruct IH as [[-> _]|(_ & D & _)]; [|discriminate D]. left. split; [reflexivity|discriminate].
Qed.

(** The text for the field itself does not depend on [strict]. *)
Lemma one_what_seven strict o now names bh q : one_what strict o now names bh q = one_what false o now names bh q.
Proof.
  unfold one_what. destruct (sig_template o q now names bh) as [T| | |] eqn:ET; try reflexivity. apply up_to_b in ET as [_ UB].
  destruct UB as (v & t & xx & i & l & h & e2 & V & _ & _ & _ & _ & _ & _ & ET).
  assert (Y : exists n r, T = n ++ COLON :: r /\ ~ In COLON n /\ lower_str strict n = lower_str false n).
  { unfold begins in V. destruct (o_arc o =? 0)%N; [subst v|destruct V as (d & -> & _)].
    - exists (str "DKIM-Signature"). eexists. split; [rewrite ET; reflexivity|]. split; [|destruct strict; vm_compute; reflexivity]. intros K. repeat (destruct K as [K|K]; [discriminate K|]). exact K.
    - exists (str "ARC-Message-Signature"). eexists. split; [rewrite ET; reflexivity|]. split; [|destruct strict; vm_compute; reflexivity]. intros K. repeat (destruct K as [K|K]; [discriminate K|]). exact K. }
  destruct Y as (n & r & -> & NC & LS).
  assert (FW : filter_what strict (n ++ COLON :: r) = filter_what false (n ++ COLON :: r)).
  { unfold filter_what. rewrite find_char_app by exact NC. rewrite firstn_app_exact, LS. reflexivity. }
  rewrite FW. destruct (o_chead o); [reflexivity|]. unfold FilterHeader. rewrite find_char_app by exact NC. rewrite firstn_app_exact, LS. reflexivity.
Qed.

Lemma forms_fun mode (l : list header) : forall a b, Forall2 (fun f out => text_form (relaxes mode) (h_text f) out) l a ->
  Forall2 (fun f out => text_form (relaxes mode) (h_text f) out) l b -> a = b.
Proof.
  induction l as [|h l IH]; intros a b A B; inversion A as [|? x ? a2 X A2]; inversion B as [|? y ? b2 Y B2]; subst; [reflexivity|].
  f_equal; [|apply IH; auto]. apply form_text in X, Y. congruence.
Qed.

(** ** CreateSignature *)
Lemma first_at (st : nat -> event -> Prop) k e : at_first st k e -> first_event st e. Proof. intros [A B]. exists k. auto. Qed.
Lemma create_ends C strict clock o t fs b out : has_fields t fs -> message_body t b -> canonical_body (is_relaxed (o_cbody o)) b out ->
  ends_as (stop C strict clock o fs out) (snd (CreateSignature C strict clock o (new_signatory (open_str t)))) (create_what C strict clock o (new_signatory (open_str t))).
Proof.
  intros HF MB CB. unfold CreateSignature, create_what, new_signatory. cbn [y_msg y_file].
  destruct (message_fields' t) as (_ & _ & _ & m & s & _ & _ & PA & _). rewrite PA.
  assert (EF : m_headers m = fs) by (eapply has_fields_unique; [eapply parse_fields; eauto|exact HF]).
  assert (BA : body_at s (m_offset m) b).
  { eapply message_body_at; eauto. transitivity (contents (open_str t)); [|reflexivity]. unfold parse_all in PA. eapply parse_loop_contents; eauto. }
  assert (X : exists chunks ok s1, CanonicalizationBody s (o_cbody o) (m_offset m) (o_signlen o) (o_bodylen o) = Ok (chunks, ok, s1) /\
    concat chunks = cut (o_signlen o) (o_bodylen o) out /\ (ok = true <-> (o_signlen o = true -> (o_bodylen o <= N.of_nat (length out))%N))).
  { unfold CanonicalizationBody, cut. destruct (o_signlen o).
    - destruct (body_limited buffer_size s (o_cbody o) (m_offset m) b out buffer_pos BA CB (o_bodylen o)) as (calls & s' & E & K). rewrite E.
      do 3 eexists. split; [reflexivity|]. rewrite N.leb_le. tauto.
    - destruct (body_canonical buffer_size s (o_cbody o) (m_offset m) b out buffer_pos BA CB (o_bodylen o)) as (calls & s' & E & K). rewrite E.
      do 3 eexists. split; [reflexivity|]. split; [exact K|]. split; auto; discriminate. }
  destruct X as (chunks & ok & s1 & E & EC & LIM). rewrite E. cbn [snd]. destruct ok.
  2: { split; [reflexivity|]. exists 0. split; [|intros; lia]. destruct (o_signlen o) eqn:SL.
       - apply st_limit; [exact SL|]. destruct (N.le_gt_cases (o_bodylen o) (N.of_nat (length out))) as [L|L]; [|exact L]. destruct LIM as [_ LIM]. discriminate (LIM (fun _ => L)).
       - destruct LIM as [_ LIM]. discriminate LIM. discriminate. }
  cbv zeta. rewrite EF. unfold digest_chunks. rewrite EC. set (bh := digest C (o_digest o) (cut (o_signlen o) (o_bodylen o) out)).
  assert (FP : filter (picked (map lower (o_headers o))) (rev fs) = filter (fun h => choice o (h_name h)) (rev fs)).
  { apply filter_ext. intros h. apply picked_choice. }
  assert (LN : listed_names h_name o fs = map lname (filter (picked (map lower (o_headers o))) (rev fs)) ++ map lower (o_oversign o)).
  { unfold listed_names. rewrite FP. reflexivity. }
  assert (N0 : forall e, ~ stop C strict clock o fs out 0 e).
  { intros e K. inversion K as [SL L| | | | |]; subst. specialize (proj1 LIM eq_refl SL). lia. }
  destruct (omap_two strict (o_headers o)) as [[E1 S1]|(E1 & -> & NF)]; rewrite E1; cbn [obind].
  2: { exists 1. split; [apply st_headers; auto|]. intros [|j] x J; [destruct (N0 _ J)|lia]. }
  assert (N1 : forall e, ~ stop C strict clock o fs out 1 e).
  { intros e K. inversion K as [|ST NF| | | |]; subst. exact (NF (S1 eq_refl)). }
  assert (ON : forall h, In h (rev fs) -> own_name h) by (intros h I; apply in_rev in I; eapply own_fields; eauto).
  pose proof (fields_ends strict (o_chead o) (map lower (o_headers o)) (rev fs) ON) as FE.
  assert (FS : forall k e, fields_stop strict (o_chead o) (map lower (o_headers o)) (rev fs) k e -> stop C strict clock o fs out (2 + k) e).
  { intros k e (f & N & [(ST & NA & ->)|(AS & P & M & mm & R & ->)]); [eapply st_name; eauto|]. eapply st_field; eauto. apply picked_chosen. exact P. }
  assert (SF : forall k e, stop C strict clock o fs out k e -> k < 2 + length fs -> exists k', k = 2 + k' /\ fields_stop strict (o_chead o) (map lower (o_headers o)) (rev fs) k' e).
  { intros k e K L. destruct K as [SL K|ST NF|i f ST N NA|i f mm N AS CH M R|ST NF|i q outs e N F O]; try lia.
    - destruct (N0 (Refused (str "Body sign limit exceed the size of the canonicalized message length"))). apply st_limit; auto.
    - destruct (N1 (Leaves UB_ctype)). apply st_headers; auto.
    - exists i. split; [reflexivity|]. exists f. auto.
    - exists i. split; [reflexivity|]. exists f. split; [exact N|]. right. split; [exact AS|]. split; [apply picked_chosen; exact CH|]. eauto. }
  assert (FL : forall k e, fields_stop strict (o_chead o) (map lower (o_headers o)) (rev fs) k e -> k < length fs).
  { intros k e (f & N & _). rewrite <- rev_length. apply nth_error_Some. congruence. }
  assert (AF : forall k e, at_first (fields_stop strict (o_chead o) (map lower (o_headers o)) (rev fs)) k e -> at_first (stop C strict clock o fs out) (2 + k) e).
  { intros k e [A B]. split; [apply FS; exact A|]. intros j x J. destruct (Nat.lt_ge_cases j (2 + length fs)) as [L|L]; [|apply FL in A; lia].
    destruct (SF j x J L) as (k' & -> & K). apply B in K. lia. }
  destruct (sign_headers strict (o_chead o) (map lower (o_headers o)) (rev fs)) as [[d names]|x|u|] eqn:SH; cbn [ends_as obind] in *.
  2: { destruct FE as [-> (k & K)]. split; [reflexivity|]. exists (2 + k). apply AF. exact K. }
  2: { destruct FE as (k & K). exists (2 + k). apply AF. exact K. }
  2: { exact FE. }
  assert (NF : forall k e, stop C strict clock o fs out k e -> 2 + length fs <= k).
  { intros k e K. destruct (Nat.lt_ge_cases k (2 + length fs)) as [L|L]; [|exact L]. destruct (SF k e K L) as (k' & _ & J). destruct (FE _ _ J). }
  destruct (omap_two strict (o_oversign o)) as [[E3 S3]|(E3 & -> & NV)]; rewrite E3; cbn [obind].
  2: { exists (2 + length fs). split; [apply st_over; auto|]. exact NF. }
  assert (SHF : sign_headers false (o_chead o) (map lower (o_headers o)) (rev fs) = Ok (d, names)) by (apply (fields_seven strict) in SH as [SH _]; auto).
  apply fields_form in SHF as (outs & F & -> & ->). rewrite <- LN. rewrite all_seven.
  assert (SW : forall n, sigs_what C strict o clock n (with_crlf outs) (listed_names h_name o fs) bh (rev (all_signatures o)) = sigs_what C false o clock n (with_crlf outs) (listed_names h_name o fs) bh (rev (all_signatures o))).
  { clear. induction (rev (all_signatures o)) as [|q l IH]; intros n; cbn [sigs_what]; [reflexivity|]. rewrite one_seven, IH.
    destruct (one_signature C false o (clock n) (with_crlf outs) (listed_names h_name o fs) bh q); try reflexivity; apply one_what_seven. }
  rewrite SW. pose proof (sigs_ends C o clock (with_crlf outs) (listed_names h_name o fs) bh (rev (all_signatures o)) 0 []) as SE.
  assert (FS2 : forall k e, sigs_stop C o clock 0 (with_crlf outs) (listed_names h_name o fs) bh (rev (all_signatures o)) k e -> stop C strict clock o fs out (3 + length fs + k) e).
  { intros k e (q & N & O). apply (st_sig C strict clock o fs out k q outs e N); [rewrite <- FP; exact F|]. apply one_stop. exact O. }
  assert (SF2 : forall k e, stop C strict clock o fs out k e -> exists k', k = 3 + length fs + k' /\ sigs_stop C o clock 0 (with_crlf outs) (listed_names h_name o fs) bh (rev (all_signatures o)) k' e).
  { intros k e K. pose proof (NF k e K) as L. destruct K as [SL K|ST NV|i f ST N NA|i f mm N AS CH M R|ST NV|i q outs2 e N F2 O]; try lia.
    - assert (i < length (rev fs)) by (apply nth_error_Some; congruence). rewrite rev_length in *. lia.
    - assert (i < length (rev fs)) by (apply nth_error_Some; congruence). rewrite rev_length in *. lia.
    - destruct (NV (S3 ST)).
    - exists i. split; [reflexivity|]. exists q. split; [exact N|]. assert (outs2 = outs) as ->.
      { rewrite <- FP in F2. exact (forms_fun _ _ _ _ F2 F). }
      apply one_stop. exact O. }
  assert (AF2 : forall k e, at_first (sigs_stop C o clock 0 (with_crlf outs) (listed_names h_name o fs) bh (rev (all_signatures o))) k e -> at_first (stop C strict clock o fs out) (3 + length fs + k) e).
  { intros k e [A B]. split; [apply FS2; exact A|]. intros j x J. destruct (SF2 j x J) as (k' & -> & K). apply B in K. lia. }
  destruct (all_sigs C false o clock 0 (with_crlf outs) (listed_names h_name o fs) bh (rev (all_signatures o)) []) as [a|x|u|]; cbn [ends_as] in *.
  - intros k e K. destruct (SF2 k e K) as (k' & _ & J). exact (SE _ _ J).
  - destruct SE as [-> (k & K)]. split; [reflexivity|]. eexists. apply AF2. exact K.
  - destruct SE as (k & K). eexists. apply AF2. exact K.
  - exact SE.
Qed.
(** ** Equivalences *)
Lemma stop_fun C strict clock o fs body k e e' : stop C strict clock o fs body k e -> stop C strict clock o fs body k e' -> e = e'.
Proof.
  assert (NL : forall (i : nat) (f : header), nth_error (rev fs) i = Some f -> i < length fs).
  { intros i f N. rewrite <- rev_length. apply nth_error_Some. congruence. }
  intros A B. destruct A as [SL K|ST NV|i f ST N NA|i f m N AS CH M R|ST NV|i q outs e N F O];
    inversion B as [SL2 K2|ST2 NV2 EK|i2 f2 ST2 N2 NA2 EK|i2 f2 m2 N2 AS2 CH2 M2 R2 EK|ST2 NV2 EK|i2 q2 outs2 e2 N2 F2 O2 EK]; subst; try reflexivity;
    try (pose proof (NL _ _ N)); try (pose proof (NL _ _ N2)); try lia; try (assert (i2 = i) as -> by lia); try (rewrite N in N2; injection N2 as <-).
  - destruct (NA (AS2 eq_refl)).
  - destruct (NA2 (AS eq_refl)).
  - f_equal. eapply field_reason_fun; eauto.
  - pose proof (forms_fun _ _ _ _ F F2) as <-. apply one_stop in O, O2. eapply one_event_fun; eauto.
Qed.
Lemma first_fun C strict clock o fs body e e' : first_event (stop C strict clock o fs body) e -> first_event (stop C strict clock o fs body) e' -> e = e'.
Proof. intros (k & A & B) (k' & A' & B'). pose proof (B _ _ A'). pose proof (B' _ _ A). assert (k' = k) as -> by lia. eapply stop_fun; eauto. Qed.
Section Ends.
  Context (C : crypto) (strict : bool) (clock : nat -> Z) (o : options) (t : bytes) (fs : list header) (b out : bytes).
  Context (HF : has_fields t fs) (MB : message_body t b) (CB : canonical_body (is_relaxed (o_cbody o)) b out).
  Local Notation result := (snd (CreateSignature C strict clock o (new_signatory (open_str t)))).
  Local Notation what := (create_what C strict clock o (new_signatory (open_str t))).
  Local Notation st := (stop C strict clock o fs out).
  Lemma create_refused m : result = Throw (PermanentError AR_PERMERROR) /\ what = m <-> first_event st (Refused m).
  Proof.
    pose proof (create_ends C strict clock o t fs b out HF MB CB) as E. destruct result as [a|x|u|]; cbn [ends_as] in E.
    - split; [intros [K _]; discriminate K|]. intros (k & K & _). destruct (E _ _ K).
    - destruct E as [-> (k & K)]. apply first_at in K. split; [intros [_ <-]; exact K|]. intros F. pose proof (first_fun _ _ _ _ _ _ _ _ K F) as [= ->]. auto.
    - destruct E as (k & K). apply first_at in K. split; [intros [X _]; discriminate X|]. intros F. pose proof (first_fun _ _ _ _ _ _ _ _ K F) as X. discriminate X.
    - destruct E.
  Qed.
  Lemma create_leaves u : result = UB u <-> first_event st (Leaves u).
  Proof.
    pose proof (create_ends C strict clock o t fs b out HF MB CB) as E. destruct result as [a|x|v|]; cbn [ends_as] in E.
    - split; [discriminate|]. intros (k & K & _). destruct (E _ _ K).
    - destruct E as [-> (k & K)]. apply first_at in K. split; [discriminate|]. intros F. pose proof (first_fun _ _ _ _ _ _ _ _ K F) as X. discriminate X.
    - destruct E as (k & K). apply first_at in K. split; [intros [= <-]; exact K|]. intros F. pose proof (first_fun _ _ _ _ _ _ _ _ K F) as [= ->]. auto.
    - destruct E.
  Qed.
  Lemma create_fine : (exists H, result = Ok H) <-> forall k e, ~ st k e.
  Proof.
    pose proof (create_ends C strict clock o t fs b out HF MB CB) as E. destruct result as [a|x|v|]; cbn [ends_as] in E.
    - split; eauto.
    - split; [intros (H & K); discriminate K|]. destruct E as [_ (k & K & _)]. intros N. destruct (N _ _ K).
    - split; [intros (H & K); discriminate K|]. destruct E as (k & K & _). intros N. destruct (N _ _ K).
    - destruct E.
  Qed.
  Lemma create_three : (exists H, result = Ok H) \/ result = Throw (PermanentError AR_PERMERROR) \/ exists u, result = UB u.
  Proof.
    pose proof (create_ends C strict clock o t fs b out HF MB CB) as E. destruct result as [a|x|v|]; cbn [ends_as] in E; eauto.
    - destruct E as [-> _]. auto.
    - destruct E.
  Qed.
End Ends.

(** ** The setters *)
Lemma pem_firstn key : beqb (firstn 5 key) (str "-----") = true <-> pem_key key.
Proof.
  rewrite beqb_eq. split.
  - intros E. exists (skipn 5 key). rewrite <- E. symmetry. apply firstn_skipn.
  - intros (r & ->). reflexivity.
Qed.
Lemma key_exactly C key s m : snd (so_key C key s) = Throw (PermanentError AR_PERMERROR) /\ key_what C key s = m <-> key_refused C (so_alg s) key m.
Proof.
  unfold so_key, so_SetPrivateKey, key_what. destruct (so_alg s).
  - destruct (beqb (firstn 5 key) (str "-----")) eqn:P.
    + pose proof (proj1 (pem_firstn key) P) as PK. destruct (c_pem_private C key) as [[k|]|] eqn:E; cbn [snd].
      * split; [intros [X _]; discriminate X|]. intros K. inversion K; congruence.
      * split; [intros [_ <-]; apply kr_type; auto|]. intros K. inversion K; subst; try congruence; auto.
      * split; [intros [_ <-]; apply kr_pem; auto|]. intros K. inversion K; subst; try congruence; auto.
    + assert (NP : ~ pem_key key) by (rewrite <- pem_firstn; congruence). destruct (c_der_private C (b64d C key)) as [k|] eqn:E; cbn [snd].
      * split; [intros [X _]; discriminate X|]. intros K. inversion K; congruence.
      * split; [intros [_ <-]; apply kr_der; auto|]. intros K. inversion K; subst; try congruence; auto.
  - destruct (Nat.eqb_spec (length key) 64) as [E|N1]; cbn [snd]; [split; [intros [X _]; discriminate X|intros K; inversion K; congruence]|].
    destruct (Nat.eqb_spec (length key) 32) as [E|N2]; cbn [snd]; [split; [intros [X _]; discriminate X|intros K; inversion K; congruence]|].
    destruct (Nat.eqb_spec (length (b64d C key)) 64) as [E|N3]; cbn [snd]; [split; [intros [X _]; discriminate X|intros K; inversion K; congruence]|].
    destruct (Nat.eqb_spec (length (b64d C key)) 32) as [E|N4]; cbn [snd]; [split; [intros [X _]; discriminate X|intros K; inversion K; congruence]|].
    split; [intros [_ <-]; apply kr_ed; auto|]. intros K. inversion K; subst. auto.
Qed.
Lemma call_exactly C x s m : snd (run_sig_op C x s) = Throw (PermanentError AR_PERMERROR) /\ sig_op_what C x s = m <-> call_refused C (so_alg s) x m.
Proof.
  destruct x as [key|k|d|d|a]; cbn [run_sig_op sig_op_what].
  - rewrite key_exactly. split; [apply cr_key|]. intros K. inversion K; auto.
  - split; [intros [X _]; discriminate X|]. intros K. inversion K.
  - unfold so_setdomain. destruct (ValidateDomain_spec d) as (v & -> & V). cbn [slift]. destruct v; cbn [snd].
    + split; [intros [X _]; discriminate X|]. intros K. inversion K as [|? ND|]; subst. tauto.
    + split; [intros [_ <-]|]. { apply cr_domain. rewrite <- V. discriminate. } intros K. inversion K; auto.
  - unfold so_setselector. destruct (ValidateDomain_spec d) as (v & -> & V). cbn [slift]. destruct v; cbn [snd].
    + split; [intros [X _]; discriminate X|]. intros K. inversion K as [| |? ND]; subst. tauto.
    + split; [intros [_ <-]|]. { apply cr_selector. rewrite <- V. discriminate. } intros K. inversion K; auto.
  - split; [intros [X _]; discriminate X|]. intros K. inversion K.
Qed.
Lemma call_two C x s : snd (run_sig_op C x s) = Ok tt \/ snd (run_sig_op C x s) = Throw (PermanentError AR_PERMERROR).
Proof.
  destruct x as [key|k|d|d|a]; cbn [run_sig_op]; auto.
  - unfold so_key, so_SetPrivateKey. destruct (so_alg s).
    + destruct (beqb (firstn 5 key) (str "-----")); [destruct (c_pem_private C key) as [[k|]|]|destruct (c_der_private C (b64d C key))]; auto.
    + destruct (Nat.eqb (length key) 64); auto. destruct (Nat.eqb (length key) 32); auto. destruct (Nat.eqb (length (b64d C key)) 64); auto. destruct (Nat.eqb (length (b64d C key)) 32); auto.
  - unfold so_setdomain. destruct (ValidateDomain_spec d) as (v & -> & V). cbn [slift]. destruct v; auto.
  - unfold so_setselector. destruct (ValidateDomain_spec d) as (v & -> & V). cbn [slift]. destruct v; auto.
Qed.
