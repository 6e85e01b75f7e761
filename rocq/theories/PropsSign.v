(** C23, C42, C43, C44, C49, C50, C56: what CreateSignature produces, and that it verifies. *)
From Verif Require Import Bytes Outcome Stream Tokenizer Base64 TagList MailParser Canonicalization Util CStdlib Crypto Signature PublicKey
  SignatoryOptions Signatory Validatory SpecText SpecTags SpecMail SpecCanon SpecVerify SpecSig SpecOptions SpecSign MailFacts BodyProps BodyFacts SelectFacts VerifyFacts VerifyProps
  SignRound SignProps Examples VerifyExamples SignExamples.

(** The produced fields stand first among the signatures of the message they are put before;
    GetSignature and CheckSignature succeed for each of them with key data that belong to its key. *)
Theorem C23_round_trip : forall C strict clock o t y H m s, ~ starts_wsp t -> parse_all new_message (open_str t) = Ok (m, s) ->
  CreateSignature C strict clock o (new_signatory (open_str t)) = (y, Ok H) ->
  Forall (sound_options strict o) (all_signatures o) -> sound_fields h_name o (m_headers m) ->
  exists v fields, new_validatory strict (sig_type o) (open_str (H ++ CRLF ++ t)) = Ok v /\
    H = joined fields /\ m_headers (v_msg v) = map header_of fields ++ m_headers m /\
    v_sigs v = map header_of fields ++ filter (wanted (sig_type o)) (m_headers m) /\
    length fields = length (all_signatures o) /\
  forall i q, nth_error (rev (all_signatures o)) i = Some q ->
  exists h, nth_error (v_sigs v) i = Some h /\
  forall v1 p now e0, in_use strict (sig_type o) (H ++ CRLF ++ t) v1 -> serves C o q p -> small_field h ->
    (o_exsign o = true -> (now <= expiry o (clock i))%Z) -> (o_signlen o = true -> e0 = false) ->
  exists v2 g e1, GetSignature C strict now h (new_signature, e0) v1 = (v2, (g, e1), Ok tt) /\
    CheckSignature C strict h g p v2 = Ok tt /\
    sg_selector g = so_selector q /\ sg_domain g = map low (so_domain q) /\
    key_query g = so_selector q ++ str "._domainkey." ++ map low (so_domain q) /\
    sg_headers g = listed_names h_name o (m_headers m) /\ sg_chead g = o_chead o /\ sg_cbody g = o_cbody o.
Proof. exact round_trip. Qed.
Print Assumptions C23_round_trip.
(** The hypotheses hold for a message and options with everything set. *)
Example C23_case : exists y H m s, ~ starts_wsp letter /\ parse_all new_message (open_str letter) = Ok (m, s) /\
  CreateSignature toy true (fun _ => 5%Z) full (new_signatory (open_str letter)) = (y, Ok H) /\
  Forall (sound_options true full) (all_signatures full) /\ sound_fields h_name full (m_headers m) /\
  (forall q, In q (all_signatures full) -> serves toy full q rsa_pub).
Proof. exact full_hypotheses. Qed.
Example C23_case_run : signed_by toy full letter V_DKIM 0 rsa_pub = Ok tt /\ signed_by toy full letter V_DKIM 1 rsa_pub = Ok tt /\
  signed_by toy (with_ed []) letter V_DKIM 0 ed_pub = Ok tt /\
  signed_by toy (with_rsa [SetARCInstance 3; SetHeaders []; AddHeaders [esc "FROM"]]) letter V_ARC 0 rsa_pub = Ok tt.
Proof. exact (conj (proj1 full_verifies) (conj (proj2 full_verifies) (conj ed_verifies arc_verifies))). Qed.

(** Without the conditions: [unverifiable o t ty i p] says that signing [t] succeeds, that the key
    data [p] belong to the key of the i-th field, and that it does not verify. *)
Theorem C56_leading_space_refuted : exists o t p, unverifiable o t V_DKIM 0 p /\ starts_wsp t.
Proof. exact (ex_intro _ _ (ex_intro _ _ (ex_intro _ _ (conj bad_start (ex_intro _ SP (ex_intro _ _ (conj eq_refl (or_introl eq_refl)))))))). Qed.
Print Assumptions C56_leading_space_refuted.
Theorem C56_oversigned_unsigned_refuted :
  unverifiable (with_rsa [SetHeaders [esc "from"]; SetOversignHeaders [esc "subject"]]) letter V_DKIM 0 rsa_pub.
Proof. exact bad_oversign. Qed.
Print Assumptions C56_oversigned_unsigned_refuted.
Theorem C56_oversigned_signature_refuted : unverifiable (with_rsa [SetOversignHeaders [esc "dkim-signature"]]) letter V_DKIM 0 rsa_pub.
Proof. exact bad_oversign_own. Qed.
Print Assumptions C56_oversigned_signature_refuted.
Theorem C56_arc_identity_refuted : unverifiable (with_rsa [SetARCInstance 1; SetIdentity (esc "@ex.org")]) letter V_ARC 0 rsa_pub.
Proof. exact bad_arc_identity. Qed.
Print Assumptions C56_arc_identity_refuted.
Theorem C56_mixed_algorithms_refuted : unverifiable mixed letter V_DKIM 0 ed_pub.
Proof. exact bad_mixed. Qed.
Print Assumptions C56_mixed_algorithms_refuted.
Theorem C56_ed25519_sha1_refuted : unverifiable (with_ed [SetDigestAlgorithm SHA1]) letter V_DKIM 0 ed_pub.
Proof. exact bad_ed_sha1. Qed.
Print Assumptions C56_ed25519_sha1_refuted.
Theorem C56_semicolon_name_refuted : unverifiable (with_rsa [SetHeaders []]) (esc "X;y: 1\r\n" ++ letter) V_DKIM 0 rsa_pub.
Proof. exact bad_name. Qed.
Print Assumptions C56_semicolon_name_refuted.
Theorem C56_no_from_refuted : unverifiable (with_rsa [SetHeaders [esc "subject"]]) letter V_DKIM 0 rsa_pub.
Proof. exact bad_no_from. Qed.
Print Assumptions C56_no_from_refuted.
Theorem C56_identity_refuted : unverifiable (with_rsa [SetIdentity (esc "a@other.org")]) letter V_DKIM 0 rsa_pub.
Proof. exact bad_identity. Qed.
Print Assumptions C56_identity_refuted.

(** A name all of whose spellings are removed does not get into h=, if names remain and it is not
    oversigned.  Missing: spellings that stay, and the empty list, which means all fields. *)
Theorem C42_removed_partial : forall C strict clock o l n t y H m s, signs_something C -> parse_all new_message (open_str t) = Ok (m, s) ->
  let o' := fst (run_op C (DelHeaders l) o) in
  CreateSignature C strict clock o' (new_signatory (open_str t)) = (y, Ok H) ->
  Forall (plain_options o') (all_signatures o') ->
  (forall h, In h (m_headers m) -> chosen o' (h_name h) -> signable_name (h_name h)) -> Forall signable_name (o_oversign o') ->
  (forall w, In w (o_headers o) -> same_name w n = true -> In w l) ->
  (forall w, In w (o_oversign o) -> same_name w n = false) -> o_headers o' <> [] ->
  exists fields, H = joined fields /\
  Forall (fun x => exists tags hv names, field_tags (header_of x) tags /\ has tags "h" hv /\ rendered_list names hv /\
                     Forall (fun w => same_name w n = false) names) fields.
Proof. exact removed. Qed.
Print Assumptions C42_removed_partial.
(** Exactly which names are listed after a removal. *)
Theorem C42_exact : forall C strict clock o l n t y H m s, signs_something C -> parse_all new_message (open_str t) = Ok (m, s) ->
  let o' := fst (run_op C (DelHeaders l) o) in
  CreateSignature C strict clock o' (new_signatory (open_str t)) = (y, Ok H) ->
  Forall (plain_options o') (all_signatures o') ->
  (forall h, In h (m_headers m) -> chosen o' (h_name h) -> signable_name (h_name h)) -> Forall signable_name (o_oversign o') ->
  exists fields, H = joined fields /\ length fields = length (all_signatures o) /\
  Forall (fun x => exists tags hv names, field_tags (header_of x) tags /\ has tags "h" hv /\ rendered_list names hv /\
                     (Exists (fun w => same_name w n = true) names <-> still_listed h_name o l (m_headers m) n)) fields.
Proof. exact removal_exact. Qed.
Print Assumptions C42_exact.
Example C42_case : announced (with_rsa [DelHeaders [esc "subject"]]) letter [esc "from"].
Proof. exact removed_case. Qed.
(** [announced o t names]: h= of the field made for [t] lists [names]. *)
Theorem C42_letter_case_refuted : announced (with_rsa [DelHeaders [esc "From"]]) letter [esc "subject"; esc "from"].
Proof. exact removed_other_case. Qed.
Print Assumptions C42_letter_case_refuted.
Theorem C42_all_removed_refuted : announced (with_rsa [DelHeaders usual_headers]) letter [esc "subject"; esc "from"].
Proof. exact removed_all. Qed.
Print Assumptions C42_all_removed_refuted.

(** a= names the algorithm of the first signature in every field, so it names that of the signature
    [q] exactly if [q] uses the same. *)
Theorem C43_algorithm_partial : forall C strict clock o t y H m s, signs_something C -> parse_all new_message (open_str t) = Ok (m, s) ->
  CreateSignature C strict clock o (new_signatory (open_str t)) = (y, Ok H) ->
  Forall (plain_options o) (all_signatures o) -> Forall signable_name (listed_names h_name o (m_headers m)) ->
  exists fields, H = joined fields /\
  Forall2 (fun q x => exists tags v, field_tags (header_of x) tags /\ has tags "a" v /\ v = a_text (o_digest o) (so_alg (o_main o)) /\
    (v = a_text (o_digest o) (so_alg q) <-> so_alg q = so_alg (o_main o))) (rev (all_signatures o)) fields.
Proof. exact fields_algorithm. Qed.
Print Assumptions C43_algorithm_partial.
Theorem C43_mixed_refuted : exists o t H h tags q, sign toy o t = Ok H /\
  (exists v, new_validatory true V_DKIM (open_str (H ++ CRLF ++ t)) = Ok v /\ nth_error (v_sigs v) 0 = Some h) /\
  nth_error (rev (all_signatures o)) 0 = Some q /\ so_alg q = ED25519 /\ field_tags h tags /\ has tags "a" (str "rsa-sha256").
Proof. exact wrong_algorithm. Qed.
Print Assumptions C43_mixed_refuted.

(** The second call behaves as on the message with its body cut off. *)
Theorem C44_second_call : forall C strict clock o ls h e body y r, header_block ls h -> line_end [] e -> o_signlen o = false ->
  CreateSignature C strict clock o (new_signatory (open_str (h ++ e ++ body))) = (y, r) ->
  snd (CreateSignature C strict clock o y) = snd (CreateSignature C strict clock o (new_signatory (open_str (h ++ e)))).
Proof. exact second_call. Qed.
Print Assumptions C44_second_call.
(** So it gives the same text when the canonical body is that of an empty body. *)
Theorem C44_same_partial : forall C strict clock o ls h e body out y r, header_block ls h -> line_end [] e -> o_signlen o = false ->
  canonical_body (is_relaxed (o_cbody o)) body out -> canonical_body (is_relaxed (o_cbody o)) [] out ->
  CreateSignature C strict clock o (new_signatory (open_str (h ++ e ++ body))) = (y, r) ->
  snd (CreateSignature C strict clock o y) = r.
Proof. exact second_same. Qed.
Print Assumptions C44_same_partial.
Theorem C44_body_refuted : exists o t H1 H2, twice o t = (Ok H1, Ok H2) /\ H1 <> H2.
Proof. exact second_differs. Qed.
Print Assumptions C44_body_refuted.
Theorem C44_no_body_refuted : exists o t H1 H2, twice o t = (Ok H1, Ok H2) /\ H1 <> H2 /\ message_body t [].
Proof. exact second_twice. Qed.
Print Assumptions C44_no_body_refuted.
Example C44_case : twice (with_rsa []) (esc "From: a@ex.org\r\n\r\n\r\n\r\n") =
  (let r := sign toy (with_rsa []) (esc "From: a@ex.org\r\n\r\n") in (r, r)).
Proof. vm_compute. reflexivity. Qed.

Theorem C49_at_most : forall C strict clock o t y H b out, o_signlen o = true -> message_body t b -> canonical_body (is_relaxed (o_cbody o)) b out ->
  CreateSignature C strict clock o (new_signatory (open_str t)) = (y, Ok H) -> (o_bodylen o <= N.of_nat (length out))%N.
Proof. exact limit_ok. Qed.
Print Assumptions C49_at_most.
Theorem C49_refused : forall C strict clock o t b out, o_signlen o = true -> message_body t b -> canonical_body (is_relaxed (o_cbody o)) b out ->
  (N.of_nat (length out) < o_bodylen o)%N ->
  snd (CreateSignature C strict clock o (new_signatory (open_str t))) = Throw (PermanentError AR_PERMERROR).
Proof. exact limit_refused. Qed.
Print Assumptions C49_refused.
Theorem C49_tag : forall C strict clock o t y H m s, signs_something C -> parse_all new_message (open_str t) = Ok (m, s) ->
  CreateSignature C strict clock o (new_signatory (open_str t)) = (y, Ok H) -> o_signlen o = true ->
  Forall (plain_options o) (all_signatures o) -> Forall signable_name (listed_names h_name o (m_headers m)) ->
  exists fields, H = joined fields /\ length fields = length (all_signatures o) /\
  Forall (fun x => exists tags v, field_tags (header_of x) tags /\ has tags "l" v /\ digits v /\ dec_value v = o_bodylen o) fields.
Proof. exact fields_length_tag. Qed.
Print Assumptions C49_tag.
Example C49_case : (exists H, sign toy (with_rsa [SetSignBodyLength 4]) letter = Ok H) /\
  sign toy (with_rsa [SetSignBodyLength 5]) letter = Throw (PermanentError AR_PERMERROR).
Proof. split; [eexists|]; vm_compute; reflexivity. Qed.

(** b=: lines of at most 77 and 78 letters after "b=" and after the tab and space; joined they are
    base64. *)
Theorem C50_b : forall C strict clock o t y H, CreateSignature C strict clock o (new_signatory (open_str t)) = (y, Ok H) ->
  exists fields, H = joined fields /\ length fields = length (all_signatures o) /\
  Forall (fun f => exists u x l ls, f = u ++ CRLF ++ [HT] ++ str "b=" ++ joined (l :: map (fun k => HT :: SP :: k) ls) /\
    concat (l :: ls) = Base64_Encode x /\ length l <= 77 /\ Forall (fun k => k <> [] /\ length k <= 78) ls) fields.
Proof. exact fields_b. Qed.
Print Assumptions C50_b.
(** Every line after the first begins with a tab; h= is the list of names with folding between. *)
Theorem C50_folded : forall C strict clock o t y H m s, signs_something C -> parse_all new_message (open_str t) = Ok (m, s) ->
  CreateSignature C strict clock o (new_signatory (open_str t)) = (y, Ok H) ->
  Forall (plain_options o) (all_signatures o) -> Forall signable_name (listed_names h_name o (m_headers m)) ->
  exists fields, H = joined fields /\ length fields = length (all_signatures o) /\
  Forall (fun x => folded_text x /\ exists tags v, field_tags (header_of x) tags /\ has tags "h" v /\ rendered_list (listed_names h_name o (m_headers m)) v) fields.
Proof. exact fields_folded. Qed.
Print Assumptions C50_folded.
Example C50_case : signs_something toy /\ listed_names h_name full letter_fields = [esc "subject"; esc "from"; esc "from"; esc "x-missing"] /\
  Forall signable_name [esc "subject"; esc "from"; esc "from"; esc "x-missing"].
Proof. split; [exact toy_signs|]. split; [vm_compute; reflexivity|]. repeat apply Forall_cons; try apply Forall_nil; apply is_signable; vm_compute; reflexivity. Qed.
