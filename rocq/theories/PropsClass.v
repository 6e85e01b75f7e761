(** Property C65: the class of every failure of a verification.  PermanentError AR_FAIL is
    reported as fail, AR_PERMERROR as permerror, TemporaryError as temperror. *)
From Verif Require Import Bytes Outcome Stream MailParser Canonicalization Util Crypto Signature PublicKey Validatory
  SpecText SpecMail SpecTags SpecCanon SpecVerify SpecSig SpecKey BodyFacts VerifyFacts VerifyProps ResultClass Examples VerifyExamples.

(** GetSignature: permerror if the field cannot be parsed, fail if the body hash does not match. *)
Theorem C65_signature : forall C ty t v h now st b, new_validatory false ty (open_str t) = Ok v -> In h (m_headers (v_msg v)) -> message_body t b ->
  let r := snd (GetSignature C false now h st v) in
  (r = Throw (PermanentError AR_PERMERROR) <-> snd (Signature_Parse C false now h st) <> Ok tt) /\
  (r = Throw (PermanentError AR_FAIL) <-> exists st1, Signature_Parse C false now h st = (st1, Ok tt) /\
     forall out, canonical_body (is_relaxed (sg_cbody (fst st1))) b out ->
       sg_bh (fst st1) <> digest C (sg_digest (fst st1)) (cut (sg_limit (fst st1)) (sg_size (fst st1)) out)) /\
  (r = Ok tt \/ r = Throw (PermanentError AR_PERMERROR) \/ r = Throw (PermanentError AR_FAIL)).
Proof. exact get_class. Qed.
Print Assumptions C65_signature.
(** GetPublicKey: temperror if the lookup fails, permerror if there is no record or it cannot be parsed. *)
Theorem C65_key : forall C resolve g p ok text, resolve (sg_selector g ++ str "._domainkey." ++ sg_domain g) = Ok (ok, text) ->
  let r := snd (GetPublicKey C false resolve g p) in
  (r = Throw (TemporaryError AR_TEMPERROR) <-> ok = false) /\
  (r = Throw (PermanentError AR_PERMERROR) <-> ok = true /\ (text = [] \/ snd (PublicKey_Parse C false text p) <> Ok tt)) /\
  (r = Ok tt \/ r = Throw (PermanentError AR_PERMERROR) \/ r = Throw (TemporaryError AR_TEMPERROR)).
Proof. exact key_class. Qed.
Print Assumptions C65_key.
(** CheckSignature: permerror if the key is not for this signature or a field has no canonical form,
    fail if the primitive rejects the signature data.  Partial: the undefined behaviour of the last
    clause is neither. *)
Theorem C65_check_partial : forall C strict now h e0 g e1 pre b post,
  Signature_Parse C strict now h (new_signature, e0) = ((g, e1), Ok tt) -> small_field h ->
  tag_at (str "b") (skipn (h_voff h) (h_text h)) pre b post ->
  forall st r p0 p v, PublicKey_Parse C st r p0 = (p, Ok tt) ->
  (CheckSignature C false h g p v = Throw (PermanentError AR_FAIL) <->
   permits p g /\ ~ short_ed g /\ exists d, authenticated h g v pre post d /\ ~ accepted C g p (digest C (sg_digest g) d)) /\
  (CheckSignature C false h g p v = Throw (PermanentError AR_PERMERROR) <-> ~ permits p g \/ ~ exists d, authenticated h g v pre post d) /\
  (forall k, CheckSignature C false h g p v = UB k <->
   k = UB_oob_read /\ short_ed g /\ permits p g /\ exists d, authenticated h g v pre post d).
Proof. exact check_class. Qed.
Print Assumptions C65_check_partial.
Theorem C65_names : forall c, getAuthenticationResult (PermanentError c) = getAuthenticationResult (TemporaryError c) /\
  getAuthenticationResult (PermanentError c) =
    Some (match c with AR_NONE => str "none" | AR_PASS => str "pass" | AR_FAIL => str "fail" | AR_POLICY => str "policy" | AR_NEUTRAL => str "neutral"
          | AR_TEMPERROR => str "temperror" | AR_PERMERROR => str "permerror" end).
Proof. exact result_words. Qed.
Print Assumptions C65_names.
Example C65_case : verify toy false (sample_message "rsa-sha256" (esc "QUJD")) rsa_record = Throw (PermanentError AR_FAIL) /\
  verify toy false (sample_message "rsa-sha256" rsa_b) ed_record = Throw (PermanentError AR_PERMERROR) /\
  verify toy false (sample_message "rsa-sha256" rsa_b ++ esc "more") rsa_record = Throw (PermanentError AR_FAIL) /\
  verify toy false (sample_message "rsa-sha256" rsa_b) rsa_record = Ok tt.
Proof. split; [vm_compute; reflexivity|]. split; [vm_compute; reflexivity|]. split; vm_compute; reflexivity. Qed.
