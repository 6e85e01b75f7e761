(** C96: the reasons that are stated. *)
From Verif Require Import Bytes Outcome Stream TagList MailParser Canonicalization Util Crypto Signature PublicKey Validatory ErrorText Reasons BytesFacts SpecText SpecTags SpecMail SpecCanon SpecVerify SpecSig
  SpecParse SpecKey SpecError SpecReason BodyFacts SelectFacts VerifyProps SigProps ReasonCheck ReasonOne Examples VerifyExamples ReasonExamples.
Local Open Scope string_scope. Local Open Scope list_scope.

(** C96.  A signature field that is a tag list: the first reason that holds is stated, and none when none holds. *)
Theorem C96_signature : forall C now e0 h l, field_tags h l -> forall m,
  Signature_what C false now h (new_signature, e0) = Some m <->
  first_reason (sig_reason now e0 (same_name (h_name h) (str "arc-message-signature")) l) m.
Proof. exact sig_exact. Qed.
Print Assumptions C96_signature.
Example C96_case_signature :
  says_of 1 false (dkim_field "v=1; a=rsa-md5") = Some (str "Missing domain of the signing entity (d)") /\
  says_of 1 false (dkim_field "v=2; a=rsa-md5; d=a") = Some (str "Unsupported version 2 (v supports 1)") /\
  says_of 1 false (dkim_field "v=1; a=rsa-md5; d=a") = Some (str "Unsupported signature algorithm rsa-md5 (a supports rsa-sha1, rsa-sha256 and ed25519-sha256)") /\
  says_of 1 false (dkim_field "v=1; a=rsa-sha1; d=a; b=; bh=") = Some (str "Missing header signature (b)") /\
  says_of 1 false (dkim_field "v=1; a=rsa-sha1; d=a; b=YQ==; bh=; c=relaxed/strict") = Some (str "Unsupported canonicalization type strict (c supports simple, relaxed)") /\
  says_of 1 false (dkim_field "v=1; a=rsa-sha1; d=a; b=YQ==; bh=; h=to:cc") = Some (str "From: header must be included in signature") /\
  says_of 1 false (dkim_field "v=1; a=rsa-sha1; d=a; b=YQ==; bh=; h=to:: cc") = Some (str "Invalid list value (empty), expecting value at position 3") /\
  says_of 1 false (dkim_field "v=1; a=rsa-sha1; d=a; b=YQ==; bh=; h=from; i=x@b") = Some (str "Domain b is not a (sub)domain of a (i does not match d)") /\
  says_of 1 false (dkim_field "v=1; a=rsa-sha1; d=a; b=YQ==; bh=; h=from; l=5a") = Some (str "Invalid body signed length; failed numeric parsing (l)") /\
  says_of 1 false (dkim_field "v=1; a=rsa-sha1; d=a; b=YQ==; bh=; h=from; q=http") = Some (str "Unsupported query method http (q supports dns/txt)") /\
  says_of 1 false (dkim_field "v=1; a=rsa-sha1; d=a; b=YQ==; bh=; h=from") = Some (str "Missing query selector (s)") /\
  says_of 9 false (dkim_field "v=1; a=rsa-sha1; d=a; b=YQ==; bh=; h=from; s=k; x=8") = Some (str "Signature has expired (x)") /\
  says_of 8 false (dkim_field "v=1; a=rsa-sha1; d=a; b=YQ==; bh=; h=from; s=k; x=8") = None /\
  says_of 8 false (arc_field "i=51; a=rsa-sha1; d=a; b=YQ==; bh=; h=from; s=k; x=8") = Some (str "ARC instance (i) out of range 1-50").
Proof. exact sig_cases. Qed.
(** One that is none. *)
Theorem C96_signature_tags : forall C now e0 h, h_voff h <= length (h_text h) -> (forall l, ~ field_tags h l) -> forall m,
  Signature_what C false now h (new_signature, e0) = Some m <-> tags_say [] (skipn (h_voff h) (h_text h)) m.
Proof. exact sig_tags_exact. Qed.
Print Assumptions C96_signature_tags.
Example C96_case_tags : says_of 1 false (dkim_field "v=1; a=rsa-sha1; v=1") = Some (str "Duplicate tag name (v)").
Proof. exact tags_case. Qed.
(** Something is stated of the fields that are refused, and only of these. *)
Theorem C96_signature_refused : forall C now e0 h, h_voff h <= length (h_text h) -> match Signature_what C false now h (new_signature, e0) with
  | Some _ => snd (Signature_Parse C false now h (new_signature, e0)) = perm
  | None => snd (Signature_Parse C false now h (new_signature, e0)) = Ok tt
  end.
Proof. exact sig_refused. Qed.
Print Assumptions C96_signature_refused.

(** Key records. *)
Theorem C96_record : forall C strict r l, record_tags r l -> forall m, PublicKey_what C strict r new_public_key = Some m <-> first_reason (key_reason C l) m.
Proof. exact key_exact. Qed.
Print Assumptions C96_record.
Example C96_case_record :
  key_says (str "v=DKIM2; h=; p=") = Some (str "Unsupported version DKIM2 (v supports DKIM1)") /\
  key_says (str "h=; p=") = Some (str "Acceptable hash algorithms is empty (h)") /\
  key_says (str "h=sha1::sha256; p=") = Some (str "Invalid list value (empty), expecting value at position 5") /\
  key_says (str "k=dsa; p=") = Some (str "Unsupported key type dsa (k supports rsa and ed25519)") /\
  key_says (str "k=rsa; p=") = Some (str "Public key is revoked (p)") /\
  key_says (str "k=rsa; s=") = Some (str "Missing public key (p)") /\
  key_says (str "k=ed25519; p=YQ==; s=") = Some (str "Public ed25519 key could not be loaded") /\
  key_says (rsa_record ++ str "; s=") = Some (str "Service type is empty (s)") /\
  key_says (rsa_record ++ str "; t=y::s") = Some (str "Invalid list value (empty), expecting value at position 2").
Proof. exact key_cases. Qed.
Theorem C96_record_tags : forall C strict r, (forall l, ~ record_tags r l) -> forall m, PublicKey_what C strict r new_public_key = Some m <-> tags_say [] r m.
Proof. exact key_tags_exact. Qed.
Print Assumptions C96_record_tags.
Theorem C96_record_refused : forall C strict r, match PublicKey_what C strict r new_public_key with
  | Some _ => snd (PublicKey_Parse C strict r new_public_key) = perm
  | None => snd (PublicKey_Parse C strict r new_public_key) = Ok tt
  end.
Proof. exact key_refused. Qed.
Print Assumptions C96_record_refused.
(** Fetching them. *)
Theorem C96_fetched : forall C strict now h e0 g e1 resolve, h_voff h <= length (h_text h) -> Signature_Parse C false now h (new_signature, e0) = ((g, e1), Ok tt) ->
  let name := sg_selector g ++ str "._domainkey." ++ sg_domain g in
  match resolve name with
  | Ok (false, _) => GetPublicKey_what C strict resolve g new_public_key = Some (str "DNS query failed for " ++ name) /\
                     snd (GetPublicKey C strict resolve g new_public_key) = Throw (TemporaryError AR_TEMPERROR)
  | Ok (true, []) => GetPublicKey_what C strict resolve g new_public_key = Some (str "No key for signature " ++ name) /\
                     snd (GetPublicKey C strict resolve g new_public_key) = Throw (PermanentError AR_PERMERROR)
  | Ok (true, r) => GetPublicKey_what C strict resolve g new_public_key = PublicKey_what C strict r new_public_key /\
                    GetPublicKey C strict resolve g new_public_key = PublicKey_Parse C strict r new_public_key
  | _ => True
  end.
Proof. exact public_exact. Qed.
Print Assumptions C96_fetched.

(** The body. *)
Theorem C96_body : forall C strict ty t v now h st st1 b out, new_validatory strict ty (open_str t) = Ok v -> message_body t b ->
  Signature_Parse C strict now h st = (st1, Ok tt) -> canonical_body (is_relaxed (sg_cbody (fst st1))) b out -> forall m,
  GetSignature_what C strict now h st v = Some m <->
  sg_bh (fst st1) <> digest C (sg_digest (fst st1)) (cut (sg_limit (fst st1)) (sg_size (fst st1)) out) /\ m = str "Body hash did not verify".
Proof. exact body_exact. Qed.
Print Assumptions C96_body.
(** A header field that has no relaxed form. *)
Theorem C96_field : forall t m, FilterHeader false RELAXED t = perm /\ filter_what false t = m <-> field_reason t m.
Proof. exact filter_exact. Qed.
Print Assumptions C96_field.
Example C96_case_field : filter_what false (esc "a\rb: c") = str "CR without matching LF, 0x62 at position 2" /\
  filter_what false (esc "a\rB: c") = str "CR without matching LF, 0x62 at position 2" /\ filter_what false (esc "a: \rB") = str "CR without matching LF, 0x42 at position 4" /\
  filter_what false (esc "abc") = str "Header field abc is missing the colon separator".
Proof. exact field_cases. Qed.
(** The signature over the header.  Missing: Ed25519 signatures of the wrong length (C48). *)
Theorem C96_check_partial : forall C strict now h e0 g e1 pre b post, Signature_Parse C strict now h (new_signature, e0) = ((g, e1), Ok tt) -> small_field h ->
  tag_at (str "b") (skipn (h_voff h) (h_text h)) pre b post ->
  forall st r p0 p v, PublicKey_Parse C st r p0 = (p, Ok tt) -> ~ short_ed g -> forall m,
  CheckSignature_what C false h g p v = Some m <->
  first_reason (check_reason g p (map h_text (selection h_name (m_headers (v_msg v)) [] (sg_headers g)) ++ [firstn (h_voff h) (h_text h) ++ pre ++ post])
    (exists d, authenticated h g v pre post d /\ accepted C g p (digest C (sg_digest g) d))) m.
Proof. exact check_exact. Qed.
Print Assumptions C96_check_partial.
Example C96_case_check :
  tried good_mail (Ok (true, rsa_record)) = Some None /\
  tried good_mail (Ok (false, [])) = Some (Some (str "DNS query failed for s1._domainkey.ex.org")) /\
  tried good_mail (Ok (true, [])) = Some (Some (str "No key for signature s1._domainkey.ex.org")) /\
  tried good_mail (Ok (true, rsa_record ++ str "; h=sha1")) = Some (Some (str "Algorithm is not allowed")) /\
  tried good_mail (Ok (true, ed_record)) = Some (Some (str "Signature algorithm type mismatch")) /\
  tried good_mail (Ok (true, str "v=DKIM1; p=")) = Some (Some (str "Public key is revoked (p)")) /\
  tried (sample_message "rsa-sha256" (str "YQ==")) (Ok (true, rsa_record)) = Some (Some (str "Signature did not verify")) /\
  tried (good_mail ++ str "more") (Ok (true, rsa_record)) = Some (Some (str "Body hash did not verify")).
Proof. exact tried_cases. Qed.

(** Reasons that are not the true ones: a number that is positive, *)
Theorem C96_positive_refuted : exists h l, field_tags h l /\ has l "l" (str "9223372036854775808") /\
  says_of 1 false h = Some (str "Invalid body signed length; must be a positive number (l)").
Proof. exact positive_length. Qed.
Print Assumptions C96_positive_refuted.
(** a number that is small (errno is set by an earlier call), *)
Theorem C96_storage_refuted : exists h l, field_tags h l /\ has l "l" (str "5") /\ says_of 1 false h = None /\
  says_of 1 true h = Some (str "Invalid body signed length; exceeds available storage size of unsigned long (l)").
Proof. exact small_length. Qed.
Print Assumptions C96_storage_refuted.
(** a number of two digits, *)
Theorem C96_digits_refuted : exists h l, field_tags h l /\ has l "l" (str two_digits) /\ length (filter (fun c => (48 <=? code c)%N && (code c <=? 57)%N) (str two_digits)) = 2 /\
  says_of 1 false h = Some (str "Invalid body signed length; exceeds 76 digits (l)").
Proof. exact few_digits. Qed.
Print Assumptions C96_digits_refuted.
(** no time at all, *)
Theorem C96_expired_refuted : exists h l, field_tags h l /\ has l "x" (str "never") /\ says_of 1 false h = Some (str "Signature has expired (x)").
Proof. exact no_time. Qed.
Print Assumptions C96_expired_refuted.
(** a local part that is there, *)
Theorem C96_local_refuted : exists h l, field_tags h l /\ has l "i" (str "joe") /\ says_of 1 false h = Some (str "Missing a local-part (i)").
Proof. exact no_at. Qed.
Print Assumptions C96_local_refuted.
(** two domains shown as the same, *)
Theorem C96_domain_refuted : exists h l d, field_tags h l /\ says_of 1 false h = Some (str "Domain " ++ d ++ str " is not a (sub)domain of " ++ d ++ str " (i does not match d)").
Proof. exact shown_same. Qed.
Print Assumptions C96_domain_refuted.
(** a byte that is not in the field. *)
Theorem C96_byte_refuted : exists t, ~ In "b"%char t /\ FilterHeader false RELAXED t = perm /\ filter_what false t = str "CR without matching LF, 0x62 at position 2".
Proof. exact case_named. Qed.
Print Assumptions C96_byte_refuted.
