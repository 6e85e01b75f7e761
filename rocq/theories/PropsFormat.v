(** C105: the texts are formatted. *)
From Verif Require Import Bytes Outcome Stream Tokenizer QuotedPrintable TagList MailParser Canonicalization Util CStdlib Crypto Signature PublicKey
  SignatoryOptions Signatory Validatory Tool ToolText ErrorText Reasons SignReasons Format SpecText SpecTags SpecSig SpecKey SpecError SpecReason SpecMade SpecFormat FormatFacts.
Local Open Scope string_scope. Local Open Scope list_scope.

(** C105.  StringFormat: the format with the arguments in their places, as long as that is shorter than 2 GiB. *)
Theorem C105_exact : forall f args,
  (forall t, StringFormat f args = F_text t <-> filled f args t /\ (N.of_nat (length t) < 2147483648)%N) /\
  (StringFormat f args = F_bad_alloc <-> exists t, filled f args t /\ (2147483648 <= N.of_nat (length t))%N) /\
  (StringFormat f args = F_undefined <-> forall t, ~ filled f args t).
Proof. exact format_exact. Qed.
Print Assumptions C105_exact.
Example C105_case :
  StringFormat (str "; l=%lu") [A_lu 18446744073709551615] = F_text (str "; l=18446744073709551615") /\
  StringFormat (str "0x%x at position %ld") [A_x (chr 255); A_ld (-1)] = F_text (str "0xff at position -1") /\
  StringFormat (str "No key for signature %s._domainkey.%s") [A_s (str "s1" ++ [chr 0; chr 97]); A_s (str "ex.org")] = F_text (str "No key for signature s1._domainkey.ex.org") /\
  StringFormat (str "%s") [A_lu 1] = F_undefined /\ StringFormat (str "%s") [] = F_undefined.
Proof. exact formats_cases. Qed.
(** The calls: arguments of the right number and type, and the texts of the model. *)
Theorem C105_calls :
  (forall x, filled (str "Header field %s is missing the colon separator") [A_s x] (colon_text x)) /\
  (forall p v, ktag "v" p = Some v -> filled (str "Unsupported version %s (v supports DKIM1)") [A_s (te_value v)] (key_v_what p)) /\
  (forall p k, ktag "k" p = Some k -> filled (str "Unsupported key type %s (k supports rsa and ed25519)") [A_s (te_value k)] (key_k_what p)) /\
  (forall s, filled (str "Quoted-printable decoding failed; unexpected 0x%x, expecting HEX at position %ld")
    [A_x (as_char (fst (peek s))); A_ld (fst (tellg s))] (expecting_hex s)) /\
  (forall s, filled (str "Quoted-printable decoding failed; unsafe character 0x%x at position %ld")
    [A_x (as_char (fst (peek s))); A_ld (fst (tellg s))] (byte_place "Quoted-printable decoding failed; unsafe character 0x" s " at position ")) /\
  (forall st v, tag "v" st = Some v -> filled (str "Unsupported version %s (v supports 1)") [A_s (te_value v)] (v_what st)) /\
  (forall st a, tag "a" st = Some a ->
    filled (str "Unsupported signature algorithm %s (a supports rsa-sha1, rsa-sha256 and ed25519-sha256)") [A_s (te_value a)] (a_what st)) /\
  (forall x, filled (str "Unsupported canonicalization type %s (c supports simple, relaxed)") [A_s x]
    (format "Unsupported canonicalization type " x " (c supports simple, relaxed)")) /\
  (forall x y, filled (str "Domain %s is not a (sub)domain of %s (i does not match d)") [A_s x; A_s y]
    (format "Domain " x " is not a (sub)domain of " ++ c_str y ++ str " (i does not match d)")) /\
  (forall st q, tag "q" st = Some q -> filled (str "Unsupported query method %s (q supports dns/txt)") [A_s (te_value q)] (q_what st)) /\
  (forall s, filled (str "Invalid tag name (empty), expecting name at position %ld") [A_ld (fst (tellg s))]
    (place "Invalid tag name (empty), expecting name at position " s)) /\
  (forall n, filled (str "Duplicate tag name (%s)") [A_s n] (str "Duplicate tag name (" ++ c_str n ++ str ")")) /\
  (forall s, filled (str "Invalid tag list; unexpected 0x%x, expecting = at position %ld")
    [A_x (as_char (fst (peek s))); A_ld (fst (tellg s))] (byte_place "Invalid tag list; unexpected 0x" s ", expecting = at position ")) /\
  (forall s, filled (str "Invalid tag value (invalid data), unexpected 0x%x at position %ld")
    [A_x (as_char (fst (peek s))); A_ld (fst (tellg s))] (byte_place "Invalid tag value (invalid data), unexpected 0x" s " at position ")) /\
  (forall s, filled (str "CR without matching LF, 0x%x at position %ld")
    [A_x (as_char (fst (peek s))); A_ld (fst (tellg s))] (byte_place "CR without matching LF, 0x" s " at position ")) /\
  (forall s, filled (str "Invalid list value (empty), expecting value at position %ld") [A_ld (fst (tellg s))]
    (place "Invalid list value (empty), expecting value at position " s)) /\
  (forall x y, filled (str "No key for signature %s._domainkey.%s") [A_s x; A_s y] (str "No key for signature " ++ c_str x ++ str "._domainkey." ++ c_str y)) /\
  (forall x y, filled (str "DNS query failed for %s._domainkey.%s") [A_s x; A_s y] (str "DNS query failed for " ++ c_str x ++ str "._domainkey." ++ c_str y)) /\
  (forall n, filled (str "%lu") [A_lu n] (fmt_lu n)) /\
  (forall z, filled (str "%lu") [A_lu (Z.to_N (z mod 18446744073709551616))] (fmt_lu_time z)) /\
  (forall n, filled (str "; l=%lu") [A_lu n] (str "; l=" ++ fmt_lu n)) /\
  (forall x, filled (str "; i=%s") [A_s (qp_encode x)] (str "; i=" ++ c_str (qp_encode x))).
Proof. exact calls. Qed.
Print Assumptions C105_calls.
(** How long the texts become. *)
Theorem C105_signature : forall C now e0 h m, h_voff h <= length (h_text h) -> Signature_what C false now h (new_signature, e0) = Some m ->
  length m <= 2 * length (h_text h) + 200.
Proof. exact signature_small. Qed.
Print Assumptions C105_signature.
Theorem C105_record : forall C strict r m, PublicKey_what C strict r new_public_key = Some m -> length m <= length r + 200.
Proof. exact record_small. Qed.
Print Assumptions C105_record.
Theorem C105_field : forall t, FilterHeader false RELAXED t = perm -> length (filter_what false t) <= length t + 200.
Proof. exact field_small. Qed.
Print Assumptions C105_field.
(** A signature field is refused for its a=, but the reason cannot be stated. *)
Theorem C105_stated_refuted : exists h l a m, field_tags h l /\ has l "a" a /\
  (forall C now e0, Signature_what C false now h (new_signature, e0) = Some m) /\
  filled (str "Unsupported signature algorithm %s (a supports rsa-sha1, rsa-sha256 and ed25519-sha256)") [A_s a] m /\
  StringFormat (str "Unsupported signature algorithm %s (a supports rsa-sha1, rsa-sha256 and ed25519-sha256)") [A_s a] = F_bad_alloc.
Proof. exact long_alloc. Qed.
Print Assumptions C105_stated_refuted.
