(** Properties C52-C55 and C57. *)
From Verif Require Import Bytes Outcome Stream Base64 Tokenizer TagList MailParser Canonicalization Util Crypto Signature PublicKey SignatoryOptions Signatory
  Validatory SpecText SpecTags SpecSig SpecKey SpecAddress AddressClean SigProps SafetyFacts VerifyExamples SignExamples MoreFacts Examples.

(** C52.  Partial: no CR, if each fold is a CRLF followed by whitespace and then by another byte,
    and there are no quoted strings; or if the value has no CR. *)
Theorem C52_folded_partial : forall char_signed input l a, plain_folds input -> ~ In DQ input ->
  ParseAddressList char_signed input = Ok l -> In a l -> ~ In CR a.
Proof. exact address_folded. Qed.
Print Assumptions C52_folded_partial.
(** Every byte of an address is a byte of the value. *)
Theorem C52_bytes : forall input l, ParseAddressList true input = Ok l -> Forall (Forall (fun c => In c input)) l.
Proof. exact address_bytes. Qed.
Print Assumptions C52_bytes.
Theorem C52_two_folds_refuted : exists t l a, folds_only t /\ ~ In DQ t /\ ParseAddressList true t = Ok l /\ In a l /\
  exists x y, a = x ++ CRLF ++ y.
Proof. exact address_two_folds. Qed.
Print Assumptions C52_two_folds_refuted.
Theorem C52_quoted_refuted : exists t l a, plain_folds t /\ ParseAddressList true t = Ok l /\ In a l /\
  exists x y, a = x ++ CRLF ++ y.
Proof. exact address_quoted_fold. Qed.
Print Assumptions C52_quoted_refuted.
Example C52_case : plain_folds (esc "A (b\r\n c)\r\n\t<d@e>,\r\n f@g") /\
  ParseAddressList true (esc "A (b\r\n c)\r\n\t<d@e>,\r\n f@g") = Ok [esc "d@e"; esc "f@g"].
Proof. exact folded_case. Qed.

(** C53.  The service types of a key record have no influence on the result, *)
Theorem C53_ignored : forall C strict h g p v s,
  CheckSignature C strict h g (kset_service s p) v = CheckSignature C strict h g p v.
Proof. exact service_ignored. Qed.
Print Assumptions C53_ignored.
(** so a record for another service is used, *)
Theorem C53_other_refuted : exists t r l sv vs, record_tags r l /\ has l "s" sv /\ list_wide vs sv /\
  ~ In (str "email") vs /\ ~ In (str "*") vs /\ verify toy true t r = Ok tt.
Proof. exact other_service. Qed.
Print Assumptions C53_other_refuted.
(** and a caller cannot make up for it: but for the stored tag list, which is not accessible, the
    object is that of a record for all services. *)
Theorem C53_indistinct_refuted : exists p q, PublicKey_Parse toy true (esc "s=tlsrpt; p=S0VZ") new_public_key = (p, Ok tt) /\
  PublicKey_Parse toy true (esc "s=*; p=S0VZ") new_public_key = (q, Ok tt) /\ kset_tags [] p = kset_tags [] q.
Proof. exact service_indistinct. Qed.
Print Assumptions C53_indistinct_refuted.

(** C54.  Partial: less than 63 bytes are never accepted (C48: they are read beyond their end). *)
Theorem C54_short_partial : forall C strict h g p v, sg_alg g = ED25519 ->
  CheckSignature C strict h g p v = Ok tt -> 63 <= length (sg_b g).
Proof. exact ed_length. Qed.
Print Assumptions C54_short_partial.
(** 63 bytes can be accepted: the terminating zero byte is taken for the last one. *)
Theorem C54_63_refuted : exists b r, length b = 63 /\
  verify toy true (sample_message "ed25519-sha256" (Base64_Encode b)) r = Ok tt.
Proof. exact ed_63. Qed.
Print Assumptions C54_63_refuted.
Example C54_case : length ed_sig = 64 /\ verify toy true (sample_message "ed25519-sha256" (Base64_Encode ed_sig)) ed_record = Ok tt.
Proof. vm_compute. auto. Qed.

(** C55.  Partial: when each Ed25519 signature has been given a key, the only undefined behaviour
    is tolower on 8 bit characters, where that is undefined, and overflow of x=. *)
Theorem C55_safe_partial : forall C strict clock l y, (forall x, length x = 32 -> length (c_seed_keypair C x) = 64) ->
  (forall s, In s (all_signatures (run_ops C l new_options)) -> so_alg s = ED25519 -> so_ed s <> []) ->
  forall k, snd (CreateSignature C strict clock (run_ops C l new_options) y) = UB k ->
  k = UB_ctype /\ strict = true \/ k = UB_overflow /\ o_exsign (run_ops C l new_options) = true.
Proof. exact signing_safe. Qed.
Print Assumptions C55_safe_partial.
(** Without a key 64 bytes of an empty string are read, whatever the primitives do. *)
Theorem C55_no_key_refuted : forall C, exists l t,
  snd (CreateSignature C true (fun _ => 1%Z) (run_ops C l new_options) (new_signatory (open_str t))) = UB UB_oob_read.
Proof. exact no_key_read. Qed.
Print Assumptions C55_no_key_refuted.
(** Overflow does occur. *)
Theorem C55_overflow_refuted : forall C, exists l t,
  snd (CreateSignature C true (fun _ => 1%Z) (run_ops C l new_options) (new_signatory (open_str t))) = UB UB_overflow.
Proof. exact expiry_overflow. Qed.
Print Assumptions C55_overflow_refuted.
Example C55_case : let o := run_ops toy [OnMain (SetSignatureAlgorithm ED25519); OnMain (SetPrivateKey ed_key); OnMain (SetDomain (esc "a.b"));
    OnMain (SetSelector (esc "s"))] new_options in
  (forall x, length x = 32 -> length (c_seed_keypair toy x) = 64) /\ so_ed (o_main o) <> [] /\
  exists H, snd (CreateSignature toy true (fun _ => 1%Z) o (new_signatory (open_str letter))) = Ok H.
Proof. exact seeded_case. Qed.

(** C57. *)
Theorem C57_domain_refuted : exists h l g, field_tags h l /\ has l "d" [] /\
  Signature_Parse toy true 1 h (new_signature, false) = ((g, false), Ok tt) /\ key_query g = esc "s1._domainkey.".
Proof. exact empty_domain. Qed.
Print Assumptions C57_domain_refuted.
Theorem C57_selector_refuted : exists h l g, field_tags h l /\ has l "s" [] /\
  Signature_Parse toy true 1 h (new_signature, false) = ((g, false), Ok tt) /\ key_query g = esc "._domainkey.ex.org".
Proof. exact empty_selector. Qed.
Print Assumptions C57_selector_refuted.
