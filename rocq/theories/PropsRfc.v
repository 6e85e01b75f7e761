(** Properties C91 and C92: signatures and key records that follow RFC 6376. *)
From Verif Require Import Bytes Outcome Canonicalization Util MailParser Crypto Base64 Signature PublicKey SpecText SpecCanon SpecVerify SpecSig SpecKey SpecRfc RfcFacts RfcExamples RfcKey
  Examples VerifyExamples.

(** C91.  Which DKIM-Signature fields that follow the grammar are taken: the [readable] ones. *)
Theorem C91_exact : forall C now h l dg al d s b bh names, rfc_field now h l dg al d s b bh names ->
  (exists st, Signature_Parse C false now h (new_signature, false) = (st, Ok tt)) <-> readable l d.
Proof. exact rfc_exact. Qed.
Print Assumptions C91_exact.
(** What the getters return then; of i= if there is no "@" in the local part. *)
Theorem C91_getters_partial : forall C now h l dg al d s b bh names g e, rfc_field now h l dg al d s b bh names ->
  Signature_Parse C false now h (new_signature, false) = ((g, e), Ok tt) ->
  sg_domain g = map low d /\ sg_selector g = s /\ sg_digest g = dg /\ sg_alg g = al /\ sg_b g = b64d C (unspaced b) /\ sg_bh g = b64d C (unspaced bh) /\
  sg_headers g = names /\ opt_tag l "l" (fun v => sg_limit g = true /\ sg_size g = dec_value v) /\ (no_tag l "l" -> sg_limit g = false) /\
  opt_tag l "i" (fun i => forall lp dom, qp_text false i (lp ++ AT :: dom) -> ~ In AT lp -> sg_local g = lp /\ sg_mdomain g = map low dom) /\
  (no_tag l "i" -> sg_local g = [] /\ sg_mdomain g = map low d) /\ sg_arc g = false.
Proof. exact rfc_getters. Qed.
Print Assumptions C91_getters_partial.
(** Refused: a second query method, *)
Theorem C91_query_refuted : forall now, exists h l d s b names, rfc_field now h l SHA256 RSA d s b b names /\
  tag l "q" (str "dns/txt:x-other") /\ forall C, snd (Signature_Parse C false now h (new_signature, false)) = perm.
Proof. exact query_case. Qed.
Print Assumptions C91_query_refuted.
(** a length of 19 digits, *)
Theorem C91_length_refuted : forall now, exists h l d s b names, rfc_field now h l SHA256 RSA d s b b names /\
  tag l "l" (str "9223372036854775808") /\ forall C, snd (Signature_Parse C false now h (new_signature, false)) = perm.
Proof. exact length_case. Qed.
Print Assumptions C91_length_refuted.
(** an "@" in a quoted local part. *)
Theorem C91_local_part_refuted : forall now, exists h l d s b names i, rfc_field now h l SHA256 RSA d s b b names /\
  tag l "i" i /\ forall C, snd (Signature_Parse C false now h (new_signature, false)) = perm.
Proof. exact local_case. Qed.
Print Assumptions C91_local_part_refuted.
(** Such a local part is misread when the domain of i= is a subdomain. *)
Theorem C91_identity_refuted : forall now, exists h l d s b names i lp dom g, rfc_field now h l SHA256 RSA d s b b names /\ tag l "i" i /\
  qp_text false i (lp ++ AT :: dom) /\ local_part lp /\ Signature_Parse toy false now h (new_signature, false) = ((g, false), Ok tt) /\
  sg_local g <> lp /\ sg_mdomain g <> map low dom.
Proof. exact identity_case. Qed.
Print Assumptions C91_identity_refuted.
Example C91_case : forall now, rfc_field now (tags_field good_tags) good_tags SHA256 RSA (str "ex.org") (str "s1") (str "YWJj") (str "YWJj") [str "From"] /\ readable good_tags (str "ex.org").
Proof. exact good_case. Qed.

(** C92.  A key record that follows the grammar is read if its key can be loaded, and says what its tags say. *)
Theorem C92_read : forall C strict r l al pv hs ts, rfc_tags l r -> rfc_key l al pv hs ts ->
  ((exists p, PublicKey_Parse C strict r new_public_key = (p, Ok tt)) <-> loads C al pv) /\
  forall p, PublicKey_Parse C strict r new_public_key = (p, Ok tt) -> pk_alg p = al /\ digests_of hs (pk_digests p) /\ pk_flags p = ts /\
    match al with
    | RSA => exists k, c_d2i_pubkey C (b64d C (unspaced pv)) = Some (Some k) /\ pk_rsa p = Some k
    | ED25519 => pk_ed p = b64d C (unspaced pv)
    end.
Proof. exact rfc_key_exact. Qed.
Print Assumptions C92_read.
Example C92_case : rfc_tags key_tags (flat key_tags) /\ rfc_key key_tags RSA (str "S0VZ") [str "sha1"; str "x-new"] [str "y"; str "s"] /\ loads toy RSA (str "S0VZ").
Proof. exact key_case. Qed.
(** One with v= elsewhere is read as well. *)
Theorem C92_version_refuted : exists t r l, rfc_tags l r /\ ~ version_first l /\ verify toy true t r = Ok tt.
Proof. exact (ex_intro _ _ (ex_intro _ _ (ex_intro _ late_tags late_version))). Qed.
Print Assumptions C92_version_refuted.
