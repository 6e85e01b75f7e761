(** C63: a signature that verifies is for what the owner of the key has signed. *)
From Verif Require Import Bytes Outcome Stream Tokenizer Base64 TagList MailParser Canonicalization Util CStdlib Crypto Signature PublicKey
  SignatoryOptions Signatory Validatory SpecText SpecTags SpecMail SpecCanon SpecVerify SpecSig SpecOptions SpecSign MailFacts BodyFacts SelectFacts VerifyFacts VerifyProps
  SpecBinding BindingProps Examples VerifyExamples SignExamples BindingExamples.

(** Signing: the i-th field of what is returned carries a signature for the text [d] of [signed_text]. *)
Theorem C63_signer_text : forall C strict clock o t y H m s, signs_something C -> ~ starts_wsp t -> parse_all new_message (open_str t) = Ok (m, s) ->
  CreateSignature C strict clock o (new_signatory (open_str t)) = (y, Ok H) -> Forall (sound_options strict o) (all_signatures o) ->
  Forall signable_name (listed_names h_name o (m_headers m)) ->
  (o_chead o = RELAXED -> Forall (Forall (fun c => ~ WSP c)) (listed_names h_name o (m_headers m))) ->
  exists m' s', parse_all new_message (open_str (H ++ CRLF ++ t)) = Ok (m', s') /\
  forall i q, nth_error (rev (all_signatures o)) i = Some q ->
  exists h pre b post outs d x, nth_error (m_headers m') i = Some h /\ tag_at (str "b") (skipn (h_voff h) (h_text h)) pre b post /\
    signed_text C strict clock o t m i q outs d /\ make_signature C o q (digest C (o_digest o) d) = Ok x /\ unspaced b = Base64_Encode x.
Proof. exact signer_text. Qed.
Print Assumptions C63_signer_text.

(** If what a field of another message authenticates is such a text, the field says what the
    signer's options say, and the fields and the body hash are the signer's. *)
Theorem C63_binding : forall C strict clock o t m i q outs d strict' ty t' v h now e0 g e1 pre b post, signs_something C ->
  signed_text C strict clock o t m i q outs d -> new_validatory strict' ty (open_str t') = Ok v -> In h (v_sigs v) ->
  Signature_Parse C strict' now h (new_signature, e0) = ((g, e1), Ok tt) -> tag_at (str "b") (skipn (h_voff h) (h_text h)) pre b post ->
  authenticated h g v pre post d -> (o_chead o = RELAXED /\ sg_chead g = RELAXED) \/ ~ starts_wsp t' ->
  bound C clock o t m i q outs t' (v_msg v) g now.
Proof. exact binding. Qed.
Print Assumptions C63_binding.

(** So a signature that verifies with a key that accepts nothing but what its owner has signed
    ([owner] says in which calls) is one of the owner's. *)
Theorem C63_authentic : forall C strict' ty t' v0 v h now e0 g e1 v' r st p0 p (owner : bool -> (nat -> Z) -> options -> bytes -> nat -> Prop),
  signs_something C ->
  new_validatory strict' ty (open_str t') = Ok v0 -> in_use strict' ty t' v -> In h (v_sigs v0) -> small_field h ->
  GetSignature C strict' now h (new_signature, e0) v = (v', (g, e1), Ok tt) ->
  PublicKey_Parse C st r p0 = (p, Ok tt) -> CheckSignature C strict' h g p v' = Ok tt ->
  (forall d, accepted C g p (digest C (sg_digest g) d) ->
   exists strict clock o t m i q outs, owner strict clock o t i /\ signed_text C strict clock o t m i q outs d /\
     ((o_chead o = RELAXED /\ sg_chead g = RELAXED) \/ ~ starts_wsp t')) ->
  exists strict clock o t m i q outs, owner strict clock o t i /\
    CheckSignature C strict' h g p v' = Ok tt /\ bound C clock o t m i q outs t' (v_msg v0) g now /\
    forall b out b' out', message_body t b -> canonical_body (is_relaxed (o_cbody o)) b out ->
      message_body t' b' -> canonical_body (is_relaxed (o_cbody o)) b' out' ->
      digest C (o_digest o) (cut (o_signlen o) (o_bodylen o) out) = digest C (o_digest o) (cut (o_signlen o) (o_bodylen o) out').
Proof. exact authentic. Qed.
Print Assumptions C63_authentic.
(** The hypotheses hold for a letter that was refolded on its way, with primitives whose digest is
    the text itself. *)
Example C63_case : signs_something frank /\ exists v0 h g e1 v', new_validatory true V_DKIM (open_str received) = Ok v0 /\ In h (v_sigs v0) /\ small_field h /\
  GetSignature frank true 7 h (new_signature, false) v0 = (v', (g, e1), Ok tt) /\
  PublicKey_Parse frank true rsa_record new_public_key = (frank_pub, Ok tt) /\ CheckSignature frank true h g frank_pub v' = Ok tt /\ frank_unforged g.
Proof. exact (conj frank_signs frank_case). Qed.
Example C63_case_text : exists m d outs q, signed_text frank true five frank_options letter m 0 q outs d /\ frank_b = chr 2 :: d ++ esc "KEY".
Proof. exact frank_text. Qed.
