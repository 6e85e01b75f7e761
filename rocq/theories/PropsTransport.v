(** Property C76: a signed message is accepted where it arrives. *)
From Verif Require Import Bytes Outcome Stream Base64 TagList MailParser Canonicalization Util Crypto Signature PublicKey SignatoryOptions Signatory
  Validatory SpecText SpecTags SpecMail SpecCanon SpecVerify SpecSig SpecKey SpecOptions SpecSign SpecTransit SpecTransport SelectFacts MailFacts VerifyFacts
  SignRound VerifyExamples SignExamples TransitExamples TransportFacts TransportExamples Examples.

(** C76.  Lines [p] put in front, other line ends, other empty lines at the end. *)
Theorem C76_line_ends : forall C strict clock o t y H m s t2 ls p v', ~ starts_wsp t -> parse_all new_message (open_str t) = Ok (m, s) ->
  CreateSignature C strict clock o (new_signatory (open_str t)) = (y, Ok H) ->
  Forall (sound_options strict o) (all_signatures o) -> sound_fields h_name o (m_headers m) ->
  other_line_ends (H ++ CRLF ++ t) t2 -> header_block ls p -> new_validatory strict (sig_type o) (open_str (p ++ t2)) = Ok v' ->
  exists fields, H = joined fields /\ length fields = length (all_signatures o) /\
    arrives_signed C strict clock o (p ++ t2) ls fields (m_headers m) v'.
Proof. exact sent_ends. Qed.
Print Assumptions C76_line_ends.
Example C76_case : exists y H m s t2 ls v', ~ starts_wsp letter /\ parse_all new_message (open_str letter) = Ok (m, s) /\
  CreateSignature toy true (fun _ => 5%Z) full (new_signatory (open_str letter)) = (y, Ok H) /\
  Forall (sound_options true full) (all_signatures full) /\ sound_fields h_name full (m_headers m) /\
  other_line_ends (H ++ CRLF ++ letter) t2 /\ t2 <> H ++ CRLF ++ letter /\ header_block ls trace /\
  new_validatory true (sig_type full) (open_str (trace ++ t2)) = Ok v'.
Proof. exact travelled. Qed.
Example C76_case_run : accepts toy true V_DKIM 5 (trace ++ lf_only (sent full)) 1 rsa_pub = Ok tt /\
  accepts toy true V_DKIM 5 (trace ++ lf_only (sent full)) 2 rsa_pub = Ok tt.
Proof. exact travelled_run. Qed.

(** With the relaxed modes the message [t] under the signature may also have become [t'], with
    fields refolded and whitespace changed. *)
Theorem C76_relaxed : forall C strict clock o t y H m s t' m' s' b b' ls p v', ~ starts_wsp t -> parse_all new_message (open_str t) = Ok (m, s) ->
  CreateSignature C strict clock o (new_signatory (open_str t)) = (y, Ok H) ->
  Forall (sound_options strict o) (all_signatures o) -> sound_fields h_name o (m_headers m) ->
  o_chead o = RELAXED -> o_cbody o = RELAXED ->
  ~ starts_wsp t' -> parse_all new_message (open_str t') = Ok (m', s') ->
  Forall2 (fun f f' => same_name (h_name f) (h_name f') = true /\ (h_text f = h_text f' \/ same_field (h_text f) (h_text f'))) (m_headers m) (m_headers m') ->
  message_body t b -> message_body t' b' -> same_words b b' ->
  header_block ls p -> new_validatory strict (sig_type o) (open_str (p ++ H ++ CRLF ++ t')) = Ok v' ->
  exists fields, H = joined fields /\ length fields = length (all_signatures o) /\
    arrives_signed C strict clock o (p ++ H ++ CRLF ++ t') ls fields (m_headers m') v'.
Proof. exact sent_refolded. Qed.
Print Assumptions C76_relaxed.
Example C76_case_relaxed : exists y H m s m' s' b b' ls v', ~ starts_wsp letter /\ parse_all new_message (open_str letter) = Ok (m, s) /\
  CreateSignature toy true (fun _ => 5%Z) full (new_signatory (open_str letter)) = (y, Ok H) /\
  Forall (sound_options true full) (all_signatures full) /\ sound_fields h_name full (m_headers m) /\
  o_chead full = RELAXED /\ o_cbody full = RELAXED /\
  ~ starts_wsp folded_letter /\ parse_all new_message (open_str folded_letter) = Ok (m', s') /\
  Forall2 (fun f f' => same_name (h_name f) (h_name f') = true /\ (h_text f = h_text f' \/ same_field (h_text f) (h_text f'))) (m_headers m) (m_headers m') /\
  message_body letter b /\ message_body folded_letter b' /\ same_words b b' /\ header_block ls trace /\
  new_validatory true (sig_type full) (open_str (trace ++ H ++ CRLF ++ folded_letter)) = Ok v'.
Proof. exact refolded_travels. Qed.
Example C76_case_relaxed_run : accepts toy true V_DKIM 5 (trace ++ refold (sent full)) 1 rsa_pub = Ok tt /\
  accepts toy true V_DKIM 5 (trace ++ refold (sent full)) 2 rsa_pub = Ok tt.
Proof. exact refolded_run. Qed.
(** A field with an oversigned name in front is noticed. *)
Example C76_case_oversigned : accepts toy true V_DKIM 5 (esc "From: b@ex.org\r\n" ++ sent full) 0 rsa_pub = perm_fail.
Proof. exact from_in_front. Qed.
