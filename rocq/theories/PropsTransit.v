(** Properties C71, C72: what relays do to a signed message. *)
From Verif Require Import Bytes Outcome Stream Base64 TagList MailParser Canonicalization Util Crypto Signature PublicKey SignatoryOptions Signatory
  Validatory SpecText SpecTags SpecMail SpecCanon SpecVerify SpecSig SpecKey SpecOptions SpecSign SpecTransit MailFacts VerifyFacts VerifyExamples SignExamples
  TransitFacts TransitExamples Examples SelectFacts FrontExact.

(** C71.  [outcome_of]: the signature object and the outcome.  [out_of_reach added hs names]: no name
    of an added field is listed more often than the message had fields of that name. *)
Theorem C71_front : forall C strict ty t ls p v v', header_block ls p -> at_field t -> ty <> V_NONE ->
  new_validatory strict ty (open_str t) = Ok v -> new_validatory strict ty (open_str (p ++ t)) = Ok v' ->
  exists added, m_headers (v_msg v') = added ++ m_headers (v_msg v) /\
    concat (map (fun f => h_text f ++ CRLF) added) = with_crlf ls /\
    (exists more, v_sigs v' = more ++ v_sigs v /\ incl more added) /\
    (forall now h st, outcome_of (GetSignature C strict now h st v') = outcome_of (GetSignature C strict now h st v)) /\
    (forall h g k, out_of_reach h_name added (m_headers (v_msg v)) (sg_headers g) ->
       CheckSignature C strict h g k v' = CheckSignature C strict h g k v).
Proof. exact front_kept. Qed.
Print Assumptions C71_front.
Example C71_case : exists ls t v v', header_block ls trace /\ at_field t /\ new_validatory true V_DKIM (open_str t) = Ok v /\
  new_validatory true V_DKIM (open_str (trace ++ t)) = Ok v' /\
  accepts toy true V_DKIM 5 t 0 rsa_pub = Ok tt /\ accepts toy true V_DKIM 5 (trace ++ t) 1 rsa_pub = Ok tt.
Proof. exact trace_kept. Qed.
(** Exactly then what the signature covers is the same. *)
Theorem C71_front_exact : forall strict ty t ls p v v', header_block ls p -> at_field t -> ty <> V_NONE ->
  new_validatory strict ty (open_str t) = Ok v -> new_validatory strict ty (open_str (p ++ t)) = Ok v' ->
  exists added, m_headers (v_msg v') = added ++ m_headers (v_msg v) /\ concat (map (fun f => h_text f ++ CRLF) added) = with_crlf ls /\
    forall h g d, (sg_chead g = SIMPLE -> ~ starts_wsp t /\ ~ starts_wsp (p ++ t)) -> signed_data strict h g v = Ok d ->
      (signed_data strict h g v' = Ok d <-> out_of_reach h_name added (m_headers (v_msg v)) (sg_headers g)).
Proof. exact front_exact. Qed.
Print Assumptions C71_front_exact.
(** Within reach, an added field is noticed. *)
Example C71_case_reached : exists t p, accepts toy true V_DKIM 5 t 0 rsa_pub = Ok tt /\ accepts toy true V_DKIM 5 (p ++ t) 0 rsa_pub = perm_fail.
Proof. exact reached. Qed.

(** Fields may be moved, added and removed anywhere as long as, for each listed name, the fields of
    that name are the same in the same order. *)
Theorem C71_named : forall C strict ty t t' v v' h g k, ty <> V_NONE ->
  new_validatory strict ty (open_str t) = Ok v -> new_validatory strict ty (open_str t') = Ok v' ->
  (forall n, In n (sg_headers g) -> filter (fun f => same_name (h_name f) n) (m_headers (v_msg v')) =
                                     filter (fun f => same_name (h_name f) n) (m_headers (v_msg v))) ->
  CheckSignature C strict h g k v' = CheckSignature C strict h g k v.
Proof. exact named_kept. Qed.
Print Assumptions C71_named.
Example C71_case_moved : accepts toy true V_DKIM 5 (moved (sent (with_rsa []))) 0 rsa_pub = Ok tt.
Proof. exact moved_accepted. Qed.

(** C72.  Line ends and empty lines at the end do not matter in any mode. *)
Theorem C72_line_ends : forall C strict ty t t' v, other_line_ends t t' -> ty <> V_NONE -> new_validatory strict ty (open_str t) = Ok v ->
  exists v', new_validatory strict ty (open_str t') = Ok v' /\ m_headers (v_msg v') = m_headers (v_msg v) /\ v_sigs v' = v_sigs v /\
    (forall now h st, outcome_of (GetSignature C strict now h st v') = outcome_of (GetSignature C strict now h st v)) /\
    (forall h g k, CheckSignature C strict h g k v' = CheckSignature C strict h g k v).
Proof. exact ends_kept. Qed.
Print Assumptions C72_line_ends.
Example C72_case_ends : other_line_ends ((sample_from ++ CRLF ++ []) ++ CRLF ++ sample_body) ((sample_from ++ [LF] ++ []) ++ [LF] ++ esc "hi\n\n") /\
  accepts toy true V_DKIM 5 (lf_only (sent (with_rsa []))) 0 rsa_pub = Ok tt.
Proof. exact (conj lf_ends lf_accepted). Qed.
(** In the relaxed modes whitespace, folding and the case of names do not matter either. *)
Theorem C72_relaxed : forall C strict ty t t' v v' b b', ty <> V_NONE ->
  new_validatory strict ty (open_str t) = Ok v -> new_validatory strict ty (open_str t') = Ok v' ->
  message_body t b -> message_body t' b' -> same_words b b' ->
  Forall2 (fun f f' => same_name (h_name f) (h_name f') = true /\ (h_text f = h_text f' \/ same_field (h_text f) (h_text f')))
    (m_headers (v_msg v)) (m_headers (v_msg v')) ->
  (forall now h st, sg_cbody (fst (fst (Signature_Parse C strict now h st))) = RELAXED ->
     outcome_of (GetSignature C strict now h st v') = outcome_of (GetSignature C strict now h st v)) /\
  (forall h g k, sg_chead g = RELAXED -> CheckSignature C strict h g k v' = CheckSignature C strict h g k v).
Proof. exact refolding_kept. Qed.
Print Assumptions C72_relaxed.
Example C72_case_relaxed : exists t t' v v' b b', new_validatory true V_DKIM (open_str t) = Ok v /\ new_validatory true V_DKIM (open_str t') = Ok v' /\
  message_body t b /\ message_body t' b' /\ same_words b b' /\ Forall2 refolded_field (m_headers (v_msg v)) (m_headers (v_msg v')).
Proof. exact refold_case. Qed.
Example C72_case_verdicts : accepts toy true V_DKIM 5 (refold (sent relaxed_options)) 0 rsa_pub = Ok tt /\
  accepts toy true V_DKIM 5 (refold (sent (with_rsa [SetCanonModeHeader SIMPLE; SetCanonModeBody SIMPLE]))) 0 rsa_pub = perm_fail.
Proof. exact (conj refold_accepted refold_simple_fails). Qed.
