(** Property C77: fields added to a signed message. *)
From Verif Require Import Bytes Outcome Stream Base64 TagList MailParser Canonicalization Util Crypto Signature PublicKey SignatoryOptions Signatory
  Validatory SpecText SpecTags SpecMail SpecCanon SpecVerify SpecSig SpecKey SpecOptions SpecSign SelectFacts MailFacts VerifyFacts VerifyProps
  SignRound VerifyExamples SignExamples TransitExamples AddedFacts TransportExamples Examples SpecTransit FrontExact.
From Coq Require Import Permutation.

(** C77.  Fields were added anywhere, one of them with an oversigned name.  If the signature is
    still accepted, the primitives accept it for two texts. *)
Theorem C77_oversigned_partial : forall C strict clock o t y H m s v t2 v2 added f n h g k, ~ starts_wsp t -> parse_all new_message (open_str t) = Ok (m, s) ->
  CreateSignature C strict clock o (new_signatory (open_str t)) = (y, Ok H) ->
  Forall (sound_options strict o) (all_signatures o) -> sound_fields h_name o (m_headers m) ->
  new_validatory strict (sig_type o) (open_str (H ++ CRLF ++ t)) = Ok v ->
  new_validatory strict (sig_type o) (open_str t2) = Ok v2 -> (o_chead o = SIMPLE -> ~ starts_wsp t2) ->
  Permutation (m_headers (v_msg v2)) (added ++ m_headers (v_msg v)) ->
  In f added -> In n (o_oversign o) -> same_name (h_name f) n = true ->
  sg_headers g = listed_names h_name o (m_headers m) -> sg_chead g = o_chead o ->
  CheckSignature C strict h g k v = Ok tt -> CheckSignature C strict h g k v2 = Ok tt ->
  exists d d2, d <> d2 /\ verify_digest C g k (digest C (sg_digest g) d) = Ok tt /\ verify_digest C g k (digest C (sg_digest g) d2) = Ok tt.
Proof. exact added_refused. Qed.
Print Assumptions C77_oversigned_partial.
Example C77_case : fields_of_text (front_from ++ sent full) = header_of (esc "From: b@ex.org") :: fields_of_text (sent full) /\
  same_name (h_name (header_of (esc "From: b@ex.org"))) (esc "from") = true /\ In (esc "from") (o_oversign full) /\
  accepts toy true V_DKIM 5 (sent full) 0 rsa_pub = Ok tt /\ accepts toy true V_DKIM 5 (front_from ++ sent full) 0 rsa_pub = perm_fail.
Proof. exact front_added. Qed.

(** Any signature, made by whom ever: fields were added anywhere, one of which it lists more often than the message had them. *)
Theorem C77_noticed : forall C strict ty t t2 v v2 added h g k, new_validatory strict ty (open_str t) = Ok v -> new_validatory strict ty (open_str t2) = Ok v2 ->
  (sg_chead g = SIMPLE -> ~ starts_wsp t /\ ~ starts_wsp t2) -> Permutation (m_headers (v_msg v2)) (added ++ m_headers (v_msg v)) ->
  ~ out_of_reach h_name added (m_headers (v_msg v)) (sg_headers g) ->
  CheckSignature C strict h g k v = Ok tt -> CheckSignature C strict h g k v2 = Ok tt ->
  exists d d2, d <> d2 /\ verify_digest C g k (digest C (sg_digest g) d) = Ok tt /\ verify_digest C g k (digest C (sg_digest g) d2) = Ok tt.
Proof. exact reach_noticed. Qed.
Print Assumptions C77_noticed.

(** Unless SetOversignHeaders is called, any fields can be put in front of any signed message. *)
Theorem C77_second_from_refuted : exists calls p, (forall x, ~ In (SetOversignHeaders x) calls) /\ p = esc "From: b@ex.org" ++ CRLF /\
  accepts toy true V_DKIM 5 (sent (with_rsa calls)) 0 rsa_pub = Ok tt /\ accepts toy true V_DKIM 5 (p ++ sent (with_rsa calls)) 0 rsa_pub = Ok tt.
Proof. exact second_from. Qed.
Print Assumptions C77_second_from_refuted.
Theorem C77_front_unnoticed : forall C strict clock o t y H m s ls p v', ~ starts_wsp t -> parse_all new_message (open_str t) = Ok (m, s) ->
  CreateSignature C strict clock o (new_signatory (open_str t)) = (y, Ok H) ->
  Forall (sound_options strict o) (all_signatures o) -> sound_fields h_name o (m_headers m) -> o_oversign o = [] ->
  header_block ls p -> new_validatory strict (sig_type o) (open_str (p ++ H ++ CRLF ++ t)) = Ok v' ->
  exists fields more, H = joined fields /\ length fields = length (all_signatures o) /\
    v_sigs v' = more ++ map header_of fields ++ filter (wanted (sig_type o)) (m_headers m) /\
    forall i q, nth_error (rev (all_signatures o)) i = Some q ->
    exists h, nth_error (v_sigs v') (length more + i) = Some h /\ nth_error (map header_of fields) i = Some h /\
    forall w k now e0, in_use strict (sig_type o) (p ++ H ++ CRLF ++ t) w -> serves C o q k -> small_field h ->
       (o_exsign o = true -> (now <= expiry o (clock i))%Z) -> (o_signlen o = true -> e0 = false) ->
    exists w2 g e1, GetSignature C strict now h (new_signature, e0) w = (w2, (g, e1), Ok tt) /\ CheckSignature C strict h g k w2 = Ok tt.
Proof. exact front_unnoticed. Qed.
Print Assumptions C77_front_unnoticed.
Example C77_case_default : o_oversign (with_rsa []) = [] /\ o_oversign new_options = [].
Proof. exact (conj eq_refl eq_refl). Qed.
