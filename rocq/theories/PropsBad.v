(** Property C90: messages that cannot be read to the end. *)
From Verif Require Import Bytes Outcome Stream MailParser Crypto Signature PublicKey SignatoryOptions Signatory Validatory SpecText SpecMail FailingReads SpecBad BadFacts
  Examples VerifyExamples SignExamples.

(** C90.  It is not noticed that the source failed.  A file of which nothing can be read, for example a
    directory, is signed. *)
Theorem C90_signed_refuted : exists o h, snd (CreateSignature_bad toy true (fun _ => 5%Z) o (new_signatory (open_str []))) = Ok h.
Proof. exact (ex_intro _ (with_rsa []) (ex_intro _ _ eq_refl)). Qed.
Print Assumptions C90_signed_refuted.
(** A signature for an empty body is accepted with any body that is shorter than the buffer. *)
Theorem C90_accepted_refuted : exists record t, verify toy true (t ++ str "evil") record = perm_fail /\
  forall b, length b < N.to_nat 8096 -> verify_bad toy true (t ++ b) record = Ok tt.
Proof. exact (ex_intro _ rsa_record (ex_intro _ bare_message (conj eq_refl bad_accepted))). Qed.
Print Assumptions C90_accepted_refuted.
(** What happens: the message is taken to be what was [kept] of it.  Signing: *)
Theorem C90_signing_partial : forall C strict clock o p t, kept (N.to_nat 8096) p t ->
  snd (CreateSignature_bad C strict clock o (new_signatory (open_str p))) = snd (CreateSignature C strict clock o (new_signatory (open_str t))).
Proof. exact signing_bad. Qed.
Print Assumptions C90_signing_partial.
(** verifying, where [same_view] says that [v] works on the source that fails after [p], and [v0] on the message [t]: *)
Theorem C90_verifier_partial : forall strict ty p t, kept (N.to_nat 8096) p t ->
  match new_validatory strict ty (open_str t) with
  | Ok v0 => exists v, new_validatory_bad strict ty (open_str p) = Ok v /\ same_view strict ty p t v v0
  | r => new_validatory_bad strict ty (open_str p) = r
  end.
Proof. exact validatory_bad. Qed.
Print Assumptions C90_verifier_partial.
Theorem C90_verifying_partial : forall C strict ty now p t, kept (N.to_nat 8096) p t -> forall v v0 h st, same_view strict ty p t v v0 ->
  exists v' v0' st' r, GetSignature_bad C strict now h st v = (v', st', r) /\ GetSignature C strict now h st v0 = (v0', st', r) /\
    same_view strict ty p t v' v0'.
Proof. exact verifying_bad. Qed.
Print Assumptions C90_verifying_partial.
Theorem C90_checking_partial : forall C strict ty p t v v0 h g k, same_view strict ty p t v v0 ->
  CheckSignature C strict h g k v = CheckSignature C strict h g k v0.
Proof. exact check_bad. Qed.
Print Assumptions C90_checking_partial.
(** Something definite is kept of every message. *)
Theorem C90_kept : forall chunk p, 0 < chunk -> exists t, kept chunk p t /\ forall t', kept chunk p t' -> t' = t.
Proof. exact (fun chunk p CH => match kept_exists chunk p CH with ex_intro _ t K => ex_intro _ t (conj K (fun t' K' => kept_unique chunk p t' K' t K)) end). Qed.
Print Assumptions C90_kept.
(** With the usual reading the functions are those of the other properties. *)
Theorem C90_same : (forall C strict clock o y, create_with getline sread C strict clock o y = CreateSignature C strict clock o y) /\
  (forall strict ty s, validatory_with getline strict ty s = new_validatory strict ty s) /\
  (forall C strict now h st v, get_signature_with sread C strict now h st v = GetSignature C strict now h st v).
Proof. exact usual. Qed.
Print Assumptions C90_same.
Example C90_case : kept (N.to_nat 8096) (esc "From: a\r\nSubj") (esc "From: a\r\n") /\ getline_bad (open_str (esc "Subj")) = (false, str "Subj", mkStream (rev (str "Subj")) [] false true).
Proof. split; [apply (kept_header _ [str "From: a"] (esc "From: a\r\n") (str "Subj")); [apply (hb_cons (str "From: a") CRLF [] []); [discriminate| |constructor|constructor]|]; cbn; intuition discriminate|reflexivity]. Qed.
