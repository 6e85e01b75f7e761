(** Properties C55, C78: exactly when signing leaves the language, and when it succeeds, for all keys and clocks. *)
From Verif Require Import Bytes Outcome Stream MailParser Canonicalization Util Crypto PublicKey SignatoryOptions Signatory
  SpecText SpecMail SpecCanon SpecVerify SpecPass SpecSign SpecOutcome BodyFacts EndsFacts VerifyExamples SignExamples OutcomeExamples Examples.

(** C55.  Where tolower of a negative char is harmless, signing leaves the language exactly when it
    gets to a signature (the last one added comes first) for which the body is long enough, nothing
    that is signed has a lone CR, all signatures before are made, and x= does not fit in time_t or,
    if it does, Ed25519 was selected without a key. *)
Theorem C55_exact : forall C clock o t fs b out, has_fields t fs -> message_body t b -> canonical_body (is_relaxed (o_cbody o)) b out ->
  Forall (fun q => able C o q \/ unable C o q \/ keyless q) (all_signatures o) -> forall k,
  snd (CreateSignature C false clock o (new_signatory (open_str t))) = UB k <->
  (o_signlen o = true -> (o_bodylen o <= N.of_nat (length out))%N) /\ fields_clean o fs /\
  exists i q, nth_error (rev (all_signatures o)) i = Some q /\
    (forall j p, j < i -> nth_error (rev (all_signatures o)) j = Some p -> goes_well C o (clock j) p) /\
    (k = UB_overflow /\ ~ in_time o (clock i) \/ k = UB_oob_read /\ in_time o (clock i) /\ signature_clean o q /\ keyless q).
Proof. exact create_undefined. Qed.
Print Assumptions C55_exact.
(** An additional signature without a key is reached before the main one; the main one is not reached behind one that fails. *)
Example C55_exact_case :
  sign_lax (with_rsa [AddAdditionalSignature; OnMore 0 (SetSignatureAlgorithm ED25519)]) letter = UB UB_oob_read /\
  sign_lax (run_ops toy [OnMain (SetSignatureAlgorithm ED25519); AddAdditionalSignature] new_options) letter = perm /\
  sign_lax (run_ops toy [OnMain (SetSignatureAlgorithm ED25519); SetSignBodyLength 5] new_options) letter = perm /\
  sign_lax (run_ops toy [OnMain (SetSignatureAlgorithm ED25519); SetExpiration 9223372036854775807 false] new_options) letter = UB UB_overflow /\
  Forall (fun q => able toy new_options q \/ unable toy new_options q \/ keyless q)
    (all_signatures (run_ops toy [OnMain (SetSignatureAlgorithm ED25519); AddAdditionalSignature] new_options)).
Proof.
  do 4 (split; [vm_compute; reflexivity|]). constructor; [right; right; split; reflexivity|]. constructor; [|constructor].
  right. left. intros k K. discriminate.
Qed.

(** C78.  It succeeds exactly when the body is long enough, no lone CR is signed, and each signature goes well. *)
Theorem C78_succeeds : forall C clock o t fs b out, has_fields t fs -> message_body t b -> canonical_body (is_relaxed (o_cbody o)) b out ->
  Forall (fun q => able C o q \/ unable C o q \/ keyless q) (all_signatures o) ->
  ((exists H, snd (CreateSignature C false clock o (new_signatory (open_str t))) = Ok H) <->
   (o_signlen o = true -> (o_bodylen o <= N.of_nat (length out))%N) /\ fields_clean o fs /\
   forall i q, nth_error (rev (all_signatures o)) i = Some q -> goes_well C o (clock i) q).
Proof. exact create_succeeds. Qed.
Print Assumptions C78_succeeds.
Example C78_succeeds_case : exists H, sign_lax (with_rsa [SetExpiration 7 false]) letter = Ok H.
Proof. eexists. vm_compute. reflexivity. Qed.
