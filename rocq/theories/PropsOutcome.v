(** Property C78: when signing succeeds, and how it fails. *)
From Verif Require Import Bytes Outcome Stream MailParser Canonicalization Util Crypto PublicKey SignatoryOptions Signatory
  SpecText SpecMail SpecCanon SpecVerify SpecPass SpecSign SpecOutcome BodyFacts LoneFacts OutcomeFacts VerifyExamples SignExamples OutcomeExamples Examples.

(** C78.  Header canonicalization is refused for a text without colon or with a CR that is not
    followed by LF, and for no other. *)
Theorem C78_header : forall t, ((exists out, FilterHeader false RELAXED t = Ok out) <-> In COLON t /\ ~ has_lone_CR t) /\
  ((exists out, FilterHeader false RELAXED t = Ok out) \/ FilterHeader false RELAXED t = Throw (PermanentError AR_PERMERROR)).
Proof. exact header_exact. Qed.
Print Assumptions C78_header.
Example C78_header_case : FilterHeader false RELAXED (esc "A: b\r\n c") = Ok (esc "a:b c") /\ FilterHeader false RELAXED (esc "A: b\rc") = perm /\
  FilterHeader false RELAXED (esc "A: b\r\nc") = Ok (esc "a:b\r\nc").
Proof. split; [|split]; vm_compute; reflexivity. Qed.

(** Signing succeeds exactly when the body is as long as l= says, no lone CR is signed in relaxed
    form, and every key yields signature data.  Otherwise it fails with permerror. *)
Theorem C78_exact : forall C clock o t fs b out, has_fields t fs -> message_body t b -> canonical_body (is_relaxed (o_cbody o)) b out ->
  (forall i, i < length (all_signatures o) -> in_time o (clock i)) -> Forall (fun q => able C o q \/ unable C o q) (all_signatures o) ->
  let r := snd (CreateSignature C false clock o (new_signatory (open_str t))) in
  ((exists H, r = Ok H) <->
   (o_signlen o = true -> (o_bodylen o <= N.of_nat (length out))%N) /\ (o_chead o = RELAXED -> without_lone_CR o fs) /\ Forall (able C o) (all_signatures o)) /\
  ((exists H, r = Ok H) \/ r = Throw (PermanentError AR_PERMERROR)).
Proof. exact create_exact. Qed.
Print Assumptions C78_exact.
Example C78_exact_case : exists fs b out, has_fields letter fs /\ message_body letter b /\ canonical_body (is_relaxed (o_cbody full)) b out /\
  (forall i, i < length (all_signatures full) -> in_time full 5) /\ Forall (fun q => able toy full q \/ unable toy full q) (all_signatures full) /\
  (o_signlen full = true -> (o_bodylen full <= N.of_nat (length out))%N) /\ o_chead full = RELAXED /\ without_lone_CR full fs /\
  exists H, sign_lax full letter = Ok H.
Proof. exact full_outcome. Qed.
Example C78_exact_refused : (exists H, sign_lax (with_rsa []) cr_letter = Ok H) /\ sign_lax (relaxed_rsa []) cr_letter = perm /\
  (exists H, sign_lax (relaxed_rsa [SetHeaders [esc "from"]]) cr_letter = Ok H) /\
  sign_lax (relaxed_rsa [SetOversignHeaders [esc "x\r"]]) letter = perm /\
  sign_lax (with_rsa [SetSignBodyLength 5]) letter = perm /\
  sign_lax (with_rsa [AddAdditionalSignature; OnMore 0 (SetDomain (esc "ex.org")); OnMore 0 (SetSelector (esc "s2"))]) letter = perm /\
  sign_lax new_options letter = perm.
Proof. exact refusals. Qed.

(** The only error that signing reports is permerror, whatever the options, keys and message. *)
Theorem C78_class : forall C strict clock o t, let r := snd (CreateSignature C strict clock o (new_signatory (open_str t))) in
  (exists H, r = Ok H) \/ r = Throw (PermanentError AR_PERMERROR) \/ exists k, r = UB k.
Proof. exact create_class. Qed.
Print Assumptions C78_class.
Example C78_class_case : sign_lax (with_rsa [SetExpiration 9223372036854775807 false]) letter = UB UB_overflow /\ sign_lax new_options letter = perm /\
  exists H, sign_lax full letter = Ok H.
Proof. split; [vm_compute; reflexivity|]. split; [vm_compute; reflexivity|]. eexists. vm_compute. reflexivity. Qed.
