(** Property C98: why and where signing stops, and what the signing program prints. *)
From Verif Require Import Bytes Outcome Stream MailParser Canonicalization Util Crypto SignatoryOptions Signatory Tool SignReasons
  SpecText SpecMail SpecCanon SpecVerify SpecPass SpecSign SpecMade SpecStop SpecSignTool BodyFacts StopFacts StopTool StopExamples VerifyExamples SignExamples OutcomeExamples Examples.

(** C98.  An exception of CreateSignature states the first event on the way, and there is one. *)
Theorem C98_refused : forall C strict clock o t fs b out, has_fields t fs -> message_body t b -> canonical_body (is_relaxed (o_cbody o)) b out -> forall m,
  snd (CreateSignature C strict clock o (new_signatory (open_str t))) = Throw (PermanentError AR_PERMERROR) /\
    create_what C strict clock o (new_signatory (open_str t)) = m <->
  first_event (stop C strict clock o fs out) (Refused m).
Proof. exact create_refused. Qed.
Print Assumptions C98_refused.
Example C98_refused_case : stops_with false no_limit letter (Refused (str "Body sign limit exceed the size of the canonicalized message length")) /\
  stops_with false (relaxed_rsa []) cr_letter (Refused (str "CR without matching LF, 0x79 at position 11")) /\
  stops_with false (relaxed_rsa [SetOversignHeaders [esc "x\r"]]) letter (Refused (str "CR without matching LF, 0x3b at position 90")) /\
  stops_with true new_options letter (Refused (str "No RSA key provided")).
Proof. exact stop_refusals. Qed.

(** Undefined behaviour, exactly when it is the first event. *)
Theorem C98_undefined : forall C strict clock o t fs b out, has_fields t fs -> message_body t b -> canonical_body (is_relaxed (o_cbody o)) b out -> forall u,
  snd (CreateSignature C strict clock o (new_signatory (open_str t))) = UB u <-> first_event (stop C strict clock o fs out) (Leaves u).
Proof. exact create_leaves. Qed.
Print Assumptions C98_undefined.
Example C98_undefined_case : stops_with false late letter (Leaves UB_overflow) /\ stops_with false keyless_ed letter (Leaves UB_oob_read) /\
  stops_with true (with_rsa [SetHeaders [[chr 233]]]) letter (Leaves UB_ctype).
Proof. exact stop_undefined. Qed.

(** A signature is made exactly when there is no event. *)
Theorem C98_made : forall C strict clock o t fs b out, has_fields t fs -> message_body t b -> canonical_body (is_relaxed (o_cbody o)) b out ->
  (exists H, snd (CreateSignature C strict clock o (new_signatory (open_str t))) = Ok H) <-> forall k e, ~ stop C strict clock o fs out k e.
Proof. exact create_fine. Qed.
Print Assumptions C98_made.
Example C98_made_case : for_message full letter (fun fs out => forall k e, ~ stop toy true (fun _ => 5%Z) full fs out k e).
Proof. exact stop_never. Qed.
(** There is no fourth end. *)
Theorem C98_ends : forall C strict clock o t fs b out, has_fields t fs -> message_body t b -> canonical_body (is_relaxed (o_cbody o)) b out ->
  (exists H, snd (CreateSignature C strict clock o (new_signatory (open_str t))) = Ok H) \/
  snd (CreateSignature C strict clock o (new_signatory (open_str t))) = Throw (PermanentError AR_PERMERROR) \/
  exists u, snd (CreateSignature C strict clock o (new_signatory (open_str t))) = UB u.
Proof. exact create_three. Qed.
Print Assumptions C98_ends.
Example C98_ends_case : (exists H, sign_lax full letter = Ok H) /\ sign_lax new_options letter = perm /\ sign_lax late letter = UB UB_overflow.
Proof. split; [eexists; vm_compute; reflexivity|]. split; vm_compute; reflexivity. Qed.

(** The setters of a signature: their exceptions and what they state. *)
Theorem C98_call : forall C x s m, snd (run_sig_op C x s) = Throw (PermanentError AR_PERMERROR) /\ sig_op_what C x s = m <-> call_refused C (so_alg s) x m.
Proof. exact call_exactly. Qed.
Print Assumptions C98_call.
Theorem C98_call_ends : forall C x s, snd (run_sig_op C x s) = Ok tt \/ snd (run_sig_op C x s) = Throw (PermanentError AR_PERMERROR).
Proof. exact call_two. Qed.
Print Assumptions C98_call_ends.
Example C98_call_case : call_refused toy RSA (SetPrivateKey []) (str "RSA key could not be loaded from DER") /\
  call_refused toy ED25519 (SetPrivateKey (esc "S0VZ")) (str "ED25519 key could not be loaded as Base64") /\
  call_refused toy RSA (SetDomain (esc "ex..org")) (str "Invalid domain (d=)") /\ call_refused toy RSA (SetSelector (esc "-s")) (str "Invalid selector (s=)") /\
  (forall m, ~ call_refused toy RSA (SetDomain (esc "ex.org")) m) /\ forall m, ~ call_refused toy ED25519 (SetPrivateKey ed_key) m.
Proof. exact call_cases. Qed.

(** A signing run of the program: standard output, standard error and the end. *)
Theorem C98_tool : forall C strict clock a key message out err e,
  tool_sign C strict clock a key message = (out, e) /\ sign_err C strict clock a key message = err <-> signing_run C strict clock a key message out err e.
Proof. exact run_exact. Qed.
Print Assumptions C98_tool.
Example C98_tool_case : run_letter (sign_with "ex.org" "s1") None (Some letter) [] (esc "keyfile key could not be open\n") (Exit 1) /\
  run_letter (sign_with "ex..org" "-s") (Some (esc "S0VZ")) (Some letter) [] (esc "Invalid domain (d=)\n") (Exit 1) /\
  run_letter (sign_with "ex..org" "-s") (Some []) (Some letter) [] (esc "RSA key could not be loaded from DER\n") (Exit 1) /\
  run_letter (sign_with "ex.org" "s1") (Some (esc "S0VZ")) (Some cr_letter) [] (esc "CR without matching LF, 0x79 at position 11\n") (Exit 1) /\
  exists out, run_letter (sign_with "ex.org" "s1") (Some (esc "S0VZ")) None out [] (Exit 0).
Proof. exact run_cases. Qed.
