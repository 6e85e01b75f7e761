(** Examples for C98. *)
From Verif Require Import VerifyProps Bytes Outcome Stream MailParser Canonicalization Util CStdlib Crypto SignatoryOptions Signatory Validatory Tool Reasons SignReasons
  SpecText SpecMail SpecCanon SpecVerify SpecPass SpecOptions SpecSign SpecReason SpecMade SpecStop SpecSignTool BytesFacts PassFacts MailFacts BodyFacts VerifyFacts
  LoneFacts StopFacts StopTool VerifyExamples SignExamples OutcomeExamples ToolExamples Examples.
Local Open Scope string_scope.

Definition no_limit : options := with_rsa [SetSignBodyLength 5; SetTimestamp 9223372036854775807; SetExpiration 1 false].
Definition late : options := with_rsa [SetTimestamp 9223372036854775807; SetExpiration 1 false].
Definition keyless_ed : options := run_ops toy [OnMain (SetSignatureAlgorithm ED25519)] new_options.
(** With the fields and the canonical body of the message [t]. *)
Definition for_message (o : options) (t : bytes) (P : list header -> bytes -> Prop) : Prop :=
  exists fs b out, has_fields t fs /\ message_body t b /\ canonical_body (is_relaxed (o_cbody o)) b out /\ P fs out.
Definition stops_with (strict : bool) (o : options) (t : bytes) (e : event) : Prop :=
  for_message o t (fun fs out => first_event (stop toy strict (fun _ => 5%Z) o fs out) e).
Lemma for_ex o t : exists fs b out, has_fields t fs /\ message_body t b /\ canonical_body (is_relaxed (o_cbody o)) b out.
Proof.
  destruct (message_fields' t) as (_ & _ & _ & m & s & _ & _ & PA & _). pose proof (parse_fields _ _ _ PA) as HF.
  destruct (message_body_exists t) as (b & MB). destruct (canonical_exists (is_relaxed (o_cbody o)) b) as (out & CB). exists (m_headers m), b, out. auto.
Qed.
Lemma stops_refused strict o t m : snd (CreateSignature toy strict (fun _ => 5%Z) o (new_signatory (open_str t))) = perm ->
  create_what toy strict (fun _ => 5%Z) o (new_signatory (open_str t)) = m -> stops_with strict o t (Refused m).
Proof.
  intros E W. destruct (for_ex o t) as (fs & b & out & HF & MB & CB). exists fs, b, out. split; [exact HF|]. split; [exact MB|]. split; [exact CB|].
  apply (create_refused toy strict (fun _ => 5%Z) o t fs b out HF MB CB m). auto.
Qed.
Lemma stops_leaves strict o t u : snd (CreateSignature toy strict (fun _ => 5%Z) o (new_signatory (open_str t))) = UB u -> stops_with strict o t (Leaves u).
Proof.
  intros E. destruct (for_ex o t) as (fs & b & out & HF & MB & CB). exists fs, b, out. split; [exact HF|]. split; [exact MB|]. split; [exact CB|].
  apply (create_leaves toy strict (fun _ => 5%Z) o t fs b out HF MB CB u). exact E.
Qed.
Lemma stop_refusals : stops_with false no_limit letter (Refused (str "Body sign limit exceed the size of the canonicalized message length")) /\
  stops_with false (relaxed_rsa []) cr_letter (Refused (str "CR without matching LF, 0x79 at position 11")) /\
  stops_with false (relaxed_rsa [SetOversignHeaders [esc "x\r"]]) letter (Refused (str "CR without matching LF, 0x3b at position 90")) /\
  stops_with true new_options letter (Refused (str "No RSA key provided")).
Proof. repeat split; apply stops_refused; vm_compute; reflexivity. Qed.
Lemma stop_undefined : stops_with false late letter (Leaves UB_overflow) /\ stops_with false keyless_ed letter (Leaves UB_oob_read) /\
  stops_with true (with_rsa [SetHeaders [[chr 233]]]) letter (Leaves UB_ctype).
Proof. repeat split; apply stops_leaves; vm_compute; reflexivity. Qed.
Lemma stop_never : for_message full letter (fun fs out => forall k e, ~ stop toy true (fun _ => 5%Z) full fs out k e).
Proof.
  destruct (for_ex full letter) as (fs & b & out & HF & MB & CB). exists fs, b, out. split; [exact HF|]. split; [exact MB|]. split; [exact CB|].
  apply (create_fine toy true (fun _ => 5%Z) full letter fs b out HF MB CB). eexists. vm_compute. reflexivity.
Qed.
Lemma call_cases : call_refused toy RSA (SetPrivateKey []) (str "RSA key could not be loaded from DER") /\
  call_refused toy ED25519 (SetPrivateKey (esc "S0VZ")) (str "ED25519 key could not be loaded as Base64") /\
  call_refused toy RSA (SetDomain (esc "ex..org")) (str "Invalid domain (d=)") /\ call_refused toy RSA (SetSelector (esc "-s")) (str "Invalid selector (s=)") /\
  (forall m, ~ call_refused toy RSA (SetDomain (esc "ex.org")) m) /\ forall m, ~ call_refused toy ED25519 (SetPrivateKey ed_key) m.
Proof.
  split; [|split; [|split; [|split; [|split]]]].
  - apply (call_exactly toy _ new_sig_options). split; vm_compute; reflexivity.
  - apply (call_exactly toy _ (so_setalg ED25519 new_sig_options)). split; vm_compute; reflexivity.
  - apply (call_exactly toy _ new_sig_options). split; vm_compute; reflexivity.
  - apply (call_exactly toy _ new_sig_options). split; vm_compute; reflexivity.
  - intros m K. apply (call_exactly toy _ new_sig_options) in K as [K _]. vm_compute in K. discriminate K.
  - intros m K. apply (call_exactly toy _ (so_setalg ED25519 new_sig_options)) in K as [K _]. vm_compute in K. discriminate K.
Qed.

Definition sign_with (d s : string) : tool_args := mkArgs false (str s) (str d) (str "key") (str "rsa") V_DKIM 0 false.
Definition run_letter (a : tool_args) (key message : option bytes) := signing_run toy false (fun _ => 5%Z) a key message.
Lemma run_cases : run_letter (sign_with "ex.org" "s1") None (Some letter) [] (esc "keyfile key could not be open\n") (Exit 1) /\
  run_letter (sign_with "ex..org" "-s") (Some (esc "S0VZ")) (Some letter) [] (esc "Invalid domain (d=)\n") (Exit 1) /\
  run_letter (sign_with "ex..org" "-s") (Some []) (Some letter) [] (esc "RSA key could not be loaded from DER\n") (Exit 1) /\
  run_letter (sign_with "ex.org" "s1") (Some (esc "S0VZ")) (Some cr_letter) [] (esc "CR without matching LF, 0x79 at position 11\n") (Exit 1) /\
  exists out, run_letter (sign_with "ex.org" "s1") (Some (esc "S0VZ")) None out [] (Exit 0).
Proof.
  split; [|split; [|split; [|split]]]; [apply run_exact; split; vm_compute; reflexivity..|].
  eexists. apply run_exact. split; vm_compute; reflexivity.
Qed.
