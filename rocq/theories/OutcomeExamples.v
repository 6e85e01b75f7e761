(** Concrete cases for C78. *)
From Verif Require Import VerifyProps Bytes Outcome Stream MailParser Canonicalization Util Crypto PublicKey SignatoryOptions Signatory
  SpecText SpecMail SpecCanon SpecVerify SpecPass SpecSign SpecOutcome BytesFacts MailFacts BodyFacts BodyProps VerifyFacts PassFacts LoneFacts VerifyExamples SignExamples TransportExamples Examples.

Definition sign_lax (o : options) (t : bytes) : outcome bytes :=
  snd (CreateSignature toy false (fun _ => 5%Z) o (new_signatory (open_str t))).
Definition relaxed_rsa (l : list op) : options := with_rsa (SetCanonModeHeader RELAXED :: l).
(** A CR inside the subject. *)
Definition cr_letter : bytes := esc "From: a@ex.org\r\nSubject: x\ry\r\n\r\nhi\r\n".

Lemma full_able : Forall (able toy full) (all_signatures full).
Proof.
  change (all_signatures full) with (o_main full :: [nth 0 (o_more full) new_sig_options]).
  repeat constructor; exists (esc "KEY"); (split; [vm_compute; reflexivity|discriminate]).
Qed.
Lemma full_outcome : exists fs b out, has_fields letter fs /\ message_body letter b /\ canonical_body (is_relaxed (o_cbody full)) b out /\
  (forall i, i < length (all_signatures full) -> in_time full 5) /\ Forall (fun q => able toy full q \/ unable toy full q) (all_signatures full) /\
  (o_signlen full = true -> (o_bodylen full <= N.of_nat (length out))%N) /\ o_chead full = RELAXED /\ without_lone_CR full fs /\
  exists H, sign_lax full letter = Ok H.
Proof.
  destruct letter_parsed as (m & s & P & HM). pose proof letter_body as MB.
  exists (m_headers m), (esc "hi\r\n"), (esc "hi\r\n"). split; [eapply parse_fields; eauto|]. split; auto.
  split. { change (is_relaxed (o_cbody full)) with true. apply canonical_out. vm_compute. reflexivity. }
  split. { intros i _ _. vm_compute. split; discriminate. }
  split. { eapply Forall_impl; [|exact full_able]. auto. }
  split. { intros _. vm_compute. discriminate. }
  split; [vm_compute; reflexivity|]. split; [|eexists; vm_compute; reflexivity]. split; [|split].
  - rewrite HM. intros f K _. apply lone_false. rewrite letter_fields_are in K. destruct K as [<-|[<-|[]]]; vm_compute; reflexivity.
  - change (o_oversign full) with [esc "from"; esc "x-missing"]. intros n [<-|[<-|[]]]; apply lone_false; vm_compute; reflexivity.
  - change (all_signatures full) with (o_main full :: [nth 0 (o_more full) new_sig_options]).
    intros q [<-|[<-|[]]]; rewrite <- !lone_false; vm_compute; auto.
Qed.
Lemma refusals : (exists H, sign_lax (with_rsa []) cr_letter = Ok H) /\ sign_lax (relaxed_rsa []) cr_letter = perm /\
  (exists H, sign_lax (relaxed_rsa [SetHeaders [esc "from"]]) cr_letter = Ok H) /\
  sign_lax (relaxed_rsa [SetOversignHeaders [esc "x\r"]]) letter = perm /\
  sign_lax (with_rsa [SetSignBodyLength 5]) letter = perm /\
  sign_lax (with_rsa [AddAdditionalSignature; OnMore 0 (SetDomain (esc "ex.org")); OnMore 0 (SetSelector (esc "s2"))]) letter = perm /\
  sign_lax new_options letter = perm.
Proof.
  repeat split; try (eexists; vm_compute; reflexivity); vm_compute; reflexivity.
Qed.
