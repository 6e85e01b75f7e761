(** Property C113: messages that change while they are checked. *)
From Verif Require Import Bytes Outcome Stream MailParser Crypto Signature PublicKey Validatory VerifyProps SpecText SpecMail SpecVerify SpecSplice SpliceFacts SpliceExamples Examples VerifyExamples.

(** C113.  If the file has other contents at each call, then each answer is the one for the message with the header of the
    file as it was when the verifier was made, and the body that the file has at the call. *)
Theorem C113_splice : forall C strict ty t1 v, new_validatory strict ty (open_str t1) = Ok v -> forall l,
  Forall2 (fun q a => let '(t2, e, c) := q in forall t, spliced t1 t2 t ->
    exists v', new_validatory strict ty (open_str t) = Ok v' /\ a = snd (perform C strict e c v')) l (answers_over C strict v l).
Proof. exact splice_answers. Qed.
Print Assumptions C113_splice.
Example C113_splice_case : exists v, new_validatory true V_DKIM (open_str first_file) = Ok v /\ length (v_sigs v) = 1 /\ length (m_headers (v_msg v)) = 2.
Proof. eexists. split; [vm_compute; reflexivity|]. split; reflexivity. Qed.
(** There is exactly one such message, whatever the two contents are. *)
Theorem C113_total : forall t1 t2, exists t, spliced t1 t2 t.
Proof. exact spliced_total. Qed.
Print Assumptions C113_total.
Example C113_total_case : spliced (esc "A: b\r\n\r\nold") (esc "X: yy\n\n\nnew") (esc "A: b\r\n\r\n" ++ esc "new").
Proof. exact mixed_text. Qed.
Theorem C113_once : forall t1 t2 t t', spliced t1 t2 t -> spliced t1 t2 t' -> t' = t.
Proof. exact spliced_once. Qed.
Print Assumptions C113_once.
Example C113_once_case : spliced (esc "A: b\r\n\r\nold") (esc "X: yy\n\n\nnew") (esc "A: b\r\n\r\n" ++ esc "new").
Proof. exact mixed_text. Qed.
(** So a signature can be accepted though neither of the two contents has a valid one. *)
Theorem C113_refuted : exists C strict t1 t2 record, verify C strict t1 record = perm_fail /\ verify C strict t2 record = perm_fail /\
  verify_replaced C strict t1 t2 record = Ok tt.
Proof. exact mixed_accepted. Qed.
Print Assumptions C113_refuted.
