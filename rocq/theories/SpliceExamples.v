(** Concrete cases for C113. *)
From Verif Require Import Bytes Outcome Stream MailParser Crypto Signature PublicKey Validatory SpecText SpecMail SpecVerify SpecSplice SpliceFacts VerifyProps Examples VerifyExamples.

(** All calls a verifier makes, the file being replaced as soon as the header has been read. *)
Definition verify_replaced (C : crypto) (strict : bool) (t1 t2 record : bytes) : outcome unit :=
  let* v := new_validatory strict V_DKIM (open_str t1) in
  match v_sigs v with
  | [] => perm
  | h :: _ =>
      let '(v1, st1, o) := GetSignature C strict 1 h (new_signature, false) (mkVal (v_msg v) (open_str t2) (v_sigs v)) in
      let* _ := o in
      let '(p, o1) := GetPublicKey C strict (fun _ => Ok (true, record)) (fst st1) new_public_key in
      let* _ := o1 in
      CheckSignature C strict h (fst st1) p v1
  end.
Definition other_from : bytes := esc "From: b@ex.org".
Definition signed_head : bytes := sample_field "rsa-sha256" rsa_b ++ CRLF ++ sample_from ++ CRLF ++ CRLF.
Definition first_file : bytes := signed_head ++ esc "ho\r\n".
Definition second_file : bytes := sample_field "rsa-sha256" rsa_b ++ CRLF ++ other_from ++ CRLF ++ CRLF ++ sample_body.
Lemma mixed : verify toy true first_file rsa_record = perm_fail /\ verify toy true second_file rsa_record = perm_fail /\
  verify_replaced toy true first_file second_file rsa_record = Ok tt.
Proof. split; [vm_compute; reflexivity|]. split; vm_compute; reflexivity. Qed.
Lemma mixed_text : spliced (esc "A: b\r\n\r\nold") (esc "X: yy\n\n\nnew") (esc "A: b\r\n\r\n" ++ esc "new").
Proof.
  assert (S : spliced (esc "A: b\r\n" ++ CRLF ++ esc "old") (esc "X: yy\n\n\nnew") (esc "A: b\r\n" ++ CRLF ++ skipn (length (esc "A: b\r\n" ++ CRLF)) (esc "X: yy\n\n\nnew"))).
  { apply (sp_blank [esc "A: b"]); [|apply le_crlf]. change (esc "A: b\r\n") with (esc "A: b" ++ CRLF ++ []). apply hb_cons; [discriminate| |apply le_crlf|apply hb_nil].
    intros I. repeat destruct I as [I|I]; [discriminate I..|destruct I]. }
  exact S.
Qed.
Lemma mixed_accepted : exists C strict t1 t2 record, verify C strict t1 record = perm_fail /\ verify C strict t2 record = perm_fail /\
  verify_replaced C strict t1 t2 record = Ok tt.
Proof. exists toy, true, first_file, second_file, rsa_record. exact mixed. Qed.
