(** Examples for C97. *)
From Verif Require Import Bytes Outcome Stream MailParser Canonicalization Util Crypto SignatoryOptions Signatory
  SpecText SpecMail SpecCanon SpecVerify SpecPass SpecSign SpecMade BodyFacts MadeFacts VerifyExamples SignExamples OutcomeExamples Examples.
Local Open Scope string_scope.

Definition full_made_text : bytes := esc "DKIM-Signature: v=1; a=rsa-sha1; c=relaxed/relaxed; t=5; x=15;\r\n\td=ex.org; s=s2; i=me@sub.ex.org; l=3;\r\n\th=subject:from:from:x-missing;\r\n\tbh=+uYwV7WXJWEAAAAAAAAAAAAAAAA=;\r\n\tb=Ac9Bp4vA2lTmi4lLrKFDW8kQo/5GS0VZ\r\nDKIM-Signature: v=1; a=rsa-sha1; c=relaxed/relaxed; t=5; x=15;\r\n\td=ex.org; s=s1; i=me@sub.ex.org; l=3;\r\n\th=subject:from:from:x-missing;\r\n\tbh=+uYwV7WXJWEAAAAAAAAAAAAAAAA=;\r\n\tb=AWZ97aw2uJvdyKc+qWxqb3Yf1qwnS0VZ".
Lemma full_made : exists fs b out, has_fields letter fs /\ message_body letter b /\ canonical_body (is_relaxed (o_cbody full)) b out /\
  all_made toy full (fun _ => 5%Z) fs out full_made_text /\ ~ all_made toy full (fun _ => 6%Z) fs out full_made_text.
Proof.
  destruct full_outcome as (fs & b & out & HF & MB & CB & _). exists fs, b, out. split; [exact HF|]. split; [exact MB|]. split; [exact CB|]. split.
  - apply (create_made toy (fun _ => 5%Z) full letter fs b out full_made_text HF MB CB). vm_compute. reflexivity.
  - intros K. apply (create_made toy (fun _ => 6%Z) full letter fs b out full_made_text HF MB CB) in K. vm_compute in K. discriminate K.
Qed.
