(** Property C97: the fields that signing produces, byte by byte. *)
From Verif Require Import Bytes Outcome Stream MailParser Canonicalization Util Crypto SignatoryOptions Signatory
  SpecText SpecMail SpecCanon SpecVerify SpecPass SpecSign SpecMade BodyFacts MadeFacts MadeExamples VerifyExamples SignExamples OutcomeExamples Examples.

(** C97.  CreateSignature returns the text that the specification describes, whenever there is one, and no other.  [strict]
    is the reading of ISO C in which tolower of a negative char is undefined; then names are ASCII. *)
Theorem C97_exact : forall C strict clock o t fs b out H, has_fields t fs -> message_body t b -> canonical_body (is_relaxed (o_cbody o)) b out ->
  snd (CreateSignature C strict clock o (new_signatory (open_str t))) = Ok H <->
  all_made C o clock fs out H /\ (strict = true -> Forall (Forall (fun c => (code c < 128)%N)) (o_headers o ++ o_oversign o ++ map h_name fs)).
Proof. exact create_exactly. Qed.
Print Assumptions C97_exact.
Example C97_case : exists fs b out, has_fields letter fs /\ message_body letter b /\ canonical_body (is_relaxed (o_cbody full)) b out /\
  all_made toy full (fun _ => 5%Z) fs out full_made_text /\ ~ all_made toy full (fun _ => 6%Z) fs out full_made_text.
Proof. exact full_made. Qed.
Example C97_case_text : full_made_text = esc "DKIM-Signature: v=1; a=rsa-sha1; c=relaxed/relaxed; t=5; x=15;\r\n\td=ex.org; s=s2; i=me@sub.ex.org; l=3;\r\n\th=subject:from:from:x-missing;\r\n\tbh=+uYwV7WXJWEAAAAAAAAAAAAAAAA=;\r\n\tb=Ac9Bp4vA2lTmi4lLrKFDW8kQo/5GS0VZ\r\nDKIM-Signature: v=1; a=rsa-sha1; c=relaxed/relaxed; t=5; x=15;\r\n\td=ex.org; s=s1; i=me@sub.ex.org; l=3;\r\n\th=subject:from:from:x-missing;\r\n\tbh=+uYwV7WXJWEAAAAAAAAAAAAAAAA=;\r\n\tb=AWZ97aw2uJvdyKc+qWxqb3Yf1qwnS0VZ".
Proof. reflexivity. Qed.
(** The lines of h= and of b=. *)
Example C97_case_lines : h_field [esc "received"; esc "x-" ++ repeat (chr 97) 67; esc "to"; repeat (chr 98) 90; esc "from"]
  (esc "\th=received:\r\n\t x-" ++ repeat (chr 97) 67 ++ esc ":to:\r\n\t " ++ repeat (chr 98) 90 ++ esc ":\r\n\t from") /\
  b_lines 77 (repeat (chr 65) 156) (repeat (chr 65) 77 ++ esc "\r\n\t " ++ repeat (chr 65) 78 ++ esc "\r\n\t " ++ [chr 65]).
Proof. split; [apply h_exact|apply b_exact]; vm_compute; reflexivity. Qed.
