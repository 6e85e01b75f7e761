(** C103: signature fields of any length. *)
From Verif Require Import Bytes Outcome Stream Tokenizer Base64 TagList MailParser Canonicalization Util Crypto Signature
  PublicKey Validatory SpecText SpecMail SpecCanon SpecTags SpecVerify SpecSig SpecKey SpecTool SelectFacts VerifyProps Tool SpecFar FarFacts SpecChecked FarMore Examples VerifyExamples FarExamples.
Local Open Scope string_scope. Local Open Scope list_scope.

(** How the check ends, by the place of the b= value modulo 2^32; from 2^31 on std::out_of_range leaves CheckSignature. *)
Theorem C103_exact : forall C strict now h e0 g e1 pre b post, Signature_Parse C strict now h (new_signature, e0) = ((g, e1), Ok tt) ->
  tag_at (str "b") (skipn (h_voff h) (h_text h)) pre b post -> forall st r p0 p v, PublicKey_Parse C st r p0 = (p, Ok tt) ->
  forall o, CheckSignature C false h g p v = o <-> checked C h g p v pre b o.
Proof. exact far_exact. Qed.
Print Assumptions C103_exact.
(** Below 2 GiB this is the field without the b= value. *)
Theorem C103_near : forall pre b post : bytes, (Z.of_nat (length pre) < 2147483648)%Z ->
  int_place pre = Z.of_nat (length pre) /\ without (pre ++ b ++ post) (Z.to_nat (int_place pre)) (length b) = pre ++ post.
Proof. exact near_without. Qed.
Print Assumptions C103_near.
Example C103_case : exists pre b post, tag_at (str "b") (skipn 15 (far_field (str "a"))) pre b post /\ int_place pre = 100%Z.
Proof. exact near_case. Qed.
(** A run of the program that ends in std::terminate. *)
Theorem C103_ends_refuted : exists t,
  tool_main toy false (fun _ => 1%Z) (fun _ => Ok (true, rsa_record)) (fun _ => Some t) [str "-v"; str "file"] = (P_lines [], Uncaught StdOutOfRange).
Proof. exact far_ends. Qed.
Print Assumptions C103_ends_refuted.
(** From 4 GiB on other bytes than the b= value are left out. *)
Theorem C103_place_refuted : exists pre b post : bytes, (int_place pre < 2147483648)%Z /\
  without (pre ++ b ++ post) (Z.to_nat (int_place pre)) (length b) <> pre ++ post.
Proof. exact wrap_other. Qed.
Print Assumptions C103_place_refuted.
