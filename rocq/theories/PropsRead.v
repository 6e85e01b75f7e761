(** Property C104: how much of the body is read. *)
From Verif Require Import Bytes Outcome Stream MailParser Canonicalization Crypto Signature Validatory SpecText SpecMail SpecCanon SpecVerify SpecRead
  BodyWork BodyFacts ReadFacts ReadMany Examples VerifyExamples.

(** One check, wherever the stream stood before: the body in pieces of 8096 bytes, as few as will do; [body_work]
    counts these bytes. *)
Theorem C104_read : forall s mode pre b limit size, rev (s_prev s) ++ s_rest s = pre ++ b ->
  exists calls r s' a, CanonicalizationBody s mode (Z.of_nat (length pre)) limit size = Ok (calls, r, s') /\
    amount (N.to_nat 8096) (match mode with RELAXED => true | SIMPLE => false end) limit size b a /\ rev (s_prev s') = pre ++ a /\
    body_work s mode (Z.of_nat (length pre)) limit size = length a.
Proof. exact body_reads. Qed.
Print Assumptions C104_read.
Theorem C104_one : forall piece r limit size b a a', amount piece r limit size b a -> amount piece r limit size b a' -> a = a'.
Proof. exact amount_unique. Qed.
Print Assumptions C104_one.
(** Without l= all of it. *)
Theorem C104_whole : forall piece r size b a, amount piece r false size b a -> a = b.
Proof. exact amount_whole. Qed.
Print Assumptions C104_whole.
(** With l= less than a piece more than what makes l bytes certain. *)
Theorem C104_limit : forall piece r size b a, 0 < piece -> amount piece r true size b a ->
  forall q n, settled r (firstn q b) n -> (size <= N.of_nat n)%N -> length a < q + piece.
Proof. exact overshoot. Qed.
Print Assumptions C104_limit.
Example C104_case : let s n := open_str (esc "A: b\r\n\r\n" ++ repeat (chr 97) (N.to_nat n)) in
  body_work (s 30%N) SIMPLE 8 true 1 = 30 /\ body_work (s 30%N) SIMPLE 8 true 0 = 0 /\ body_work (s 8100%N) SIMPLE 8 false 1 = N.to_nat 8100.
Proof. vm_compute. repeat split. Qed.

(** All signatures of a message: once for every field that parses. *)
Theorem C104_exact : forall C strict clock ty e t v b, new_validatory strict ty (open_str t) = Ok v -> message_body t b ->
  exists l, all_reads C strict clock b 0 e (v_sigs v) l /\ (forall l', all_reads C strict clock b 0 e (v_sigs v) l' -> l' = l) /\
    verify_work C strict clock ty e t = length (concat l).
Proof. exact verify_reads. Qed.
Print Assumptions C104_exact.
Theorem C104_fields_partial : forall C strict clock ty e t v b, new_validatory strict ty (open_str t) = Ok v -> message_body t b ->
  verify_work C strict clock ty e t <= length (v_sigs v) * length b.
Proof. exact verify_bound. Qed.
Print Assumptions C104_fields_partial.
(** So that it is not proportional to the message; the fields need not even have the right hash. *)
Theorem C104_linear_refuted : forall k, exists t, k * length t < verify_work toy false (fun _ => 5%Z) V_DKIM false t.
Proof. exact read_unbounded. Qed.
Print Assumptions C104_linear_refuted.
Theorem C104_product_refuted : forall clock e n b, let t := long_message n b in
  length t = 116 * n + 18 + length b /\ verify_work toy false clock V_DKIM e t = n * length b.
Proof. exact (fun clock e n b => conj (long_length n b) (long_work clock e n b)). Qed.
Print Assumptions C104_product_refuted.
