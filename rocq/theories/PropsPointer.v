(** Properties C81, C82: pointers and memory. *)
From Verif Require Import Bytes Outcome Stream MailParser Canonicalization Crypto SignatoryOptions Signatory SignatoryHeap Resolver ResolverPtr
  SpecDns SpecText SpecMail SpecCanon SpecVerify SpecPass SpecSign SpecOutcome SpecHeap BodyFacts ResolverPtrFacts HeapFacts VerifyExamples SignExamples OutcomeExamples ResolverExamples Examples.

(** C81.  [GetTXT_ptr L] is GetTXT with undefined behaviour for each pointer above answer + L.
    Partial: for well-formed responses. *)
Theorem C81_response_partial : forall lax texts pkt, response texts pkt -> (N.of_nat (length pkt) <= 65536)%N ->
  GetTXT_ptr 65536 lax (QAnswer pkt) = Ok (true, concat texts).
Proof. exact ptr_response. Qed.
Print Assumptions C81_response_partial.
Example C81_response_case : exists texts pkt, response texts pkt /\ (N.of_nat (length pkt) <= 65536)%N /\ concat texts = esc "p=ABC".
Proof. eexists. eexists. split; [exact two_records|]. split; [vm_compute; discriminate|reflexivity]. Qed.
(** 24 bytes are enough for a pointer outside of the buffer. *)
Theorem C81_stray_refuted : exists pkt, length pkt = 24 /\ forall lax, GetTXT_ptr 65536 lax (QAnswer pkt) = UB UB_oob_read /\ GetTXT lax (QAnswer pkt) = Ok (false, []).
Proof. exact (ex_intro _ stray_packet stray_refuted). Qed.
Print Assumptions C81_stray_refuted.
(** Where addresses are plain numbers such a response is refused, or yields nothing, *)
Theorem C81_harmless : forall lax q, GetTXT_ptr 65536 lax q = GetTXT lax q \/
  (GetTXT_ptr 65536 lax q = UB UB_oob_read /\ ((exists r, GetTXT lax q = Ok (false, r)) \/
   (GetTXT lax q = Ok (true, []) /\ exists pkt, q = QAnswer pkt /\ (65533 <= N.of_nat (length pkt))%N))).
Proof. exact ptr_stray. Qed.
Print Assumptions C81_harmless.
(** and no pointer is more than 65535 bytes behind the buffer. *)
Theorem C81_bound : forall lax q, GetTXT_ptr 131071 lax q = GetTXT lax q.
Proof. exact ptr_bound. Qed.
Print Assumptions C81_bound.

(** C82.  [CreateSignature_heap] is CreateSignature with what it leaves allocated. *)
Theorem C82_same_result : forall C strict clock o y,
  snd (CreateSignature_heap C strict clock o y []) = snd (CreateSignature C strict clock o y).
Proof. exact (fun C strict clock o y => proj1 (create_heap C strict clock o y)). Qed.
Print Assumptions C82_same_result.
(** Partial: nothing, if it succeeds or header canonicalization is simple; never more than one digest context. *)
Theorem C82_released_partial : forall C strict clock o y, let r := CreateSignature_heap C strict clock o y [] in
  fst r = [] \/ fst r = [FieldCtx] /\ o_chead o = RELAXED /\ forall H, snd r <> Ok H.
Proof. exact (fun C strict clock o y => proj2 (create_heap C strict clock o y)). Qed.
Print Assumptions C82_released_partial.
Theorem C82_left_refuted : exists o, left_by o letter = [FieldCtx].
Proof. exact (ex_intro _ _ left_refuted). Qed.
Print Assumptions C82_left_refuted.
(** Exactly: a context is left when an oversigned name has a lone CR and the signer comes to the field. *)
Theorem C82_exact : forall C clock l t fs b out, has_fields t fs -> message_body t b ->
  let o := run_ops C l new_options in canonical_body (is_relaxed (o_cbody o)) b out -> in_time o (clock 0) ->
  let left := fst (CreateSignature_heap C false clock o (new_signatory (open_str t)) []) in
  (left = [FieldCtx] \/ left = []) /\
  (left = [FieldCtx] <->
   (o_signlen o = true -> (o_bodylen o <= N.of_nat (length out))%N) /\ o_chead o = RELAXED /\ fields_without_CR o fs /\
   exists n, In n (o_oversign o) /\ has_lone_CR n).
Proof. exact create_left. Qed.
Print Assumptions C82_exact.
Example C82_case : left_by full letter = [] /\ left_by (relaxed_rsa []) cr_letter = [] /\ left_by (with_rsa [SetOversignHeaders [esc "x\r"]]) letter = [] /\
  left_by (relaxed_rsa [SetOversignHeaders [esc "x\r"]]) cr_letter = [] /\ left_by new_options letter = [].
Proof. exact left_cases. Qed.
Example C82_exact_case : let o := run_ops toy cr_oversign new_options in exists fs b out, has_fields letter fs /\ message_body letter b /\
  canonical_body (is_relaxed (o_cbody o)) b out /\ in_time o 5 /\ (o_signlen o = true -> (o_bodylen o <= N.of_nat (length out))%N) /\ o_chead o = RELAXED /\
  fields_without_CR o fs /\ exists n, In n (o_oversign o) /\ has_lone_CR n.
Proof. exact left_case. Qed.
