(** Property C114: platforms where long has 32 bits. *)
From Verif Require Import Bytes Outcome Stream MailParser Crypto Signature Validatory SpecText SpecTags SpecMail SpecVerify SpecSig Narrow SpecNarrow NarrowFacts NarrowExamples Examples.
Local Open Scope string_scope. Local Open Scope list_scope.

(** With a long of 64 bits the parser is the one of the other theorems. *)
Theorem C114_wide : forall C strict now h st, Signature_Parse_long wide_max C strict now h st = Signature_Parse C strict now h st.
Proof. exact wide_parse. Qed.
Print Assumptions C114_wide.
Example C114_wide_case : read_wide 1 "" = Ok tt /\ read_narrow 1 "" = Ok tt.
Proof. split; vm_compute; reflexivity. Qed.
(** C114.  Until 2038, for fields with lengths below 2^31 and without negative numbers in l= and i=: a long of 32 bits makes no difference. *)
Theorem C114_same_partial : forall C strict now h l e v, (0 <= now <= Z.of_N narrow_max)%Z -> field_tags h l -> modest_numbers l ->
  let r := GetSignature C strict now h (new_signature, e) v in let r' := GetSignature_long narrow_max C strict now h (new_signature, e) v in
  fst (fst r') = fst (fst r) /\ snd r' = snd r /\ (snd r = Ok tt -> fst (snd (fst r')) = fst (snd (fst r))).
Proof. exact narrow_call. Qed.
Print Assumptions C114_same_partial.
Example C114_same_case : exists h l, field_tags h l /\ modest_numbers l /\ has l "x" (str "4294967296") /\ snd (Signature_Parse toy true 2147483647 h (new_signature, false)) = Ok tt.
Proof. exact narrow_fine. Qed.
(** From 2038 on all signatures with x= are refused, whatever it says. *)
Theorem C114_late : forall C strict now h l v e, (Z.of_N narrow_max < now)%Z -> field_tags h l -> has l "x" v ->
  snd (Signature_Parse_long narrow_max C strict now h (new_signature, e)) <> Ok tt.
Proof. exact narrow_late. Qed.
Print Assumptions C114_late.
Theorem C114_late_refuted : exists h l, field_tags h l /\ has l "x" (str "4294967295") /\ lacks l "l" /\ lacks l "i" /\
  snd (Signature_Parse toy true 2147483648 h (new_signature, false)) = Ok tt /\ snd (Signature_Parse_long narrow_max toy true 2147483648 h (new_signature, false)) = perm.
Proof. exact late. Qed.
Print Assumptions C114_late_refuted.
(** Longer bodies are refused; *)
Theorem C114_length : forall C strict now h l v e, field_tags h l -> has l "l" v -> digits v -> (narrow_max < dec_value v)%N ->
  snd (Signature_Parse_long narrow_max C strict now h (new_signature, e)) <> Ok tt.
Proof. exact narrow_length. Qed.
Print Assumptions C114_length.
Theorem C114_length_refuted : exists h l, field_tags h l /\ has l "l" (str "4294967296") /\
  snd (Signature_Parse toy true 1 h (new_signature, false)) = Ok tt /\ snd (Signature_Parse_long narrow_max toy true 1 h (new_signature, false)) = perm.
Proof. exact long_body. Qed.
Print Assumptions C114_length_refuted.
(** negative numbers wrap around to others. *)
Theorem C114_negative_refuted : exists h l, field_tags h l /\ has l "l" (str "-4294967295") /\
  snd (Signature_Parse toy true 1 h (new_signature, false)) = perm /\
  exists g e, Signature_Parse_long narrow_max toy true 1 h (new_signature, false) = ((g, e), Ok tt) /\ sg_limit g = true /\ sg_size g = 1%N.
Proof. exact wrapped. Qed.
Print Assumptions C114_negative_refuted.
