(** Specification vocabulary for platforms with a narrow long. *)
From Verif Require Import Bytes SpecText SpecTags SpecCanon SpecVerify SpecSig.

Definition narrow_max : N := 2147483647%N.
Definition wide_max : N := 9223372036854775807%N.

(** No negative numbers in l= and i=, and in l= none of 2^31 or more. *)
Record modest_numbers (l : list (bytes * bytes)) : Prop := {
  mn_l : forall v neg m, has l "l" v -> starts_number v neg m -> neg = false /\ (m <= narrow_max)%N;
  mn_i : forall v neg m, has l "i" v -> starts_number v neg m -> neg = false }.
