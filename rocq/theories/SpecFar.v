(** Vocabulary for signature fields of any length (for C103). *)
From Verif Require Import Bytes.

(** The length of [pre], modulo 2^32. *)
Definition int_place (pre : bytes) : Z := (Z.of_nat (length pre) mod 4294967296)%Z.
(** [v] without the [n] bytes behind the first [p]. *)
Definition without (v : bytes) (p n : nat) : bytes := firstn p v ++ skipn (p + n) v.
