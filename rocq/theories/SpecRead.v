(** Vocabulary for what of a body is read. *)
From Verif Require Import Bytes Outcome MailParser Canonicalization Crypto Signature SpecText SpecCanon.

(** The bytes of the canonical body that are certain after the bytes [a]: all but the last line ending. *)
Definition settled (relaxed : bool) (a : bytes) (n : nat) : Prop := exists out, canonical_body relaxed a out /\ n = length out - 2.

(** The body [b] is read in pieces; [j] of them are enough when there are no more, or with a limit [size] when so
    many bytes are certain, and no fewer are. *)
Definition enough (piece : nat) (relaxed limit : bool) (size : N) (b : bytes) (j : nat) : Prop :=
  length b <= j * piece \/ (limit = true /\ exists n, settled relaxed (firstn (j * piece) b) n /\ (size <= N.of_nat n)%N).
Definition amount (piece : nat) (relaxed limit : bool) (size : N) (b a : bytes) : Prop :=
  exists j, enough piece relaxed limit size b j /\ (forall i, i < j -> ~ enough piece relaxed limit size b i) /\ a = firstn (j * piece) b.

(** The bytes read for one field after the other; [n] counts the fields, [e] is errno before each. *)
Inductive all_reads (C : crypto) (strict : bool) (clock : nat -> Z) (b : bytes) : nat -> bool -> list header -> list bytes -> Prop :=
| ar_end n e : all_reads C strict clock b n e [] []
| ar_taken n e h g e1 a hs l : Signature_Parse C strict (clock n) h (new_signature, e) = ((g, e1), Ok tt) ->
    amount (N.to_nat 8096) (match sg_cbody g with RELAXED => true | SIMPLE => false end) (sg_limit g) (sg_size g) b a ->
    all_reads C strict clock b (S n) e1 hs l -> all_reads C strict clock b n e (h :: hs) (a :: l)
| ar_refused n e h g e1 r hs l : Signature_Parse C strict (clock n) h (new_signature, e) = ((g, e1), r) -> r <> Ok tt ->
    all_reads C strict clock b (S n) e1 hs l -> all_reads C strict clock b n e (h :: hs) l.
