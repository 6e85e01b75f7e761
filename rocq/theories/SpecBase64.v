(** Base64 as RFC 4648 section 4 describes it: the bits of the data in groups of six, each written
    as a letter.  Nothing here refers to the model's functions. *)
From Verif Require Import Bytes.

(** The six bit number that a letter stands for. *)
Definition letter_value (c : ascii) (n : N) : Prop :=
  ((65 <= code c <= 90 /\ n = code c - 65) \/ (97 <= code c <= 122 /\ n = code c - 71) \/
   (48 <= code c <= 57 /\ n = code c + 4) \/ (code c = 43 /\ n = 62) \/ (code c = 47 /\ n = 63))%N.

(** The [w] lowest bits of [n], the highest of them first. *)
Fixpoint bits (w : nat) (n : N) : list bool :=
  match w with O => [] | S v => N.testbit n (N.of_nat v) :: bits v n end.

(** [b64_text d t]: [t] is the encoding of [d]: zero bits fill the last group, and '=' stands for
    each two of them. *)
Definition b64_text (d t : bytes) : Prop :=
  exists ls ns p, p < 3 /\ t = ls ++ repeat EQUALS p /\ Forall2 letter_value ls ns /\
    flat_map (bits 6) ns = flat_map (fun c => bits 8 (code c)) d ++ repeat false (2 * p).
