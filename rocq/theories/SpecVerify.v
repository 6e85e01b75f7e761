(** Specification vocabulary for verification (RFC 6376 5.4.2, 6.1).  Nothing here refers to the
    model's functions. *)
From Verif Require Import Bytes SpecText SpecMail SpecCanon.

(** Header field names are compared without regard to case. *)
Definition same_name (a b : bytes) : bool := beqb (map low a) (map low b).

(** [selection name hs [] names]: for the k-th occurrence of a name in [names] the k-th last of
    the fields [hs] with that name (counting from 0), in the order of [names]; nothing when
    there are not that many.  [before] are the names already dealt with. *)
Definition kth_last {A} (name : A -> bytes) (hs : list A) (n : bytes) (k : nat) : option A :=
  nth_error (rev (filter (fun h => same_name (name h) n) hs)) k.
Definition occurrences (n : bytes) (names : list bytes) : nat := length (filter (same_name n) names).
Fixpoint selection {A} (name : A -> bytes) (hs : list A) (before names : list bytes) : list A :=
  match names with
  | [] => []
  | n :: r =>
      match kth_last name hs n (occurrences n before) with Some h => [h] | None => [] end
      ++ selection name hs (before ++ [n]) r
  end.

(** The fields with their positions. *)
Definition numbered {A} (hs : list A) : list (nat * A) := combine (seq 0 (length hs)) hs.

(** [message_body t b]: [b] is the body of the message [t]: what follows the first blank line,
    nothing when there is none. *)
Inductive message_body : bytes -> bytes -> Prop :=
| mb_blank ls h e b : header_block ls h -> line_end [] e -> message_body (h ++ e ++ b) b
| mb_none ls h tail : header_block ls h -> ~ In LF tail -> message_body (h ++ tail) [].

(** l=: the first [size] bytes. *)
Definition cut (limit : bool) (size : N) (x : bytes) : bytes := if limit then firstn (N.to_nat size) x else x.
