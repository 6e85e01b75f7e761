(** What relays do to a signed message: fields put in front, other line ends, empty lines at the
    end, fields refolded, whitespace changed. *)
From Verif Require Import Bytes SpecText SpecMail SpecCanon SpecVerify.

(** [t] does not begin in the middle of a field. *)
Definition at_field (t : bytes) : Prop := match t with [] => True | c :: _ => ~ WSP c end.

(** The names [names] do not reach the fields [added] standing in front of the fields [hs]: a
    name of an added field is listed at most as often as [hs] has fields of that name. *)
Definition out_of_reach {A} (name : A -> bytes) (added hs : list A) (names : list bytes) : Prop :=
  forall f, In f added -> occurrences (name f) names <= length (filter (fun h => same_name (name h) (name f)) hs).

(** The same bytes but for CRs, and for empty lines at the end. *)
Definition same_lines (b b' : bytes) : Prop :=
  exists n n', without_cr b ++ repeat LF n = without_cr b' ++ repeat LF n'.

(** The same lines but for whitespace in and at the end of lines, and empty lines at the end. *)
Definition same_words (b b' : bytes) : Prop :=
  exists ls ls' n n', lines_of b ls /\ lines_of b' ls' /\ Forall2 ws_equal (ls ++ repeat [] n) (ls' ++ repeat [] n').

(** Two messages with the same header lines and the same body lines. *)
Inductive other_line_ends : bytes -> bytes -> Prop :=
| ole_intro ls h h' e e' b b' : header_block ls h -> header_block ls h' -> line_end [] e -> line_end [] e' -> same_lines b b' ->
    other_line_ends (h ++ e ++ b) (h' ++ e' ++ b').
