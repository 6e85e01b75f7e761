(** Specification vocabulary for tag lists (RFC 6376 3.2).  Nothing here refers to the model's
    functions. *)
From Verif Require Import Bytes SpecText.

Definition name_byte (c : ascii) : Prop :=
  between 65 90 c \/ between 97 122 c \/ between 48 57 c \/ c = chr 95.
Definition tag_name (n : bytes) : Prop := n <> [] /\ Forall name_byte n.

(** VALCHAR: printable but not ';'. *)
Definition value_byte (c : ascii) : Prop := printable c /\ c <> SEMI.
(** Empty, or printable bytes with whitespace between them. *)
Definition tag_value (v : bytes) : Prop :=
  Forall (fun c => value_byte c \/ LWSP c) v /\ first_ok value_byte v /\ last_ok value_byte v.

(** [rendered_tags l t]: [t] is a rendering of the tags [l] (names and values in order) with
    whitespace around names, values and separators and an optional final ';'. *)
Inductive rendered_tags : list (bytes * bytes) -> bytes -> Prop :=
| rt_none w : Forall LWSP w -> rendered_tags [] w
| rt_last w1 n w2 w3 v w4 :
    Forall LWSP w1 -> tag_name n -> Forall LWSP w2 -> Forall LWSP w3 -> tag_value v -> Forall LWSP w4 ->
    rendered_tags [(n, v)] (w1 ++ n ++ w2 ++ EQUALS :: w3 ++ v ++ w4)
| rt_more w1 n w2 w3 v w4 l t :
    Forall LWSP w1 -> tag_name n -> Forall LWSP w2 -> Forall LWSP w3 -> tag_value v -> Forall LWSP w4 ->
    rendered_tags l t ->
    rendered_tags ((n, v) :: l) (w1 ++ n ++ w2 ++ EQUALS :: w3 ++ v ++ w4 ++ SEMI :: t).

(** [tag_at n input pre v post]: [input] is [pre], the value [v] of a tag [n], and [post]: the tag
    begins at the start or behind a ';' and its value ends at a ';' or at the end. *)
Definition tag_at (n input pre v post : bytes) : Prop :=
  input = pre ++ v ++ post /\ tag_value v /\
  (exists t w1 w2 w3, pre = t ++ w1 ++ n ++ w2 ++ EQUALS :: w3 /\ (t = [] \/ exists u, t = u ++ [SEMI]) /\
     Forall LWSP w1 /\ Forall LWSP w2 /\ Forall LWSP w3) /\
  (exists w4 r, post = w4 ++ r /\ Forall LWSP w4 /\ (r = [] \/ exists u, r = SEMI :: u)).
