(** Canonicalization as in RFC 6376 3.4, stated without reference to the model's functions. *)
From Verif Require Import Bytes SpecText SpecMail.

(** ** Body (3.4.3, 3.4.4) *)

Definition without_cr (b : bytes) : bytes := filter (fun c => negb (c =?c CR)) b.

(** Lines separated by LF. *)
Fixpoint lf_joined (ls : list bytes) : bytes :=
  match ls with
  | [] => []
  | [l] => l
  | l :: ls' => l ++ LF :: lf_joined ls'
  end.

(** [lines_of b ls]: [ls] are the lines of [b]; CR is ignored; the last one is what follows the last LF. *)
Definition lines_of (b : bytes) (ls : list bytes) : Prop :=
  ls <> [] /\ Forall (fun l => ~ In LF l) ls /\ lf_joined ls = without_cr b.

(** One line in relaxed form: runs of WSP become one space, WSP at the end disappears. *)
Inductive relaxed_line : bytes -> bytes -> Prop :=
| rel_end w : Forall WSP w -> relaxed_line w []
| rel_char c l l' : ~ WSP c -> relaxed_line l l' -> relaxed_line (c :: l) (c :: l')
| rel_run w c l l' : w <> [] -> Forall WSP w -> ~ WSP c -> relaxed_line (c :: l) l' ->
    relaxed_line (w ++ c :: l) (SP :: l').

Definition canon_lines (relaxed : bool) (ls ls' : list bytes) : Prop :=
  if relaxed then Forall2 relaxed_line ls ls' else ls' = ls.

Inductive canonical_body (relaxed : bool) (b : bytes) : bytes -> Prop :=
| cb_empty ls n : lines_of b ls -> canon_lines relaxed ls (repeat [] n) ->
    canonical_body relaxed b (if relaxed then [] else CRLF)
| cb_lines ls k l n : lines_of b ls -> canon_lines relaxed ls (k ++ l :: repeat [] n) -> l <> [] ->
    canonical_body relaxed b (with_crlf (k ++ [l])).

(** Two lines that differ only in the amount of WSP between words and in WSP at the end. *)
Inductive ws_equal : bytes -> bytes -> Prop :=
| we_end w w' : Forall WSP w -> Forall WSP w' -> ws_equal w w'
| we_char c l l' : ~ WSP c -> ws_equal l l' -> ws_equal (c :: l) (c :: l')
| we_run w w' c l l' : w <> [] -> w' <> [] -> Forall WSP w -> Forall WSP w' -> ~ WSP c ->
    ws_equal (c :: l) (c :: l') -> ws_equal (w ++ c :: l) (w' ++ c :: l').

(** The bytes that are not whitespace. *)
Definition visible (b : bytes) : bytes :=
  filter (fun c => negb ((c =?c SP) || (c =?c HT) || (c =?c CR) || (c =?c LF))) b.

(** ** Header fields (3.4.2) *)

(** [unfolded t u]: each whitespace run of [t] (WSP and folds) is one space in [u], and
    whitespace at the end is dropped.  Defined when every CR starts a fold. *)
Inductive unfolded : bytes -> bytes -> Prop :=
| unf_end w : FWSs w -> unfolded w []
| unf_char c t u : ~ WSP c -> c <> CR -> unfolded t u -> unfolded (c :: t) (c :: u)
| unf_run w c t u : w <> [] -> FWSs w -> ~ WSP c -> c <> CR -> unfolded (c :: t) u ->
    unfolded (w ++ c :: t) (SP :: u).

(** ASCII lower case. *)
Definition low (c : ascii) : ascii := if ((65 <=? code c) && (code c <=? 90))%N then chr (code c + 32) else c.

(** [relaxed_field t n out]: [t] is a header field with the name [n] and the relaxed form [out].
    The name may contain anything but a colon. *)
Inductive relaxed_field : bytes -> bytes -> bytes -> Prop :=
| rf_intro n n' w1 w2 v v' : n <> [] -> ~ In COLON n -> last_ok (fun c => ~ WSP c) n -> unfolded (map low n) n' ->
    FWSs w1 -> FWSs w2 -> first_ok (fun c => ~ WSP c /\ c <> CR) v -> unfolded v v' ->
    relaxed_field (n ++ w1 ++ COLON :: w2 ++ v) n (n' ++ COLON :: v').

(** Every CRLF is followed by WSP. *)
Definition crlf_folds (t : bytes) : Prop := forall a b, t = a ++ CRLF ++ b -> exists c r, b = c :: r /\ WSP c.
(** [t] has an empty or blank name. *)
Definition blank_name (t : bytes) : Prop := exists w r, FWSs w /\ t = w ++ COLON :: r.

(** Texts that differ only in folding and in the amount of whitespace between words. *)
Inductive refolded : bytes -> bytes -> Prop :=
| re_end w w' : FWSs w -> FWSs w' -> refolded w w'
| re_char c t t' : ~ WSP c -> c <> CR -> refolded t t' -> refolded (c :: t) (c :: t')
| re_run w w' c t t' : w <> [] -> w' <> [] -> FWSs w -> FWSs w' -> ~ WSP c -> c <> CR ->
    refolded (c :: t) (c :: t') -> refolded (w ++ c :: t) (w' ++ c :: t').
Inductive same_field : bytes -> bytes -> Prop :=
| sf_intro n m w1 w2 w3 w4 v v' :
    n <> [] -> ~ In COLON n -> last_ok (fun c => ~ WSP c) n ->
    m <> [] -> ~ In COLON m -> last_ok (fun c => ~ WSP c) m ->
    first_ok (fun c => ~ WSP c /\ c <> CR) v -> first_ok (fun c => ~ WSP c /\ c <> CR) v' ->
    FWSs w1 -> FWSs w2 -> FWSs w3 -> FWSs w4 ->
    refolded (map low n) (map low m) -> refolded v v' ->
    same_field (n ++ w1 ++ COLON :: w2 ++ v) (m ++ w3 ++ COLON :: w4 ++ v').

(** A field as it stands in a message: it does not begin with WSP and every LF in it is
    followed by WSP. *)
Definition lf_folds (t : bytes) : Prop := forall a b, t = a ++ LF :: b -> exists c r, b = c :: r /\ WSP c.
Definition begins_field (t : bytes) : Prop := exists c r, t = c :: r /\ ~ WSP c.

(** [field_form relaxed t out]: [out] is the canonical form of the field [t] (for a field without
    a name, which RFC 5322 does not allow, any). *)
Definition field_form (relaxed : bool) (t out : bytes) : Prop :=
  if relaxed then (exists n, relaxed_field t n out) \/ blank_name t else out = t.
