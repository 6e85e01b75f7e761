(** Specification vocabulary for messages (RFC 5322 2.1-2.2).  Nothing here refers to the
    model's functions. *)
From Verif Require Import Bytes SpecText.

(** A line end: CRLF behind anything, a bare LF only behind a line that does not end in CR. *)
Inductive line_end : bytes -> bytes -> Prop :=
| le_crlf l : line_end l CRLF
| le_lf l : last_ok (fun c => c <> CR) l -> line_end l [LF].

(** [header_block ls h]: [h] consists of the non-empty lines [ls], each with a line end. *)
Inductive header_block : list bytes -> bytes -> Prop :=
| hb_nil : header_block [] []
| hb_cons l e ls t : l <> [] -> ~ In LF l -> line_end l e -> header_block ls t ->
    header_block (l :: ls) (l ++ e ++ t).

(** The same lines, each ended by CRLF. *)
Definition with_crlf (ls : list bytes) : bytes := concat (map (fun l => l ++ CRLF) ls).

(** Lines of one header field: joined by CRLF. *)
Fixpoint joined (g : list bytes) : bytes :=
  match g with
  | [] => []
  | [l] => l
  | l :: g' => l ++ CRLF ++ joined g'
  end.

Definition continuation (l : bytes) : Prop := exists c r, l = c :: r /\ WSP c.

(** A header field's lines: one line, then continuation lines. *)
Definition field_lines (g : list bytes) : Prop :=
  match g with [] => False | _ :: rest => Forall continuation rest end.
Definition starts_field (g : list bytes) : Prop :=
  match g with [] => False | l :: _ => ~ continuation l end.

(** [named t n v]: the field text [t] has the name [n] and its value starts at [v]
    (0 and the empty name when there is no colon). *)
Inductive named : bytes -> bytes -> nat -> Prop :=
| named_none t : ~ In COLON t -> named t [] 0
| named_colon w1 n w2 rest : ~ In COLON (w1 ++ n ++ w2) -> Forall WSP w1 -> Forall WSP w2 -> trimmed n ->
    named ((w1 ++ n ++ w2) ++ COLON :: rest) n (S (length (w1 ++ n ++ w2))).

(** The line [l] that the text [t] behind the last line end stands for. *)
Definition last_line (t l : bytes) : Prop :=
  ~ In LF t /\ (t = l ++ [CR] \/ (t = l /\ last_ok (fun c => c <> CR) t)).
Definition opt_line (l : bytes) : list bytes := match l with [] => [] | _ => [l] end.
