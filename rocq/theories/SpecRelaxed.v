(** The relaxed form of any text, also of one that RFC 6376 does not provide for: with line breaks that are no folds,
    and with a blank name.  Nothing here refers to the model's functions. *)
From Verif Require Import Bytes SpecText SpecCanon.

(** WSP, CRLF and then no WSP: a line break that is no fold. *)
Definition breaks_line (r : bytes) : Prop := exists u z, r = u ++ CRLF ++ z /\ Forall WSP u /\ first_ok (fun c => ~ WSP c) z.

(** Whitespace runs become one space, or nothing at the end; a line break that is no fold stays as it is, with
    the WSP in front of it. *)
Inductive unfolds : bytes -> bytes -> Prop :=
| ul_end w : FWSs w -> unfolds w []
| ul_char c t u : ~ WSP c -> c <> CR -> unfolds t u -> unfolds (c :: t) (c :: u)
| ul_break c t u : breaks_line (c :: t) -> unfolds t u -> unfolds (c :: t) (c :: u)
| ul_run w c t u : w <> [] -> FWSs w -> ~ WSP c -> (c <> CR \/ In CR w /\ breaks_line (c :: t)) -> unfolds (c :: t) u ->
    unfolds (w ++ c :: t) (SP :: u).

(** The spaces around the colon go; those of a name that has nothing else stay. *)
Inductive trimmed_name : bytes -> bytes -> Prop :=
| tn_some y k : y <> [] -> last_ok (fun c => c <> SP) y -> trimmed_name (y ++ repeat SP k) y
| tn_blank k : trimmed_name (repeat SP k) (repeat SP k).
Inductive relaxed_text : bytes -> bytes -> Prop :=
| rt_intro n v y y' k z : ~ In COLON n -> ~ In COLON y -> unfolds (map low n ++ COLON :: v) (y ++ COLON :: repeat SP k ++ z) ->
    first_ok (fun c => c <> SP) z -> trimmed_name y y' -> relaxed_text (n ++ COLON :: v) (y' ++ COLON :: z).
(** The canonical form of the text [t]. *)
Definition text_form (relaxed : bool) (t out : bytes) : Prop := if relaxed then relaxed_text t out else out = t.
