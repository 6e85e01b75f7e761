(** Specification vocabulary for text: whitespace classes (RFC 5234, RFC 6376 2.8), quoted
    printable (RFC 6376 2.11), base64 alphabet (RFC 4648).  Nothing here refers to the model. *)
From Verif Require Import Bytes.

(** A byte between two byte values. *)
Definition between (lo hi : N) (c : ascii) : Prop := (lo <= code c /\ code c <= hi)%N.

Definition WSP (c : ascii) : Prop := c = SP \/ c = HT.
Definition LWSP (c : ascii) : Prop := c = SP \/ c = HT \/ c = CR \/ c = LF.

(** Folding whitespace: [WSP*] or [WSP* CRLF WSP+]; not empty. *)
Inductive FWS : bytes -> Prop :=
| FWS_plain w : Forall WSP w -> w <> [] -> FWS w
| FWS_fold w1 w2 : Forall WSP w1 -> Forall WSP w2 -> w2 <> [] -> FWS (w1 ++ CRLF ++ w2).

(** Any amount of folding whitespace, possibly none. *)
Inductive FWSs : bytes -> Prop :=
| FWSs_nil : FWSs []
| FWSs_cons w r : FWS w -> FWSs r -> FWSs (w ++ r).

(** A CR that is not followed by LF. *)
Inductive lone_CR_first : bytes -> Prop :=
| lone_end : lone_CR_first [CR]
| lone_other c r : c <> LF -> lone_CR_first (CR :: c :: r).

Definition printable (c : ascii) : Prop := between 33 126 c.

(** The value of an upper-case hexadecimal digit. *)
Inductive hex_digit : ascii -> N -> Prop :=
| hex_09 c : between 48 57 c -> hex_digit c (code c - 48)
| hex_AF c : between 65 70 c -> hex_digit c (code c - 55).

(** [qp_text us s d]: the quoted-printable text [s] denotes the bytes [d]; [us]: '_' is a space. *)
Inductive qp_text (us : bool) : bytes -> bytes -> Prop :=
| qp_end : qp_text us [] []
| qp_under s d : us = true -> qp_text us s d -> qp_text us (chr 95 :: s) (SP :: d)
| qp_char c s d : printable c -> c <> SEMI -> c <> EQUALS -> (us = true -> c <> chr 95) ->
    qp_text us s d -> qp_text us (c :: s) (c :: d)
| qp_hex h1 h2 a b s d : hex_digit h1 a -> hex_digit h2 b ->
    qp_text us s d -> qp_text us (EQUALS :: h1 :: h2 :: s) (chr (16 * a + b) :: d)
| qp_space w s d : FWS w -> qp_text us s d -> qp_text us (w ++ s) d.

(** The base64 characters, with padding. *)
Definition b64_letter (c : ascii) : Prop :=
  between 65 90 c \/ between 97 122 c \/ between 48 57 c \/ c = chr 43 \/ c = chr 47 \/ c = EQUALS.

(** [spaced p s t]: [t] is [s] with bytes satisfying [p] inserted anywhere. *)
Inductive spaced (p : ascii -> Prop) : bytes -> bytes -> Prop :=
| spaced_nil : spaced p [] []
| spaced_keep c s t : spaced p s t -> spaced p (c :: s) (c :: t)
| spaced_ins c s t : p c -> spaced p s t -> spaced p s (c :: t).

(** Colon-separated lists, RFC 6376 3.5 (h=) with any amount of folding whitespace. *)
Definition first_ok (P : ascii -> Prop) (s : bytes) : Prop := match s with [] => True | c :: _ => P c end.
Definition last_ok (P : ascii -> Prop) (s : bytes) : Prop := first_ok P (rev s).

(** No whitespace at either end. *)
Definition trimmed (s : bytes) : Prop := first_ok (fun c => ~ WSP c) s /\ last_ok (fun c => ~ WSP c) s.

(** A list item: not empty, no ':' and no CR, no surrounding whitespace. *)
Definition list_item (v : bytes) : Prop :=
  v <> [] /\ ~ In COLON v /\ ~ In CR v /\ trimmed v.

Inductive rendered_list : list bytes -> bytes -> Prop :=
| rl_none w : FWSs w -> rendered_list [] w
| rl_last w1 v w2 : FWSs w1 -> list_item v -> FWSs w2 -> rendered_list [v] (w1 ++ v ++ w2)
| rl_more w1 v w2 vs t : FWSs w1 -> list_item v -> FWSs w2 -> vs <> [] -> rendered_list vs t ->
    rendered_list (v :: vs) (w1 ++ v ++ w2 ++ COLON :: t).

(** Every CRLF is followed by WSP, as in an unfolded header field. *)
Definition folds_only (s : bytes) : Prop :=
  forall a b, s = a ++ CRLF ++ b -> match b with [] => False | c :: _ => WSP c end.

(** The lists that ValueList takes: like [rendered_list], but an item may be folded inside and a ':'
    may end the list.  [item_text v]: [v] ends in a byte that is not whitespace. *)
Definition item_byte (c : ascii) : Prop := ~ WSP c /\ c <> CR /\ c <> COLON.
Inductive item_text : bytes -> Prop :=
| it_last c : item_byte c -> item_text [c]
| it_byte c v : item_byte c -> item_text v -> item_text (c :: v)
| it_wsp c v : WSP c -> item_text v -> item_text (c :: v)
| it_fold c v : WSP c -> item_text v -> item_text (CR :: LF :: c :: v).
Definition folded_item (v : bytes) : Prop := item_text v /\ first_ok item_byte v.
Inductive list_text : list bytes -> bytes -> Prop :=
| lt_none w : FWSs w -> list_text [] w
| lt_last w1 v w2 : FWSs w1 -> folded_item v -> FWSs w2 -> list_text [v] (w1 ++ v ++ w2)
| lt_more w1 v w2 vs t : FWSs w1 -> folded_item v -> FWSs w2 -> list_text vs t -> list_text (v :: vs) (w1 ++ v ++ w2 ++ COLON :: t).

(** The same for every text: a CRLF without WSP behind it belongs to an item, with the WSP in front
    of it.  [wide_text z v]: the text [v] of an item in front of [z]; it does not end in whitespace,
    unless in such a CRLF.  [opens w v z]: such an item begins behind the whitespace [w]. *)
Definition no_wsp (z : bytes) : Prop := first_ok (fun c => ~ WSP c) z.
Inductive wide_text (z : bytes) : bytes -> Prop :=
| wt_last c : item_byte c -> wide_text z [c]
| wt_end : no_wsp z -> wide_text z CRLF
| wt_byte c v : item_byte c \/ WSP c -> wide_text z v -> wide_text z (c :: v)
| wt_crlf v : wide_text z v -> wide_text z (CR :: LF :: v).
Definition opens (w v z : bytes) : Prop :=
  (exists c r, v = c :: r /\ item_byte c) \/
  exists u r, v ++ z = u ++ CRLF ++ r /\ Forall WSP u /\ no_wsp r /\ (w = [] \/ u = [] /\ In CR w).
Inductive list_wide : list bytes -> bytes -> Prop :=
| lw_none w : FWSs w -> list_wide [] w
| lw_last w1 v w2 : FWSs w1 -> opens w1 v w2 -> wide_text w2 v -> FWSs w2 -> list_wide [v] (w1 ++ v ++ w2)
| lw_more w1 v w2 vs t : FWSs w1 -> opens w1 v (w2 ++ COLON :: t) -> wide_text (w2 ++ COLON :: t) v -> FWSs w2 -> list_wide vs t ->
    list_wide (v :: vs) (w1 ++ v ++ w2 ++ COLON :: t).
