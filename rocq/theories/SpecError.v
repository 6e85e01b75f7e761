(** Specification vocabulary for C93: where a text goes wrong, and texts that say so.  Nothing here
    refers to the model. *)
From Verif Require Import Bytes SpecText SpecTags SpecSig.

(** Numbers as they are shown: a byte in hexadecimal, a position in decimal, without leading zeros. *)
Definition low_hex (c : ascii) (v : N) : Prop := ((v < 10 /\ c = chr (48 + v)) \/ (10 <= v < 16 /\ c = chr (87 + v)))%N.
Definition hex_shown (h : bytes) (c : ascii) : Prop :=
  ((code c < 16)%N /\ exists d, h = [d] /\ low_hex d (code c)) \/
  ((16 <= code c)%N /\ exists d e, h = [d; e] /\ low_hex d (code c / 16) /\ low_hex e (code c mod 16)).
Definition dec_shown (d : bytes) (k : nat) : Prop :=
  digits d /\ dec_value d = N.of_nat k /\ (d = str "0" \/ first_ok (fun c => c <> chr 48) d).
(** [m] is the text "a 0x.. b .." or "a ..". *)
Definition byte_at (a b : string) (m : bytes) (c : ascii) (k : nat) : Prop :=
  exists h d, m = str a ++ h ++ str b ++ d /\ hex_shown h c /\ dec_shown d k.
Definition at_place (a : string) (m : bytes) (k : nat) : Prop := exists d, m = str a ++ d /\ dec_shown d k.

(** A text that can be continued to a good one; the byte with which it cannot any more. *)
Definition can_go_on (ok : bytes -> Prop) (p : bytes) : Prop := exists x, ok (p ++ x).
Definition breaks (ok : bytes -> Prop) (p : bytes) (c : ascii) : Prop := can_go_on ok p /\ ~ can_go_on ok (p ++ [c]).
(** A text that ends too early. *)
Definition unfinished (ok : bytes -> Prop) (t : bytes) : Prop := ~ ok t /\ can_go_on ok t.

(** The good texts: tag lists with names that are not in [names], lists, quoted-printable texts. *)
Definition tags_ok (names : list bytes) (t : bytes) : Prop :=
  exists l, rendered_tags l t /\ NoDup (map fst l) /\ forall n, In n (map fst l) -> ~ In n names.
Definition list_ok (t : bytes) : Prop := exists vs, list_wide vs t.
Definition qp_ok (us : bool) (t : bytes) : Prop := exists d, qp_text us t d.

(** [front names l q]: [q] is nothing, or good tags [l] up to a ";". *)
Definition front (names : list bytes) (l : list (bytes * bytes)) (q : bytes) : Prop :=
  (q = [] \/ exists q0, q = q0 ++ [SEMI]) /\ rendered_tags l q /\ NoDup (map fst l) /\ forall n, In n (map fst l) -> ~ In n names.
(** [begun names l q w n]: behind it the name [n] of a tag, which is not of before and not one of [l]. *)
Definition begun (names : list bytes) (l : list (bytes * bytes)) (q w n : bytes) : Prop :=
  front names l q /\ Forall LWSP w /\ tag_name n /\ ~ In n (map fst l) /\ ~ In n names.
(** What can be said of a tag list. *)
Inductive tags_say (names : list bytes) (t m : bytes) : Prop :=
| ts_name l q w c u : t = (q ++ w) ++ c :: u -> front names l q -> Forall LWSP w -> ~ LWSP c -> ~ name_byte c -> breaks (tags_ok names) (q ++ w) c ->
    at_place "Invalid tag name (empty), expecting name at position " m (length (q ++ w)) -> tags_say names t m
| ts_equals l q w n w2 c u : t = (q ++ w ++ n ++ w2) ++ c :: u -> begun names l q w n -> Forall LWSP w2 -> ~ LWSP c -> c <> EQUALS ->
    first_ok (fun x => ~ name_byte x) (w2 ++ [c]) -> breaks (tags_ok names) (q ++ w ++ n ++ w2) c ->
    byte_at "Invalid tag list; unexpected 0x" ", expecting = at position " m c (length (q ++ w ++ n ++ w2)) -> tags_say names t m
| ts_value l q w n w2 b c u : t = (q ++ w ++ n ++ w2 ++ EQUALS :: b) ++ c :: u -> begun names l q w n -> Forall LWSP w2 ->
    Forall (fun x => value_byte x \/ LWSP x) b -> ~ value_byte c -> ~ LWSP c -> c <> SEMI -> breaks (tags_ok names) (q ++ w ++ n ++ w2 ++ EQUALS :: b) c ->
    byte_at "Invalid tag value (invalid data), unexpected 0x" " at position " m c (length (q ++ w ++ n ++ w2 ++ EQUALS :: b)) -> tags_say names t m
(** no place is named: a name of before, or of the tags [l] in front of it, *)
| ts_twice l q w n u : t = q ++ w ++ n ++ u -> front names l q -> Forall LWSP w ->
    tag_name n -> first_ok (fun c => ~ name_byte c) u -> In n (map fst l ++ names) ->
    m = str "Duplicate tag name (" ++ n ++ str ")" -> tags_say names t m
(** no byte is there. *)
| ts_end l q w n w2 : t = q ++ w ++ n ++ w2 -> begun names l q w n -> Forall LWSP w2 -> unfinished (tags_ok names) t ->
    m = str "Invalid tag list; unexpected 0xff, expecting = at position -1" -> tags_say names t m.

(** Of a CR. *)
Inductive cr_say (ok : bytes -> Prop) (t m : bytes) : Prop :=
| cs_byte p c u : t = p ++ CR :: c :: u -> c <> LF -> breaks ok (p ++ [CR]) c ->
    byte_at "CR without matching LF, 0x" " at position " m c (S (length p)) -> cr_say ok t m
| cs_end p : t = p ++ [CR] -> unfinished ok t -> m = str "CR without matching LF, at the END" -> cr_say ok t m.

(** Of a list. *)
Inductive list_say (t m : bytes) : Prop :=
| ls_empty p u : t = p ++ COLON :: u -> breaks list_ok p COLON -> last_ok (fun c => c <> CR) p ->
    at_place "Invalid list value (empty), expecting value at position " m (length p) -> list_say t m
| ls_cr : cr_say list_ok t m -> list_say t m.

(** A text that ends behind "=" or behind "=" and one digit. *)
Definition in_hex (p : bytes) : Prop := exists x, p = x ++ [EQUALS] \/ exists h v, hex_digit h v /\ p = x ++ [EQUALS; h].
(** Of a quoted-printable text. *)
Inductive qp_say (us : bool) (t m : bytes) : Prop :=
| qs_hex p c u : t = p ++ c :: u -> breaks (qp_ok us) p c -> in_hex p ->
    byte_at "Quoted-printable decoding failed; unexpected 0x" ", expecting HEX at position " m c (length p) -> qp_say us t m
| qs_unsafe p c u : t = p ++ c :: u -> breaks (qp_ok us) p c -> ~ in_hex p -> last_ok (fun x => x <> CR /\ x <> LF) p ->
    byte_at "Quoted-printable decoding failed; unsafe character 0x" " at position " m c (length p) -> qp_say us t m
| qs_cr : cr_say (qp_ok us) t m -> qp_say us t m
(** the text goes wrong behind a line end, and the first of the blanks in front of it that belong to no other fold is named; *)
| qs_fold p w z c : t = p ++ w ++ CRLF ++ z -> Forall WSP w -> no_wsp z -> qp_ok us p ->
    last_ok (fun x => ~ WSP x) p \/ (w = [] /\ exists p0 b, p = p0 ++ CRLF ++ b /\ Forall WSP b) ->
    match z with [] => unfinished (qp_ok us) t | d :: _ => breaks (qp_ok us) (p ++ w ++ CRLF) d end ->
    (exists r, w ++ CRLF = c :: r) ->
    byte_at "Quoted-printable decoding failed; unsafe character 0x" " at position " m c (length p) -> qp_say us t m
(** no byte is there. *)
| qs_end : unfinished (qp_ok us) t -> in_hex t -> m = str "Quoted-printable decoding failed; unexpected 0xff, expecting HEX at position -1" -> qp_say us t m.
