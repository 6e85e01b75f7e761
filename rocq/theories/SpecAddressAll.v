(** Address lists, for every text: what ParseAddressList makes of a text that need not follow
    RFC 5322.  Nothing here refers to the model's functions. *)
From Verif Require Import Bytes SpecText SpecAddress.

(** The whitespace at the beginning of [r] is [w], and [r'] is left: a run of WSP, a run with one
    fold, or none.  WSP in front of a CRLF that is not a fold do not count as whitespace. *)
Inductive gap : bytes -> bytes -> bytes -> Prop :=
| gap_none r : first_ok (fun c => ~ WSP c /\ c <> CR) r -> gap r [] r
| gap_stray u r : Forall WSP u -> no_wsp r -> gap (u ++ CRLF ++ r) [] (u ++ CRLF ++ r)
| gap_plain u r : Forall WSP u -> u <> [] -> first_ok (fun c => ~ WSP c /\ c <> CR) r -> gap (u ++ r) u r
| gap_fold u v r : Forall WSP u -> Forall WSP v -> v <> [] -> no_wsp r ->
    gap (u ++ CRLF ++ v ++ r) (u ++ CRLF ++ v) r.

(** The bytes that end a word. *)
Definition special (c : ascii) : Prop := In c [DQ; LP; LA; RA; chr 44; SEMI].

(** [word_rest r a r']: a word of which something was read goes on with [a], and [r'] is left; the
    whitespace behind it is skipped. *)
Inductive word_rest : bytes -> bytes -> bytes -> Prop :=
| wr_end : word_rest [] [] []
| wr_gap r w r' : gap r w r' -> w <> [] -> word_rest r [] r'
| wr_special c r : special c -> word_rest (c :: r) [] (c :: r)
| wr_byte c r a r' : gap (c :: r) [] (c :: r) -> ~ special c -> word_rest r a r' -> word_rest (c :: r) (c :: a) r'.

(** [quoted cs q v]: the inside [q] of a quoted string stands for [v].  With a signed char ([cs])
    the byte 0xff must be escaped. *)
Inductive quoted (cs : bool) : bytes -> bytes -> Prop :=
| qv_end : quoted cs [] []
| qv_byte c q v : c <> DQ -> c <> BS -> (cs = true -> c <> chr 255) -> quoted cs q v -> quoted cs (c :: q) (c :: v)
| qv_escape c q v : quoted cs q v -> quoted cs (BS :: c :: q) (c :: v).

(** [skipped b d a]: with [d] parentheses open, [a] is skipped up to the last closing one.  [b]: the
    byte in front was escaped; then the next byte is not taken for an escape. *)
Inductive skipped : bool -> nat -> bytes -> Prop :=
| sk_last b : skipped b 1 [RP]
| sk_close b d a : skipped false (S d) a -> skipped b (S (S d)) (RP :: a)
| sk_open b d a : skipped false (S (S d)) a -> skipped b (S d) (LP :: a)
| sk_byte b d c a : c <> LP -> c <> RP -> (b = false -> c <> BS) -> skipped false d a -> skipped b d (c :: a)
| sk_escape d c a : skipped true d a -> skipped false d (BS :: c :: a).

Inductive token := Word (is_quoted : bool) (v : bytes) | Comment | Open | Close | Sep.

(** [lexed cs r ts]: the text [r] consists of the tokens [ts]. *)
Inductive lexed (cs : bool) : bytes -> list token -> Prop :=
| lx_end r w : gap r w [] -> lexed cs r []
| lx_word r w c r1 a r2 ts : gap r w (c :: r1) -> ~ special c -> word_rest r1 a r2 -> ~ In NUL0 (c :: a) ->
    lexed cs r2 ts -> lexed cs r (Word false (c :: a) :: ts)
| lx_quoted r w q v r1 ts : gap r w (DQ :: q ++ DQ :: r1) -> quoted cs q v -> ~ In NUL0 v ->
    lexed cs r1 ts -> lexed cs r (Word true v :: ts)
| lx_comment r w a r1 ts : gap r w (LP :: a ++ r1) -> skipped false 1 a -> ~ In NUL0 a ->
    lexed cs r1 ts -> lexed cs r (Comment :: ts)
| lx_open r w r1 ts : gap r w (LA :: r1) -> lexed cs r1 ts -> lexed cs r (Open :: ts)
| lx_close r w r1 ts : gap r w (RA :: r1) -> lexed cs r1 ts -> lexed cs r (Close :: ts)
| lx_sep r w c r1 ts : gap r w (c :: r1) -> c = chr 44 \/ c = SEMI -> lexed cs r1 ts -> lexed cs r (Sep :: ts).

(** The words behind the last '<'. *)
Definition words (seg : list token) : list bytes :=
  fold_left (fun ws t => match t with Word _ v => ws ++ [v] | Open => [] | _ => ws end) seg [].

(** Tokens without a ',', ';' or '>'. *)
Definition segment (seg : list token) : Prop := ~ In Close seg /\ ~ In Sep seg.

(** A single quoted string at the end of the segment is an address list of its own. *)
Definition lone_quoted (seg : list token) (v : bytes) : Prop :=
  words seg = [v] /\ exists seg', seg = seg' ++ [Word true v].

(** [yields sub sep seg l]: the addresses [l] of a segment.  [sep]: it ends at a ',' or ';'. Then a
    segment whose last word has no '@' is taken for part of a display name. *)
Inductive yields (sub : bytes -> list bytes -> Prop) (sep : bool) (seg : list token) : list bytes -> Prop :=
| y_none : words seg = [] -> yields sub sep seg []
| y_name : sep = true -> ~ In AT (last (words seg) []) -> yields sub sep seg []
| y_list v l : (sep = true -> In AT v) -> lone_quoted seg v -> sub v l -> yields sub sep seg l
| y_address : (sep = true -> In AT (last (words seg) [])) -> words seg <> [] -> ~ (exists v, lone_quoted seg v) ->
    yields sub sep seg [concat (words seg)].

Inductive grouped (sub : bytes -> list bytes -> Prop) : list token -> list bytes -> Prop :=
| gr_end seg l : segment seg -> ~ In Open seg -> yields sub false seg l -> grouped sub seg l
| gr_close seg ts l1 l2 : segment seg -> yields sub false seg l1 -> grouped sub ts l2 ->
    grouped sub (seg ++ Close :: ts) (l1 ++ l2)
| gr_sep seg ts l1 l2 : segment seg -> ~ In Open seg -> yields sub true seg l1 -> grouped sub ts l2 ->
    grouped sub (seg ++ Sep :: ts) (l1 ++ l2).

(** [address_text cs t l]: the text [t] is read as the addresses [l]. *)
Inductive address_text (cs : bool) : bytes -> list bytes -> Prop :=
| at_text t ts l : lexed cs t ts -> grouped (address_text cs) ts l -> address_text cs t l.

(** The token at the beginning of [r]; [None] at the end. *)
Inductive one (cs : bool) : bytes -> option token -> bytes -> Prop :=
| one_end r w : gap r w [] -> one cs r None []
| one_word r w c r1 a r2 : gap r w (c :: r1) -> ~ special c -> word_rest r1 a r2 -> ~ In NUL0 (c :: a) -> one cs r (Some (Word false (c :: a))) r2
| one_quoted r w q v r1 : gap r w (DQ :: q ++ DQ :: r1) -> quoted cs q v -> ~ In NUL0 v -> one cs r (Some (Word true v)) r1
| one_comment r w a r1 : gap r w (LP :: a ++ r1) -> skipped false 1 a -> ~ In NUL0 a -> one cs r (Some Comment) r1
| one_open r w r1 : gap r w (LA :: r1) -> one cs r (Some Open) r1
| one_close r w r1 : gap r w (RA :: r1) -> one cs r (Some Close) r1
| one_sep r w c r1 : gap r w (c :: r1) -> c = chr 44 \/ c = SEMI -> one cs r (Some Sep) r1.

(** A ',', ';' or the end does not end a segment with an open '<'. *)
Definition ends (o : option token) (seg : list token) : Prop :=
  o = Some Close \/ (o = Some Sep \/ o = None) /\ ~ In Open seg.

(** [endless seg r]: behind the tokens [seg] of a segment, the text [r] leads to a quoted string
    that is not closed; where plain char is unsigned such a string is read for ever. *)
Inductive endless : list token -> bytes -> Prop :=
| en_quoted seg r w q v : gap r w (DQ :: q) -> quoted false q v -> endless seg r
| en_token seg r t r1 : one false r (Some t) r1 -> t <> Close -> t <> Sep -> endless (seg ++ [t]) r1 -> endless seg r
| en_inside seg r o r1 v : one false r o r1 -> ends o seg -> (o = Some Sep -> In AT v) -> lone_quoted seg v ->
    endless [] v -> endless seg r
| en_close seg r r1 l : one false r (Some Close) r1 -> yields (address_text false) false seg l ->
    endless [] r1 -> endless seg r
| en_sep seg r r1 l : one false r (Some Sep) r1 -> ~ In Open seg -> yields (address_text false) true seg l ->
    endless [] r1 -> endless seg r.
