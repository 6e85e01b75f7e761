(** Specification vocabulary for C99: the texts that are no address lists, and what is said of them.  Nothing
    here refers to the model. *)
From Verif Require Import Bytes SpecText SpecAddress SpecAddressAll SpecError.

(** [cr_bad n r m]: behind WSP, [r] has a CR without LF.  The place is that of the byte behind the CR; [r] is the
    end of a text of [n] bytes. *)
Inductive cr_bad (n : nat) : bytes -> bytes -> Prop :=
| cb_last u : Forall WSP u -> cr_bad n (u ++ [CR]) (str "CR without matching LF, at the END")
| cb_byte u c x m : Forall WSP u -> c <> LF -> byte_at "CR without matching LF, 0x" " at position " m c (n - length (c :: x)) ->
    cr_bad n (u ++ CR :: c :: x) m.

(** Inside a word of which something was read. *)
Inductive word_bad (n : nat) : bytes -> bytes -> Prop :=
| wb_cr r m : cr_bad n r m -> word_bad n r m
| wb_byte c r m : gap (c :: r) [] (c :: r) -> ~ special c -> word_bad n r m -> word_bad n (c :: r) m.

(** Behind the double quote at the beginning of a quoted string.  Where plain char is signed ([cs]), a byte 0xff is taken for the end. *)
Inductive string_bad (cs : bool) : bytes -> bytes -> Prop :=
| sb_end : cs = true -> string_bad cs [] (str "unclosed string")
| sb_255 q : cs = true -> string_bad cs (chr 255 :: q) (str "unclosed string")
| sb_half : string_bad cs [BS] (str "incomplete escape sequence")
| sb_byte c q m : c <> DQ -> c <> BS -> (cs = true -> c <> chr 255) -> string_bad cs q m -> string_bad cs (c :: q) m
| sb_escape c q m : string_bad cs q m -> string_bad cs (BS :: c :: q) m.

(** Inside a comment with [d] parentheses open; [b] as in [skipped]. *)
Inductive comment_bad : bool -> nat -> bytes -> bytes -> Prop :=
| ob_end b d : comment_bad b d [] (str "unclosed comment")
| ob_half d : comment_bad false d [BS] (str "incomplete escape sequence")
| ob_close b d a m : comment_bad false (S d) a m -> comment_bad b (S (S d)) (RP :: a) m
| ob_open b d a m : comment_bad false (S (S d)) a m -> comment_bad b (S d) (LP :: a) m
| ob_byte b d c a m : c <> LP -> c <> RP -> (b = false -> c <> BS) -> comment_bad false d a m -> comment_bad b d (c :: a) m
| ob_escape d c a m : comment_bad true d a m -> comment_bad false d (BS :: c :: a) m.

(** The text begins with half a token. *)
Inductive half_token (cs : bool) (n : nat) (r m : bytes) : Prop :=
| ht_cr : cr_bad n r m -> half_token cs n r m
| ht_word w c r1 : gap r w (c :: r1) -> ~ special c -> word_bad n r1 m -> half_token cs n r m
| ht_string w q : gap r w (DQ :: q) -> string_bad cs q m -> half_token cs n r m
| ht_comment w a : gap r w (LP :: a) -> comment_bad false 1 a m -> half_token cs n r m.

(** The text begins with a token with a NUL in it. *)
Inductive nul_token (cs : bool) (r : bytes) : Prop :=
| nt_word w c r1 a r2 : gap r w (c :: r1) -> ~ special c -> word_rest r1 a r2 -> In NUL0 (c :: a) -> nul_token cs r
| nt_quoted w q v r1 : gap r w (DQ :: q ++ DQ :: r1) -> quoted cs q v -> In NUL0 v -> nul_token cs r
| nt_comment w a r1 : gap r w (LP :: a ++ r1) -> skipped false 1 a -> In NUL0 a -> nul_token cs r.

(** [refused cs n seg r m]: behind the tokens [seg] of a segment, the rest [r] of a text of [n] bytes makes [m] be said.
    A lone quoted string is a text of its own, with places of its own. *)
Inductive refused (cs : bool) : nat -> list token -> bytes -> bytes -> Prop :=
| rf_half n seg r m : half_token cs n r m -> refused cs n seg r m
| rf_nul n seg r : nul_token cs r -> refused cs n seg r (str "NUL character in address field")
| rf_next n seg r t r1 m : one cs r (Some t) r1 -> t <> Close -> t <> Sep -> refused cs n (seg ++ [t]) r1 m -> refused cs n seg r m
| rf_open n seg r o r1 : one cs r o r1 -> o = Some Sep \/ o = None -> In Open seg -> refused cs n seg r (str "unclosed < addr-spec >")
| rf_inside n seg r o r1 v m : one cs r o r1 -> ends o seg -> (o = Some Sep -> In AT v) -> lone_quoted seg v ->
    refused cs (length v) [] v m -> refused cs n seg r m
| rf_close n seg r r1 l m : one cs r (Some Close) r1 -> yields (address_text cs) false seg l ->
    refused cs n [] r1 m -> refused cs n seg r m
| rf_sep n seg r r1 l m : one cs r (Some Sep) r1 -> ~ In Open seg -> yields (address_text cs) true seg l ->
    refused cs n [] r1 m -> refused cs n seg r m.
