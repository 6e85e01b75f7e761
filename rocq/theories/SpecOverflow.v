(** Vocabulary for the depth of comments.  Nothing here refers to the model. *)
From Verif Require Import Bytes SpecText SpecAddress SpecAddressAll.

(** [deep b d r]: with [d] parentheses open, reading [r] opens one more while 2^31 - 1 are open, before the last is closed.
    [b]: the byte in front was escaped. *)
Inductive deep : bool -> nat -> bytes -> Prop :=
| dp_here b d r : (2147483647 <= Z.of_nat d)%Z -> deep b d (LP :: r)
| dp_open b d r : deep false (S d) r -> deep b d (LP :: r)
| dp_close b d r : deep false (S d) r -> deep b (S (S d)) (RP :: r)
| dp_byte b d c r : c <> LP -> c <> RP -> (b = false -> c <> BS) -> deep false d r -> deep b d (c :: r)
| dp_escape d c r : deep true d r -> deep false d (BS :: c :: r).
(** The next token is such a comment. *)
Definition deep_comment (r : bytes) : Prop := exists w a, gap r w (LP :: a) /\ deep false 1 a.
(** [overdeep cs seg r]: behind the tokens [seg] of a segment, the text [r] leads to such a comment, in the list itself or in a
    quoted string that is read as a list of its own. *)
Inductive overdeep (cs : bool) : list token -> bytes -> Prop :=
| od_comment seg r : deep_comment r -> overdeep cs seg r
| od_token seg r t r1 : one cs r (Some t) r1 -> t <> Close -> t <> Sep -> overdeep cs (seg ++ [t]) r1 -> overdeep cs seg r
| od_inside seg r o r1 v : one cs r o r1 -> ends o seg -> (o = Some Sep -> In AT v) -> lone_quoted seg v ->
    overdeep cs [] v -> overdeep cs seg r
| od_close seg r r1 l : one cs r (Some Close) r1 -> yields (address_text cs) false seg l ->
    overdeep cs [] r1 -> overdeep cs seg r
| od_sep seg r r1 l : one cs r (Some Sep) r1 -> ~ In Open seg -> yields (address_text cs) true seg l ->
    overdeep cs [] r1 -> overdeep cs seg r.
