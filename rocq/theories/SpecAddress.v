(** Specification vocabulary for address lists (after RFC 5322 3.2-3.4).  Nothing here refers
    to the model's functions. *)
From Verif Require Import Bytes SpecText.

Definition DQ : ascii := chr 34.      (* the double quote *)
Definition BS : ascii := chr 92.      (* the backslash *)
Definition LP : ascii := chr 40.
Definition RP : ascii := chr 41.
Definition LA : ascii := chr 60.
Definition RA : ascii := chr 62.
Definition NUL0 : ascii := chr 0.

(** A byte that can stand in a word or addr-spec. *)
Definition ordinary (c : ascii) : Prop :=
  ~ In c [SP; HT; CR; DQ; LP; LA; RA; chr 44; SEMI; NUL0].

(** The inside of a quoted string: bytes other than DQ, BS and NUL (and 0xff, which the
    code takes for the end of input where char is signed), and escaped bytes. *)
Inductive quoted_text : bytes -> Prop :=
| qd_end : quoted_text []
| qd_char c t : ~ In c [DQ; BS; NUL0; chr 255] -> quoted_text t -> quoted_text (c :: t)
| qd_escape c t : c <> NUL0 -> quoted_text t -> quoted_text (BS :: c :: t).

(** The inside of a comment: RFC 5322 ccontent.  [tame]: no escaped byte is directly followed
    by another escape. *)
Inductive comment_text (tame : bool) : bytes -> Prop :=
| ct_end : comment_text tame []
| ct_char c t : ~ In c [LP; RP; BS; NUL0] -> comment_text tame t -> comment_text tame (c :: t)
| ct_escape c t : c <> NUL0 -> (tame = true -> first_ok (fun x => x <> BS) t) ->
    comment_text tame t -> comment_text tame (BS :: c :: t)
| ct_nested a t : comment_text tame a -> comment_text tame t -> comment_text tame (LP :: a ++ RP :: t).

(** Comments and folding whitespace between tokens; two folding whitespaces are never adjacent.
    The first argument says whether it may start with folding whitespace. *)
Inductive cfws (tame : bool) : bool -> bytes -> Prop :=
| cf_end b : cfws tame b []
| cf_space w t : FWS w -> cfws tame false t -> cfws tame true (w ++ t)
| cf_comment b a t : comment_text tame a -> cfws tame true t -> cfws tame b (LP :: a ++ RP :: t).

(** A display name: words, quoted strings, comments and folding whitespace in any order. *)
Inductive phrase (tame : bool) : bool -> bytes -> Prop :=
| ph_end b : phrase tame b []
| ph_char b c t : ordinary c -> phrase tame true t -> phrase tame b (c :: t)
| ph_space w t : FWS w -> phrase tame false t -> phrase tame true (w ++ t)
| ph_quoted b q t : quoted_text q -> phrase tame true t -> phrase tame b (DQ :: q ++ DQ :: t)
| ph_comment b a t : comment_text tame a -> phrase tame true t -> phrase tame b (LP :: a ++ RP :: t).

(** An addr-spec of ordinary bytes. *)
Definition addr_spec (a : bytes) : Prop := Forall ordinary a /\ In AT a.

(** [mailbox tame a t]: the text [t] is a mailbox with address [a]. *)
Inductive mailbox (tame : bool) : bytes -> bytes -> Prop :=
| mb_bare g1 a g2 : cfws tame true g1 -> addr_spec a -> cfws tame true g2 ->
    mailbox tame a (g1 ++ a ++ g2)
| mb_angle p g1 a g2 g3 : phrase tame true p -> cfws tame true g1 -> addr_spec a -> cfws tame true g2 ->
    cfws tame true g3 -> mailbox tame a (p ++ LA :: g1 ++ a ++ g2 ++ RA :: g3).

Inductive mailbox_list (tame : bool) : list bytes -> bytes -> Prop :=
| ml_one a t : mailbox tame a t -> mailbox_list tame [a] t
| ml_more a t l u : mailbox tame a t -> mailbox_list tame l u ->
    mailbox_list tame (a :: l) (t ++ chr 44 :: u).

(** Folding is plain: each CRLF is followed by whitespace, and that not by another CR. *)
Definition plain_folds (t : bytes) : Prop :=
  folds_only t /\ forall a w b, t = a ++ CRLF ++ w ++ CR :: b -> ~ Forall WSP w.
