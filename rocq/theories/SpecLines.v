(** How long the lines of a generated field are. *)
From Verif Require Import Bytes SpecText SpecSign SpecMade Crypto SignatoryOptions.

(** The text can be parted at CRLFs into lines of at most [n] bytes.  To part it at more CRLFs only makes the lines shorter. *)
Inductive lines_within (n : nat) : bytes -> Prop :=
| lw_last l : length l <= n -> lines_within n l
| lw_next l t : length l <= n -> lines_within n t -> lines_within n (l ++ CRLF ++ t).

Definition unbroken (t : bytes) : Prop := Forall (fun c => c <> CR /\ c <> LF) t.

(** The line of d=, s=, i= and l=. *)
Definition d_line (o : options) (q : sig_options) (t : bytes) : Prop :=
  exists i l, i_tag o i /\ if_set (o_signlen o) (l_tag o) l /\
    t = HT :: str "d=" ++ so_domain q ++ str "; s=" ++ so_selector q ++ i ++ l ++ [SEMI].
(** There is room for this line, and for each of the names [names] with a tab and a space in front and a colon or a semicolon behind. *)
Definition has_room (n : nat) (o : options) (names : list bytes) : Prop :=
  Forall (fun x => length x + 3 <= n) names /\ forall q t, In q (all_signatures o) -> d_line o q t -> length t <= n.
