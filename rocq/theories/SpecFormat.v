(** Vocabulary for StringFormat.  Of the model the type of its arguments is used. *)
From Verif Require Import Bytes SpecText SpecError SpecReason SpecMade Format.

Definition signed_text (z : Z) (d : bytes) : Prop :=
  (exists n, z = Z.of_N n /\ number_text n d) \/ (exists n d', (0 < n)%N /\ z = (- Z.of_N n)%Z /\ number_text n d' /\ d = chr 45 :: d').
(** The format with every conversion replaced by its argument. *)
Inductive filled : bytes -> list arg -> bytes -> Prop :=
| f_end args : filled [] args []
| f_char c f args t : c <> "%"%char -> filled f args t -> filled (c :: f) args (c :: t)
| f_s f x y args t : up_to_nul x y -> filled f args t -> filled (str "%s" ++ f) (A_s x :: args) (y ++ t)
| f_lu f n d args t : number_text n d -> filled f args t -> filled (str "%lu" ++ f) (A_lu n :: args) (d ++ t)
| f_x f c h args t : hex_shown h c -> filled f args t -> filled (str "%x" ++ f) (A_x c :: args) (h ++ t)
| f_ld f z d args t : signed_text z d -> filled f args t -> filled (str "%ld" ++ f) (A_ld z :: args) (d ++ t)
| f_d f z d args t : signed_text z d -> filled f args t -> filled (str "%d" ++ f) (A_d z :: args) (d ++ t).
