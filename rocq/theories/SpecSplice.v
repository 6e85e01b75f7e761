(** Specification vocabulary for messages that change while they are checked. *)
From Verif Require Import Bytes Outcome Stream Crypto Validatory VerifyProps SpecText SpecMail SpecVerify.

(** [spliced t1 t2 t]: [t] has the header of [t1], up to and with the blank line, and the bytes of [t2] behind as many bytes;
    a message without a blank line has no body. *)
Inductive spliced : bytes -> bytes -> bytes -> Prop :=
| sp_blank ls h e b t2 : header_block ls h -> line_end [] e -> spliced (h ++ e ++ b) t2 (h ++ e ++ skipn (length (h ++ e)) t2)
| sp_none ls h tail t2 : header_block ls h -> ~ In LF tail -> spliced (h ++ tail) t2 (h ++ tail).

(** The answers of a verifier whose file has other contents at each call. *)
Fixpoint answers_over (C : crypto) (strict : bool) (v : validatory) (l : list (bytes * bool * call)) : list answer :=
  match l with
  | [] => []
  | (t2, e, c) :: r => let '(v1, a) := perform C strict e c (mkVal (v_msg v) (open_str t2) (v_sigs v)) in a :: answers_over C strict v1 r
  end.
