(** How deep quoted strings are nested in a text. *)
From Verif Require Import Bytes SpecText SpecAddress.

(** The number of quotes and backslashes. *)
Fixpoint marks (t : bytes) : nat :=
  match t with
  | [] => 0
  | c :: r => (if ascii_dec c DQ then 1 else if ascii_dec c BS then 1 else 0) + marks r
  end.

(** [t] as a quoted string: quotes and backslashes are escaped. *)
Fixpoint escaped (t : bytes) : bytes :=
  match t with
  | [] => []
  | c :: r => (if ascii_dec c DQ then [BS; c] else if ascii_dec c BS then [BS; c] else [c]) ++ escaped r
  end.
Definition as_quoted (t : bytes) : bytes := DQ :: escaped t ++ [DQ].
(** An address inside of [n] quoted strings. *)
Fixpoint nested (n : nat) : bytes := match n with 0 => str "a@b" | S k => as_quoted (nested k) end.
