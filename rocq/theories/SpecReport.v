(** Specification vocabulary for the text of the reports. *)
From Verif Require Import Bytes SpecText Tool ToolText.

(** Fixed words, numbers and a tag name in parentheses: one line, and none of them ends in "K". *)
Definition wording (w : bytes) : Prop := Forall (fun c => printable c \/ c = SP) w /\ last_ok (fun c => c <> "K"%char) w.
(** [worded y w]: [w] is the text [y], or a text of that kind. *)
Definition worded (y : option bytes) (w : bytes) : Prop := match y with Some t => w = t | None => wording w end.

(** [printing ls ys out]: the reports [ls], with the exceptions [ys], print [out]. *)
Inductive printing : list line -> list (option bytes) -> bytes -> Prop :=
| pr_nil : printing [] [] []
| pr_cons l ls y ys w out : worded y w -> printing ls ys out -> printing (l :: ls) (y :: ys) (line_text l w ++ out).

(** [x] is a line of [out]. *)
Definition line_of (out x : bytes) : Prop :=
  ~ In LF x /\ exists a b, out = a ++ x ++ LF :: b /\ (a = [] \/ exists a', a = a' ++ [LF]).
(** The line that reports a good signature. *)
Definition ok_line (f d s : bytes) : bytes := str "[" ++ f ++ str "][" ++ d ++ str "][" ++ s ++ str "] OK".
