(** When two sequences of header fields give the same stream. *)
From Verif Require Import Bytes SpecText.

(** The fields as someone who sees only the stream has to read them: a field that begins with whitespace
    is a continuation of the one in front of it. *)
Definition takes_on (x : bytes) (r : list bytes) : list bytes :=
  match r with
  | (c :: y) :: ys => if (c =?c SP) || (c =?c HT) then (x ++ CRLF ++ c :: y) :: ys else x :: r
  | _ => x :: r
  end.
Definition as_read (texts : list bytes) : list bytes := fold_right takes_on [] texts.
