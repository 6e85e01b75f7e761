(** Vocabulary for the work of reading. *)
From Verif Require Import Bytes.

(** A field that has its colon in the first line. *)
Definition colon_early (text : bytes) : Prop := exists a b, text = a ++ COLON :: b /\ ~ In LF a.
