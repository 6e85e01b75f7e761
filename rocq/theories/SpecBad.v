(** Vocabulary for sources that fail. *)
From Verif Require Import Bytes SpecText SpecMail.

(** [kept chunk p t]: of the bytes [p] that could be read, [t] is used: all complete lines of an unfinished
    header; or the header and as many bytes of the body as fill whole buffers. *)
Inductive kept (chunk : nat) : bytes -> bytes -> Prop :=
| kept_header ls h tail : header_block ls h -> ~ In LF tail -> kept chunk (h ++ tail) h
| kept_body ls h e k b1 b2 : header_block ls h -> line_end [] e -> length b1 = k * chunk -> length b2 < chunk ->
    kept chunk (h ++ e ++ b1 ++ b2) (h ++ e ++ b1).
