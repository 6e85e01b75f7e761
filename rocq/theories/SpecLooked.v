(** Specification vocabulary for tags that are looked at. *)
From Verif Require Import Bytes SpecSig.

(** The tags of a signature with a meaning for the check, and those of a key record. *)
Definition looked_at : list string := ["v"; "a"; "b"; "bh"; "c"; "d"; "h"; "i"; "l"; "q"; "s"; "x"]%string.
Definition key_looked_at : list string := ["v"; "h"; "k"; "p"; "s"; "t"]%string.
(** The two lists of tags agree on [names]. *)
Definition agree (names : list string) (l l' : list (bytes * bytes)) : Prop := forall n v, In n names -> has l n v <-> has l' n v.
