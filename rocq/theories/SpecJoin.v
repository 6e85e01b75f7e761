(** Vocabulary for address lists put one behind the other.  Nothing here refers to the model. *)
From Verif Require Import Bytes SpecText SpecAddress SpecAddressAll.

(** [tail_segment ts seg]: [seg] are the tokens behind the last ',', ';' or '>'. *)
Definition tail_segment (ts seg : list token) : Prop :=
  segment seg /\ (ts = seg \/ exists ts0 t, ts = ts0 ++ t :: seg /\ (t = Close \/ t = Sep)).
(** The same for a text. *)
Definition last_segment (cs : bool) (t : bytes) (seg : list token) : Prop := exists ts, lexed cs t ts /\ tail_segment ts seg.
(** A segment that counts also in front of a ',' or ';': no words, or an '@' in the last one. *)
Definition counts (seg : list token) : Prop := words seg = [] \/ In AT (last (words seg) []).
(** Texts with a comma between each two. *)
Fixpoint with_commas (ts : list bytes) : bytes :=
  match ts with [] => [] | [t] => t | t :: r => t ++ chr 44 :: with_commas r end.
