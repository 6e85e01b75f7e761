(** Words to speak about who owns an RSA object. *)
From Verif Require Import Bytes KeyHandles.

(** The objects a call brings in. *)
Definition brought (o : key_op) : list nat :=
  match o with KLoad _ (Some i) | KGive _ (Some i) _ => [i] | _ => [] end.
Definition owned (o : key_op) : list nat :=
  match o with KLoad _ (Some i) | KGive _ (Some i) true => [i] | _ => [] end.
Definition lent (o : key_op) : list nat :=
  match o with KGive _ (Some i) false => [i] | _ => [] end.
Definition is_copy (o : key_op) : bool := match o with KCopy _ => true | _ => false end.
(** The element a call stores a key in. *)
Definition target (o : key_op) : list nat :=
  match o with KLoad n _ | KGive n _ _ => [n] | _ => [] end.


(** The calls address elements that exist. *)
Inductive addressed : nat -> list key_op -> Prop :=
| ad_nil k : addressed k []
| ad_add k l : addressed (S k) l -> addressed k (KAdd :: l)
| ad_on k o l : Forall (fun n => n < k) (target o) -> target o <> [] -> addressed k l -> addressed k (o :: l).

Definition pub_brought (o : pub_op) : list nat := match o with PParse (Some i) => [i] | _ => [] end.

(** Each Parse on an object without a key. *)
Inductive reset_first : bool -> list pub_op -> Prop :=
| rf_nil e : reset_first e []
| rf_reset e l : reset_first true l -> reset_first e (PReset :: l)
| rf_parse i l : reset_first false l -> reset_first true (PParse (Some i) :: l)
| rf_failed e l : reset_first e l -> reset_first e (PParse None :: l).

(** [holds n i l]: the last call on element [n] stores [i] in it. *)
Definition holds (n i : nat) (l : list key_op) : Prop := exists l1 o l2, l = l1 ++ o :: l2 /\
  (o = KLoad n (Some i) \/ exists own, o = KGive n (Some i) own) /\ Forall (fun x => ~ In n (target x)) l2.
(** [frees n l b]: whether element [n] frees its key, which is what the last SetRSAPrivateKey on it said. *)
Inductive frees (n : nat) : list key_op -> bool -> Prop :=
| fr_none l : (forall p own, ~ In (KGive n p own) l) -> frees n l true
| fr_last l1 p own l2 : (forall p' own', ~ In (KGive n p' own') l2) -> frees n (l1 ++ KGive n p own :: l2) own.
(** What is called first besides Parse that fails is Reset, or the destructor. *)
Inductive released_first : list pub_op -> Prop :=
| rl_end : released_first []
| rl_reset l : released_first (PReset :: l)
| rl_failed l : released_first l -> released_first (PParse None :: l).
