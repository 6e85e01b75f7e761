(** C51: RSA objects. *)
From Verif Require Import Bytes KeyHandles SpecHandles KeyHandleFacts.

(** Partial: the options free no object twice provided nobody copies an
    AdditionalSignaturesOptions (see C51_copy_refuted).  Each call brings a new object. *)
Theorem C51_once_partial : forall ops, NoDup (flat_map brought ops) -> existsb is_copy ops = false ->
  NoDup (k_freed (key_life ops)).
Proof. exact freed_once. Qed.
Print Assumptions C51_once_partial.

(** An object that was lent is not freed, and only owned ones are, copies or not. *)
Theorem C51_lent : forall ops i, NoDup (flat_map brought ops) -> In i (flat_map lent ops) ->
  ~ In i (k_freed (key_life ops)).
Proof. exact lent_kept. Qed.
Print Assumptions C51_lent.
Theorem C51_only_owned : forall ops i, In i (k_freed (key_life ops)) -> In i (flat_map owned ops).
Proof. exact freed_owned. Qed.
Print Assumptions C51_only_owned.

(** Partial: each owned object is freed exactly once if each element is given a key at most once. *)
Theorem C51_exactly_once_partial : forall ops i, addressed 1 ops -> NoDup (flat_map target ops) ->
  NoDup (flat_map brought ops) -> In i (flat_map owned ops) ->
  count_occ Nat.eq_dec (k_freed (key_life ops)) i = 1.
Proof. exact exactly_once. Qed.
Print Assumptions C51_exactly_once_partial.

(** An element given two keys leaks the first. *)
Theorem C51_two_loads_refuted : exists ops i, addressed 1 ops /\ NoDup (flat_map brought ops) /\
  In i (flat_map owned ops) /\ ~ In i (k_freed (key_life ops)).
Proof. exact two_loads. Qed.
Print Assumptions C51_two_loads_refuted.
(** A key loaded after a lent one leaks: the free flag stays off. *)
Theorem C51_load_after_lent_refuted : exists a b, In b (flat_map owned [KGive 0 (Some a) false; KLoad 0 (Some b)]) /\
  k_freed (key_life [KGive 0 (Some a) false; KLoad 0 (Some b)]) = [].
Proof. exact load_after_lent. Qed.
Print Assumptions C51_load_after_lent_refuted.
(** A copy of an element frees the key again. *)
Theorem C51_copy_refuted : exists ops i, NoDup (flat_map brought ops) /\
  count_occ Nat.eq_dec (k_freed (key_life ops)) i = 2.
Proof. exact copied. Qed.
Print Assumptions C51_copy_refuted.

(** PublicKey frees no object twice; it frees them all if Reset is called between two uses of Parse,
    as Validatory does; without, one leaks. *)
Theorem C51_public_once : forall ops, NoDup (flat_map pub_brought ops) -> NoDup (pub_freed (pub_life ops)).
Proof. exact pub_once. Qed.
Print Assumptions C51_public_once.
Theorem C51_public_all_partial : forall ops i, reset_first true ops -> In i (pub_created (pub_life ops)) ->
  In i (pub_freed (pub_life ops)).
Proof. exact pub_all. Qed.
Print Assumptions C51_public_all_partial.
Theorem C51_public_refuted : exists ops i, In i (pub_created (pub_life ops)) /\ ~ In i (pub_freed (pub_life ops)).
Proof. exact parsed_twice. Qed.
Print Assumptions C51_public_refuted.

Example C51_some : let ops := [KLoad 0 (Some 1); KAdd; KGive 1 (Some 2) false; KAdd; KGive 2 (Some 3) true] in
  addressed 1 ops /\ NoDup (flat_map target ops) /\ NoDup (flat_map brought ops) /\
  flat_map lent ops = [2] /\ k_freed (key_life ops) = [1; 3].
Proof. exact some_life. Qed.
Example C51_pub_some : let ops := [PParse (Some 1); PReset; PParse None; PParse (Some 2)] in
  reset_first true ops /\ NoDup (flat_map pub_brought ops) /\ pub_freed (pub_life ops) = [2; 1].
Proof. exact some_pub. Qed.

(** Exactly which objects the options free: those the last call on their element stored there, where the last
    SetRSAPrivateKey on that element, if any, said that the element owns its key. *)
Theorem C51_exact : forall ops i, addressed 1 ops ->
  In i (k_freed (key_life ops)) <-> exists n, holds n i ops /\ frees n ops true.
Proof. exact freed_iff. Qed.
Print Assumptions C51_exact.
(** Exactly which objects PublicKey frees: those which a Reset or the destructor follows before another Parse succeeds. *)
Theorem C51_public_exact : forall ops i, In i (pub_freed (pub_life ops)) <->
  exists l1 l2, ops = l1 ++ PParse (Some i) :: l2 /\ released_first l2.
Proof. exact pub_iff. Qed.
Print Assumptions C51_public_exact.
Example C51_exact_some : let ops := [KGive 0 (Some 1) false; KLoad 0 (Some 2); KAdd; KLoad 1 (Some 3)] in
  addressed 1 ops /\ holds 1 3 ops /\ frees 1 ops true /\ holds 0 2 ops /\ frees 0 ops false /\ k_freed (key_life ops) = [3].
Proof.
  cbn [app]. split; [repeat constructor; discriminate|]. split; [exists [KGive 0 (Some 1) false; KLoad 0 (Some 2); KAdd], (KLoad 1 (Some 3)), []; repeat split; auto|].
  split; [constructor; intros p own H; repeat (destruct H as [H|H]; [discriminate|]); exact H|].
  split; [exists [KGive 0 (Some 1) false], (KLoad 0 (Some 2)), [KAdd; KLoad 1 (Some 3)]; repeat split; auto; repeat constructor; cbn [target In]; intuition discriminate|].
  split; [|reflexivity]. apply (fr_last 0 [] (Some 1) false). intros p own H; repeat (destruct H as [H|H]; [discriminate|]); exact H.
Qed.
