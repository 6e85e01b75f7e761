(** Numbers are shown in one way only (for C96). *)
From Verif Require Import Bytes SpecText SpecTags SpecSig SpecError BytesFacts.

Lemma dec_snoc x c : dec_value (x ++ [c]) = (10 * dec_value x + (code c - 48))%N.
Proof. unfold dec_value. rewrite fold_left_app. reflexivity. Qed.
Lemma dec_grows x : forall a, (a <= fold_left (fun a c => 10 * a + (code c - 48)) x a)%N.
Proof. induction x as [|c x IH]; intros a; cbn [fold_left]; [lia|]. specialize (IH (10 * a + (code c - 48))%N). lia. Qed.
Lemma dec_positive c x : between 48 57 c -> c <> chr 48 -> (0 < dec_value (c :: x))%N.
Proof.
  intros [A B] N. unfold dec_value. cbn [fold_left]. pose proof (dec_grows x (10 * 0 + (code c - 48))%N) as G.
  assert (code c <> 48)%N.
  { intros E. apply N. rewrite <- (ascii_N_embedding c). change (N_of_ascii c) with (code c). rewrite E. reflexivity. }
  lia.
Qed.
Lemma code_eq c d : code c = code d -> c = d.
Proof. intros E. rewrite <- (ascii_N_embedding c), <- (ascii_N_embedding d). change (N_of_ascii c) with (code c). rewrite E. reflexivity. Qed.
Lemma dec_unique d : forall d', digits d -> digits d' -> first_ok (fun c => c <> chr 48) d -> first_ok (fun c => c <> chr 48) d' ->
  dec_value d = dec_value d' -> d = d'.
Proof.
  induction d as [|c x IH] using rev_ind; intros d' [N F] [N' F'] Z Z' E; [congruence|].
  destruct (exists_last N') as (x' & c' & ->). apply Forall_app in F as [FX FC], F' as [FX' FC'].
  inversion FC as [|? ? [C1 C2] _]; inversion FC' as [|? ? [C1' C2'] _]; subst. rewrite !dec_snoc in E.
  assert (EC : code c = code c') by (zify; lia). assert (EX : dec_value x = dec_value x') by lia. apply code_eq in EC. subst c'. f_equal.
  destruct x as [|a x], x' as [|a' x']; auto.
  - exfalso. inversion FX'; subst. pose proof (dec_positive a' x' ltac:(auto) Z'). change (dec_value []) with 0%N in EX. lia.
  - exfalso. inversion FX; subst. pose proof (dec_positive a x ltac:(auto) Z). change (dec_value []) with 0%N in EX. lia.
  - apply IH; auto; (split; [discriminate|assumption]).
Qed.
Lemma dec_shown_fun d d' k : dec_shown d k -> dec_shown d' k -> d = d'.
Proof.
  assert (Z : forall d, digits d -> first_ok (fun c => c <> chr 48) d -> dec_value d <> 0%N).
  { intros [|c x] [N F] Z; [congruence|]. inversion F; subst. pose proof (dec_positive c x ltac:(auto) Z). lia. }
  intros (D & V & [->|F]) (D' & V' & [->|F']); auto.
  - exfalso. apply (Z d' D' F'). rewrite V', <- V. reflexivity.
  - exfalso. apply (Z d D F). rewrite V, <- V'. reflexivity.
  - apply dec_unique; auto. congruence.
Qed.
Lemma low_hex_fun c c' v : low_hex c v -> low_hex c' v -> c = c'.
Proof. intros [[A ->]|[A ->]] [[B ->]|[B ->]]; auto; lia. Qed.
Lemma hex_shown_fun h h' c : hex_shown h c -> hex_shown h' c -> h = h'.
Proof.
  intros [[L (d & -> & A)]|[L (d & e & -> & A & B)]] [[L' (d' & -> & A')]|[L' (d' & e' & -> & A' & B')]]; try lia.
  - f_equal. eapply low_hex_fun; eauto.
  - f_equal; [eapply low_hex_fun; eauto|f_equal; eapply low_hex_fun; eauto].
Qed.
Lemma byte_at_fun a b m m' c k : byte_at a b m c k -> byte_at a b m' c k -> m = m'.
Proof.
  intros (h & d & -> & H & D) (h' & d' & -> & H' & D'). rewrite (hex_shown_fun _ _ _ H H'), (dec_shown_fun _ _ _ D D'). reflexivity.
Qed.
Lemma at_place_fun a m m' k : at_place a m k -> at_place a m' k -> m = m'.
Proof. intros (d & -> & D) (d' & -> & D'). rewrite (dec_shown_fun _ _ _ D D'). reflexivity. Qed.
