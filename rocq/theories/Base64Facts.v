(** Base64: proofs. *)
From Verif Require Import Bytes Outcome Base64 BytesFacts SpecText.

Local Open Scope N_scope.

Definition upto (n : nat) : list N := map N.of_nat (seq 0 n).
Lemma upto_sweep n (P : N -> bool) : forallb P (upto n) = true -> forall k, k < N.of_nat n -> P k = true.
Proof.
  intros H k L. rewrite forallb_forall in H. apply H. unfold upto. apply in_map_iff.
  exists (N.to_nat k). split; [lia|]. apply in_seq. lia.
Qed.

Lemma b64_val_char n : n < 64 -> b64_val (b64_char n) = Some n.
Proof.
  intros L. assert (E : (match b64_val (b64_char n) with Some m => m =? n | None => false end) = true).
  { revert n L. apply (upto_sweep 64). vm_compute. reflexivity. }
  destruct (b64_val (b64_char n)); [|discriminate]. apply N.eqb_eq in E. congruence.
Qed.
Lemma b64_char_eq n : n < 64 -> (b64_char n =?c EQUALS) = false.
Proof.
  intros L. apply negb_true_iff. revert n L. apply (upto_sweep 64). vm_compute. reflexivity.
Qed.

Ltac divmod := zify; Z.to_euclidean_division_equations; lia.

Lemma six1 a : a < 256 -> a / 4 < 64.
Proof. intros. divmod. Qed.
Lemma six2 a b : b < 256 -> a mod 4 * 16 + b / 16 < 64.
Proof. intros. divmod. Qed.
Lemma six2' a : a mod 4 * 16 < 64.
Proof. divmod. Qed.
Lemma six3 b c : c < 256 -> b mod 16 * 4 + c / 64 < 64.
Proof. intros. divmod. Qed.
Lemma six3' b : b mod 16 * 4 < 64.
Proof. divmod. Qed.
Lemma six4 c : c mod 64 < 64.
Proof. divmod. Qed.

Lemma oct1 a b : b < 256 -> a / 4 * 4 + (a mod 4 * 16 + b / 16) / 16 = a.
Proof. intros. divmod. Qed.
Lemma oct1' a : a / 4 * 4 + (a mod 4 * 16) / 16 = a.
Proof. divmod. Qed.
Lemma oct2 a b c : b < 256 -> c < 256 ->
  (a mod 4 * 16 + b / 16) mod 16 * 16 + (b mod 16 * 4 + c / 64) / 4 = b.
Proof.
  intros. replace ((a mod 4 * 16 + b / 16) mod 16) with (b / 16).
  - divmod.
  - rewrite N.add_comm, N.mod_add by lia. symmetry. apply N.mod_small. divmod.
Qed.
Lemma oct2' a b : b < 256 -> (a mod 4 * 16 + b / 16) mod 16 * 16 + (b mod 16 * 4) / 4 = b.
Proof.
  intros. replace ((a mod 4 * 16 + b / 16) mod 16) with (b / 16).
  - divmod.
  - rewrite N.add_comm, N.mod_add by lia. symmetry. apply N.mod_small. divmod.
Qed.
Lemma oct3 b c : c < 256 -> (b mod 16 * 4 + c / 64) mod 4 * 64 + c mod 64 = c.
Proof.
  intros. replace ((b mod 16 * 4 + c / 64) mod 4) with (c / 64).
  - divmod.
  - rewrite N.add_comm, N.mod_add by lia. symmetry. apply N.mod_small. divmod.
Qed.

Lemma b64_round d : b64_strict (Base64_Encode d) = Some d.
Proof.
  enough (H : forall n (d : bytes), (length d <= n)%nat -> b64_strict (Base64_Encode d) = Some d).
  { eapply H. apply Nat.le_refl. }
  clear d. induction n as [|n IH]; intros d L.
  { destruct d; [reflexivity|cbn in L; lia]. }
  destruct d as [|a [|b [|c d]]]; [reflexivity|..]; cbn [Base64_Encode b64_strict].
  - pose proof (code_bound a).
    rewrite !b64_val_char by auto using six1, six2'. rewrite ceqb_refl, oct1', chr_code. reflexivity.
  - pose proof (code_bound a). pose proof (code_bound b).
    rewrite !b64_val_char by auto using six1, six2, six3'.
    rewrite b64_char_eq by apply six3'. rewrite ceqb_refl, oct1, oct2', !chr_code by auto. reflexivity.
  - pose proof (code_bound a). pose proof (code_bound b). pose proof (code_bound c).
    rewrite !b64_val_char by auto using six1, six2, six3, six4.
    rewrite !b64_char_eq by auto using six3, six4.
    rewrite IH by (cbn in L; lia). rewrite oct1, oct2, oct3, !chr_code by auto. reflexivity.
Qed.

Lemma Base64_round junk d : Base64_Decode junk (Base64_Encode d) = d.
Proof. unfold Base64_Decode. rewrite b64_round. reflexivity. Qed.

Lemma b64_letterb n : b64_letter (b64_char n).
Proof.
  destruct (N.lt_ge_cases n 64) as [L|G].
  - assert (E : (in_range 65 90 (b64_char n) || in_range 97 122 (b64_char n) || in_range 48 57 (b64_char n)
      || (b64_char n =?c chr 43) || (b64_char n =?c chr 47)) = true).
    { revert n L. apply (upto_sweep 64). vm_compute. reflexivity. }
    unfold b64_letter. unfold in_range in E. rewrite !orb_true_iff, !andb_true_iff, !N.leb_le, !ceqb_eq in E.
    unfold between. tauto.
  - unfold b64_char. rewrite nth_overflow. { unfold b64_letter. tauto. }
    change (length b64_alphabet) with (N.to_nat 64). lia.
Qed.

Lemma Base64_letters d : Forall b64_letter (Base64_Encode d).
Proof.
  enough (H : forall n (d : bytes), (length d <= n)%nat -> Forall b64_letter (Base64_Encode d)).
  { eapply H. apply Nat.le_refl. }
  assert (EQ : b64_letter EQUALS) by (unfold b64_letter; tauto).
  clear d. induction n as [|n IH]; intros d L.
  { destruct d; [constructor|cbn in L; lia]. }
  destruct d as [|a [|b [|c d]]]; cbn [Base64_Encode]; repeat apply Forall_cons; auto using b64_letterb.
  apply IH. cbn in L. lia.
Qed.

Lemma b64_letter_range c : b64_letter c -> (33 <= code c <= 126)%N.
Proof.
  unfold b64_letter, between.
  intros [H|[H|[H|[H|[H|H]]]]]; try lia; subst; vm_compute; split; discriminate.
Qed.
Lemma b64_letter_space c : b64_letter c -> isspace c = false.
Proof.
  intros H. apply b64_letter_range in H. unfold isspace, in_range.
  replace (code c <=? 13) with false by (symmetry; apply N.leb_gt; lia).
  rewrite andb_false_r. apply ceqb_neq. intros ->. vm_compute in H. destruct H as [H _]. auto.
Qed.
Lemma b64_letter_8bit c : b64_letter c -> is_8bit c = false.
Proof.
  intros H. apply b64_letter_range in H. apply N.leb_gt. lia.
Qed.

Lemma isspace_spec c : isspace c = true <-> (between 9 13 c \/ c = SP).
Proof.
  unfold isspace, in_range, between. rewrite orb_true_iff, andb_true_iff, !N.leb_le, ceqb_eq. tauto.
Qed.

(** Stripping undoes inserting whitespace. *)
Lemma strip_spaced (p : ascii -> Prop) s t : (forall c, p c -> isspace c = true) ->
  spaced p s t -> forallb (fun c => negb (isspace c)) s = true -> filter (fun c => negb (isspace c)) t = s.
Proof.
  intros Hp. induction 1; cbn [forallb filter]; auto.
  - intros H1. apply andb_true_iff in H1 as [H1 H2]. rewrite H1. f_equal. auto.
  - intros H1. rewrite (Hp c) by auto. cbn [negb]. auto.
Qed.
Lemma spaced_8bit (p : ascii -> Prop) s t : (forall c, p c -> is_8bit c = false) ->
  spaced p s t -> existsb is_8bit s = false -> existsb is_8bit t = false.
Proof.
  intros Hp. induction 1; cbn [existsb]; auto.
  - intros H1. apply orb_false_iff in H1 as [H1 H2]. rewrite H1. auto.
  - intros H1. rewrite (Hp c) by auto. auto.
Qed.

(** Forall and boolean predicates. *)
Lemma Forall_forallb {A} (P : A -> Prop) (p : A -> bool) l :
  (forall x, P x -> p x = true) -> Forall P l -> forallb p l = true.
Proof. intros H F. induction F; cbn; auto. rewrite H, IHF; auto. Qed.
Lemma existsb_false_forallb {A} (p : A -> bool) l :
  forallb (fun x => negb (p x)) l = true -> existsb p l = false.
Proof.
  induction l as [|x l IH]; cbn; auto. intros H. apply andb_true_iff in H as [H1 H2].
  apply negb_true_iff in H1. rewrite H1. auto.
Qed.

Lemma Base64_folded strict junk d t :
  spaced (fun c => between 9 13 c \/ c = SP) (Base64_Encode d) t ->
  exists s, strip_space strict t = Ok s /\ Base64_Decode junk s = d.
Proof.
  intros S. pose proof (Base64_letters d) as L. exists (Base64_Encode d). split; [|apply Base64_round].
  unfold strip_space. erewrite spaced_8bit; eauto.
  - rewrite andb_false_r. f_equal. eapply strip_spaced; eauto.
    + intros c H. apply isspace_spec; auto.
    + eapply Forall_forallb; [|exact L]. intros c H. rewrite b64_letter_space; auto.
  - intros c [H|H].
    + destruct H. apply N.leb_gt. lia.
    + subst. reflexivity.
  - apply existsb_false_forallb. eapply Forall_forallb; [|exact L]. intros c H. rewrite b64_letter_8bit; auto.
Qed.
