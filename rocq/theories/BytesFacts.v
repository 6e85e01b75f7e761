(** Facts about bytes and byte strings. *)
From Verif Require Import Bytes.

(** Sweeping the 256 bytes. *)
Definition all_bytes : list ascii := map (fun n => chr (N.of_nat n)) (seq 0 256).

Lemma all_bytes_complete c : In c all_bytes.
Proof.
  apply in_map_iff. exists (N.to_nat (code c)). split.
  - rewrite N2Nat.id. apply ascii_N_embedding.
  - apply in_seq. pose proof (N_ascii_bounded c). unfold code. lia.
Qed.

Lemma byte_sweep (P : ascii -> bool) : forallb P all_bytes = true -> forall c, P c = true.
Proof. intros H c. rewrite forallb_forall in H. apply H, all_bytes_complete. Qed.

Lemma code_bound c : (code c < 256)%N.
Proof. apply N_ascii_bounded. Qed.
Lemma chr_code c : chr (code c) = c.
Proof. apply ascii_N_embedding. Qed.
Lemma code_chr n : (n < 256)%N -> code (chr n) = n.
Proof. apply N_ascii_embedding. Qed.
Lemma code_inj a b : code a = code b -> a = b.
Proof. intros H. rewrite <- (chr_code a), <- (chr_code b), H. reflexivity. Qed.

Lemma ceqb_refl c : (c =?c c) = true.
Proof. apply Ascii.eqb_refl. Qed.
Lemma ceqb_eq a b : (a =?c b) = true <-> a = b.
Proof. apply Ascii.eqb_eq. Qed.
Lemma ceqb_neq a b : (a =?c b) = false <-> a <> b.
Proof. apply Ascii.eqb_neq. Qed.
Lemma ceqb_false a b : a <> b -> (a =?c b) = false.
Proof. apply Ascii.eqb_neq. Qed.
Lemma ceqb_sym a b : (a =?c b) = (b =?c a).
Proof. apply Ascii.eqb_sym. Qed.

Lemma beqb_eq a b : beqb a b = true <-> a = b.
Proof.
  revert b. induction a as [|x a IH]; intros [|y b]; cbn; try (split; congruence).
  rewrite andb_true_iff, ceqb_eq, IH. split; [intros []|intros [= ]]; subst; auto.
Qed.
Lemma beqb_refl a : beqb a a = true.
Proof. apply beqb_eq; reflexivity. Qed.
Lemma beqb_neq a b : beqb a b = false <-> a <> b.
Proof.
  rewrite <- beqb_eq. destruct (beqb a b); split; congruence.
Qed.
Lemma beqb_sym a b : beqb a b = beqb b a.
Proof.
  destruct (beqb a b) eqn:E.
  - apply beqb_eq in E. subst. symmetry. apply beqb_refl.
  - symmetry. apply beqb_neq. apply beqb_neq in E. congruence.
Qed.
Lemma beqb_spec a b : reflect (a = b) (beqb a b).
Proof. apply iff_reflect. symmetry. apply beqb_eq. Qed.

Lemma memb_In x l : memb x l = true <-> In x l.
Proof.
  unfold memb. rewrite existsb_exists. split.
  - intros (y & Hy & E). apply beqb_eq in E. congruence.
  - intros H. exists x. split; auto. apply beqb_refl.
Qed.

(** find_char *)
Lemma find_char_Some c s n :
  find_char c s = Some n <->
  exists pre post, s = pre ++ c :: post /\ length pre = n /\ ~ In c pre.
Proof.
  revert n. induction s as [|x s IH]; intros n; cbn.
  - split; [discriminate|]. intros (pre & post & E & _). destruct pre; discriminate.
  - destruct (x =?c c) eqn:E.
    + apply ceqb_eq in E. subst x. split.
      * intros [= <-]. exists [], s. auto.
      * intros (pre & post & E & L & N). destruct pre as [|y pre]; cbn in *.
        -- congruence.
        -- injection E as -> ->. destruct N; auto.
    + apply ceqb_neq in E. destruct (find_char c s) as [m|] eqn:F.
      * split.
        -- intros [= <-]. destruct (proj1 (IH m) eq_refl) as (pre & post & -> & L & N).
           exists (x :: pre), post. cbn. repeat split; auto. intros [H|H]; auto.
        -- intros (pre & post & E2 & L & N). destruct pre as [|y pre]; cbn in *.
           { congruence. } injection E2 as <- ->.
           rewrite <- L.
           assert (E3 : Some m = Some (length pre)) by (apply IH; exists pre, post; repeat split; auto).
           congruence.
      * split; [discriminate|]. intros (pre & post & E2 & L & N). destruct pre as [|y pre]; cbn in *.
        { congruence. } injection E2 as <- ->.
        assert (None = Some (length pre)) by (apply IH; exists pre, post; repeat split; auto). discriminate.
Qed.

Lemma find_char_None c s : find_char c s = None <-> ~ In c s.
Proof.
  induction s as [|x s IH]; cbn; [split; auto|].
  destruct (x =?c c) eqn:E.
  - apply ceqb_eq in E. subst. split; [discriminate|]. intros H; destruct H; auto.
  - apply ceqb_neq in E. destruct (find_char c s).
    + split; [discriminate|]. intros H. exfalso.
      assert (Some n = None); [|discriminate]. apply IH. auto.
    + split; auto. intros _ [H|H]; auto. revert H. apply IH. reflexivity.
Qed.

Lemma find_char_app c pre post : ~ In c pre -> find_char c (pre ++ c :: post) = Some (length pre).
Proof. intros H. apply find_char_Some. exists pre, post. auto. Qed.

(** find_first_not / find_last_not *)
Lemma find_first_not_None p s : find_first_not p s = None <-> forallb p s = true.
Proof.
  induction s as [|x s IH]; cbn; [tauto|].
  destruct (p x); cbn; [|split; discriminate].
  destruct (find_first_not p s); rewrite <- IH; split; congruence.
Qed.
Lemma find_first_not_app p pre x post :
  forallb p pre = true -> p x = false -> find_first_not p (pre ++ x :: post) = Some (length pre).
Proof.
  induction pre as [|y pre IH]; cbn; intros H1 H2.
  - rewrite H2. reflexivity.
  - apply andb_true_iff in H1 as [-> H1]. rewrite IH; auto.
Qed.
Lemma find_last_not_None p s : find_last_not p s = None <-> forallb p s = true.
Proof.
  induction s as [|x s IH]; cbn; [tauto|].
  destruct (find_last_not p s).
  - split; [discriminate|]. intros H. apply andb_true_iff in H as [_ H]. apply IH in H. discriminate.
  - destruct (p x); cbn; [|split; discriminate]. tauto.
Qed.
Lemma find_last_not_app p pre x post :
  forallb p post = true -> p x = false -> find_last_not p (pre ++ x :: post) = Some (length pre).
Proof.
  induction pre as [|y pre IH]; cbn; intros H1 H2.
  - apply find_last_not_None in H1. rewrite H1, H2. reflexivity.
  - rewrite IH; auto.
Qed.

(** Splitting off the longest prefix satisfying [p]. *)
Fixpoint span (p : ascii -> bool) (s : bytes) : bytes * bytes :=
  match s with
  | [] => ([], [])
  | c :: r => if p c then let '(a, b) := span p r in (c :: a, b) else ([], s)
  end.
Lemma span_app p s a b : span p s = (a, b) -> s = a ++ b.
Proof.
  revert a b. induction s as [|c s IH]; cbn; intros a b.
  - intros [= <- <-]. reflexivity.
  - destruct (p c).
    + destruct (span p s) as [a' b']. intros [= <- <-]. cbn. f_equal. auto.
    + intros [= <- <-]. reflexivity.
Qed.
Lemma span_all p s a b : span p s = (a, b) -> forallb p a = true.
Proof.
  revert a b. induction s as [|c s IH]; cbn; intros a b.
  - intros [= <- <-]. reflexivity.
  - destruct (p c) eqn:E.
    + destruct (span p s) as [a' b'] eqn:F. intros [= <- <-]. cbn. rewrite E. eapply IH. eauto.
    + intros [= <- <-]. reflexivity.
Qed.
Lemma span_stop p s a b : span p s = (a, b) -> match b with [] => True | c :: _ => p c = false end.
Proof.
  revert a b. induction s as [|c s IH]; cbn; intros a b.
  - intros [= <- <-]. exact I.
  - destruct (p c) eqn:E.
    + destruct (span p s) as [a' b'] eqn:F. intros [= <- <-]. eapply IH. eauto.
    + intros [= <- <-]. exact E.
Qed.
Lemma span_intro p a b :
  forallb p a = true -> match b with [] => True | c :: _ => p c = false end -> span p (a ++ b) = (a, b).
Proof.
  induction a as [|c a IH]; cbn; intros H1 H2.
  - destruct b as [|c b]; cbn; [reflexivity|]. rewrite H2. reflexivity.
  - apply andb_true_iff in H1 as [-> H1]. rewrite IH; auto.
Qed.

Lemma forallb_app' {A} (p : A -> bool) a b : forallb p (a ++ b) = forallb p a && forallb p b.
Proof. apply forallb_app. Qed.

Lemma rev_append_rev' {A} (a b : list A) : rev_append a b = rev a ++ b.
Proof. apply rev_append_rev. Qed.

Lemma lower_app a b : lower (a ++ b) = lower a ++ lower b.
Proof. apply map_app. Qed.
Lemma lower_length a : length (lower a) = length a.
Proof. apply map_length. Qed.

Lemma tolower_idem c : tolower (tolower c) = tolower c.
Proof. apply ceqb_eq. revert c. apply byte_sweep. vm_compute. reflexivity. Qed.
Lemma lower_idem s : lower (lower s) = lower s.
Proof. unfold lower. rewrite map_map. apply map_ext. apply tolower_idem. Qed.

Lemma skipn_app_exact {A} (a b : list A) : skipn (length a) (a ++ b) = b.
Proof. rewrite skipn_app, skipn_all, Nat.sub_diag. reflexivity. Qed.
Lemma firstn_app_exact {A} (a b : list A) : firstn (length a) (a ++ b) = a.
Proof. rewrite firstn_app, firstn_all, Nat.sub_diag. cbn. apply app_nil_r. Qed.
Lemma erase_at_app a b c : erase_at (a ++ b ++ c) (length a) (length b) = a ++ c.
Proof.
  unfold erase_at. rewrite firstn_app_exact. f_equal.
  rewrite app_assoc, <- app_length. apply skipn_app_exact.
Qed.
