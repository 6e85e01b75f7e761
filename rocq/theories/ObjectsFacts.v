(** Facts about several options objects in one program. *)
From Verif Require Import Bytes Outcome Util Canonicalization Crypto SignatoryOptions SpecOptions OptionsFacts OptionObjects SpecObjects Examples.
From Coq Require Import Lia.

Lemma told_taking t l : told t l = taking t l.
Proof. destruct t; reflexivity. Qed.
Lemma names_the_list x o : names_of x o = the_list x o.
Proof. destruct x; reflexivity. Qed.
Lemma update_nth_replace {A} (x : A) : forall l i, update_nth i x l = replace i x l.
Proof.
  unfold update_nth. induction l as [|y l IH]; intros [|i]; cbn [firstn skipn replace app]; try reflexivity.
  rewrite <- IH. reflexivity.
Qed.
Lemma nth_replace {A} (x : A) : forall l i k, nth_error (replace i x l) k =
  if Nat.eqb k i then (match nth_error l i with Some _ => Some x | None => None end) else nth_error l k.
Proof.
  induction l as [|y l IH]; intros [|i] [|k]; cbn [replace nth_error Nat.eqb]; try reflexivity; [destruct (Nat.eqb k i); reflexivity|apply IH].
Qed.
Lemma length_replace {A} (x : A) : forall l i, length (replace i x l) = length l.
Proof. induction l as [|y l IH]; intros [|i]; cbn [replace length]; auto. Qed.

Lemma object_put w i b k : object (put i b w) k =
  if Nat.eqb k i then (match nth_error w i with Some _ => b | None => None end) else object w k.
Proof.
  unfold object, put. rewrite update_nth_replace, nth_replace. destruct (Nat.eqb k i); [|reflexivity].
  destruct (nth_error w i); [destruct b; reflexivity|reflexivity].
Qed.
Lemma object_in w i b : object w i = Some b -> nth_error w i = Some (Some b).
Proof. unfold object. destruct (nth_error w i) as [[c|]|]; intros T; try discriminate. injection T as ->. reflexivity. Qed.
Lemma length_put w i b : length (put i b w) = length w.
Proof. unfold put. rewrite update_nth_replace. apply length_replace. Qed.
Lemma value_replace v i o k : value (replace i o v) k =
  if Nat.eqb k i then (match nth_error v i with Some _ => o | None => None end) else value v k.
Proof.
  unfold value. rewrite nth_replace. destruct (Nat.eqb k i); [|reflexivity].
  destruct (nth_error v i); [destruct o; reflexivity|reflexivity].
Qed.

(** *** Without assignment the objects are values *)
Definition sound (w : world) : Prop := forall i b, object w i = Some b -> b_at b = i.
Definition erase (w : world) : values := map (option_map b_own) w.
Lemma value_erase w i : value (erase w) i = members w i.
Proof.
  unfold value, erase, members, object. rewrite nth_error_map. destruct (nth_error w i) as [[b|]|]; reflexivity.
Qed.
Lemma erase_put w i b : erase (put i b w) = replace i (option_map b_own b) (erase w).
Proof.
  unfold erase, put. rewrite update_nth_replace. revert i.
  induction w as [|y w IH]; intros [|i]; cbn [replace map]; [reflexivity..|]. now rewrite IH.
Qed.
Lemma sound_put w i b : sound w -> (forall c, b = Some c -> b_at c = i) -> sound (put i b w).
Proof.
  intros W B k c. rewrite object_put. destruct (Nat.eqb_spec k i) as [->|_]; [|apply W].
  destruct (nth_error w i); [apply B|discriminate].
Qed.
Lemma object_snoc w b k : object (w ++ [b]) k = if Nat.eqb k (length w) then b else object w k.
Proof.
  unfold object. destruct (Nat.eqb_spec k (length w)) as [->|N].
  - rewrite nth_error_app2, Nat.sub_diag by lia. cbn [nth_error]. destruct b; reflexivity.
  - destruct (Nat.ltb_spec k (length w)) as [L|L].
    + rewrite nth_error_app1 by exact L. reflexivity.
    + rewrite (proj2 (nth_error_None (w ++ [b]) k)) by (rewrite app_length; cbn [length]; lia).
      rewrite (proj2 (nth_error_None w k)) by exact L. reflexivity.
Qed.

(** A call that works on the members alone. *)
Definition on_members (x : op) : bool := match x with OnMain _ => false | _ => true end.
Lemma act_members C w i x b : object w i = Some b -> on_members x = true ->
  act C (Call i x) w = let '(o, r) := run_op C x (b_own b) in (put i (Some (mkObjekt o (b_at b))) w, Did r).
Proof. intros O M. unfold act. rewrite O. destruct x; try discriminate M; reflexivity. Qed.
Lemma taking_members t l : on_members (taking t l) = true.
Proof. destruct t; reflexivity. Qed.

Definition honest (d : deed) : Prop :=
  match d with
  | Assign i j => i = j
  | Pass i t j x => i = j -> x = Headers -> t <> ToAdd /\ t <> ToDel
  | _ => True
  end.
Lemma act_plain C d w : sound w -> honest d ->
  sound (fst (act C d w)) /\ plain C d (erase w) = (erase (fst (act C d w)), snd (act C d w)).
Proof.
  intros W H. destruct d as [|i x|i t j x|i j|i].
  - cbn [act plain fst snd]. split.
    + intros k b. rewrite object_snoc. destruct (Nat.eqb_spec k (length w)) as [->|_]; [|apply W].
      intros T. injection T as <-. reflexivity.
    + unfold erase. rewrite map_app. reflexivity.
  - cbn [plain]. rewrite value_erase. unfold members. destruct (object w i) as [b|] eqn:O; cbn [option_map].
    2:{ unfold act. rewrite O. cbn [fst snd]. auto. }
    destruct (on_members x) eqn:M.
    + rewrite (act_members C w i x b O M). destruct (run_op C x (b_own b)) as [o r]. cbn [fst snd].
      split; [apply sound_put; [exact W|intros c T; injection T as <-; exact (W i b O)]|].
      rewrite erase_put. reflexivity.
    + destruct x; try discriminate M. unfold act. rewrite O. rewrite (W i b O), O. cbn [run_op].
      destruct (run_sig_op C m (o_main (b_own b))) as [s r]. cbn [fst snd]. 
      split; [apply sound_put; [exact W|intros c T; injection T as <-; exact (W i b O)]|].
      rewrite erase_put. reflexivity.
  - cbn [plain]. rewrite !value_erase. unfold members, act. destruct (object w i) as [b|] eqn:O; cbn [option_map]; [|auto].
    destruct (object w j) as [c|] eqn:P; cbn [option_map]; [|auto].
    assert (E : Nat.eqb i j && own_list t x (b_own b) = false).
    { destruct (Nat.eqb_spec i j) as [->|_]; [|reflexivity]. cbn [honest] in H. cbn [andb].
      destruct x; [|destruct t; reflexivity]. destruct (H eq_refl eq_refl) as [A D]. destruct t; try reflexivity; contradiction. }
    rewrite E. change (told t (names_of x (b_own c))) with (taking t (the_list x (b_own c))). destruct (run_op C (taking t (the_list x (b_own c))) (b_own b)) as [o r]. cbn [fst snd].
    split; [apply sound_put; [exact W|intros k T; injection T as <-; exact (W i b O)]|].
    rewrite erase_put. reflexivity.
  - cbn [honest] in H. subst j. cbn [plain]. rewrite value_erase. unfold members, act.
    destruct (object w i) as [b|] eqn:O; cbn [option_map fst snd]; [|auto].
    split; [apply sound_put; [exact W|intros k T; injection T as <-; exact (W i b O)]|].
    rewrite erase_put. reflexivity.
  - cbn [plain]. rewrite value_erase. unfold members, act.
    destruct (object w i) as [b|] eqn:O; cbn [option_map fst snd]; [|auto].
    split; [apply sound_put; [exact W|discriminate]|]. rewrite erase_put. reflexivity.
Qed.

Lemma after_app C a b : after C (a ++ b) = fold_left (fun w d => fst (act C d w)) b (after C a).
Proof. apply fold_left_app. Qed.
Lemma after_snoc C ds d : after C (ds ++ [d]) = fst (act C d (after C ds)).
Proof. rewrite after_app. reflexivity. Qed.
Lemma plain_after_snoc C ds d : plain_after C (ds ++ [d]) = fst (plain C d (plain_after C ds)).
Proof. unfold plain_after. rewrite fold_left_app. reflexivity. Qed.

Lemma honest_all ds : unassigned ds -> unaliased ds -> Forall honest ds.
Proof.
  intros A B. unfold unassigned, unaliased in *. rewrite Forall_forall in *. intros d I.
  specialize (A d I). specialize (B d I). destruct d; cbn [honest]; auto.
Qed.
Lemma after_plain C ds : Forall honest ds -> sound (after C ds) /\ plain_after C ds = erase (after C ds).
Proof.
  induction ds as [|d ds IH] using rev_ind; intros H.
  - split; [|reflexivity]. intros i b T. unfold after, object in T. cbn in T. destruct i; discriminate.
  - apply Forall_app in H. destruct H as [H1 H2]. apply Forall_inv in H2. destruct (IH H1) as [W E].
    rewrite after_snoc, plain_after_snoc, E. destruct (act_plain C d (after C ds) W H2) as [W1 E1]. rewrite E1. auto.
Qed.

Lemma objects_plain C ds d : unassigned (ds ++ [d]) -> unaliased (ds ++ [d]) ->
  reply_to C ds d = plain_reply C ds d /\ forall i,
  members (after C (ds ++ [d])) i = value (plain_after C (ds ++ [d])) i /\
  through (after C (ds ++ [d])) i = option_map o_main (value (plain_after C (ds ++ [d])) i).
Proof.
  intros A B. pose proof (honest_all _ A B) as H. destruct (after_plain C _ H) as [W E]. split.
  - apply Forall_app in H. destruct H as [H1 H2]. apply Forall_inv in H2. destruct (after_plain C ds H1) as [W1 E1].
    unfold reply_to, plain_reply. rewrite E1. destruct (act_plain C d (after C ds) W1 H2) as [_ ->]. reflexivity.
  - intros i. rewrite E, value_erase. split; [reflexivity|]. unfold through, members.
    destruct (object (after C (ds ++ [d])) i) as [b|] eqn:O; [|reflexivity]. rewrite (W i b O), O. reflexivity.
Qed.

(** *** Only its own calls *)
Lemma run_ops_app C : forall a b o, run_ops C (a ++ b) o = run_ops C b (run_ops C a o).
Proof. induction a as [|x a IH]; intros b o; cbn [app run_ops]; [reflexivity|apply IH]. Qed.
Fixpoint makes (ds : list deed) : nat := match ds with [] => 0 | Make :: r => S (makes r) | _ :: r => makes r end.
Lemma makes_app a b : makes (a ++ b) = makes a + makes b.
Proof. induction a as [|[] a IH]; cbn [app makes]; rewrite ?IH; reflexivity. Qed.
Lemma calls_to_app i : forall a n b, calls_to i n (a ++ b) = calls_to i n a ++ calls_to i (n + makes a) b.
Proof.
  induction a as [|d a IH]; intros n b; cbn [app calls_to makes]; [rewrite Nat.add_0_r; reflexivity|].
  destruct d; cbn [calls_to makes]; rewrite ?IH; try reflexivity.
  - rewrite Nat.add_succ_r. reflexivity.
  - destruct (Nat.eqb i0 i && Nat.ltb i n); reflexivity.
Qed.
Lemma length_after C ds : length (after C ds) = makes ds.
Proof.
  induction ds as [|d ds IH] using rev_ind; [reflexivity|]. rewrite after_snoc, makes_app. rewrite <- IH. generalize (after C ds). intros w.
  destruct d as [|i x|i t j x|i j|i]; cbn [act makes]; rewrite ?Nat.add_0_r.
  - cbn [fst]. rewrite app_length. reflexivity.
  - destruct (object w i) as [b|]; [|reflexivity].
    destruct x; try (match goal with |- context [let '(_, _) := ?p in _] => destruct p end; cbn [fst]; apply length_put).
    destruct (object w (b_at b)) as [t|]; [|reflexivity]. destruct (run_sig_op C m (o_main (b_own t))). apply length_put.
  - destruct (object w i) as [b|]; [|reflexivity]. destruct (object w j) as [c|]; [|reflexivity].
    destruct (Nat.eqb i j && own_list t x (b_own b)); [reflexivity|].
    destruct (run_op C (taking t (the_list x (b_own c))) (b_own b)). apply length_put.
  - destruct (object w i) as [b|]; [|reflexivity]. destruct (object w j) as [c|]; [|reflexivity]. apply length_put.
  - destruct (object w i) as [b|]; [|reflexivity]. apply length_put.
Qed.

Lemma own_calls C ds i o : only_calls ds -> members (after C ds) i = Some o ->
  o = run_ops C (calls_to i 0 ds) new_options /\ through (after C ds) i = Some (o_main o).
Proof.
  intros K M.
  assert (H : Forall honest ds).
  { unfold only_calls in K. rewrite Forall_forall in *. intros d I. specialize (K d I). destruct d; cbn [honest]; tauto. }
  destruct (after_plain C ds H) as [W _]. split.
  - revert o M. clear W H. induction ds as [|d ds IH] using rev_ind; intros o M.
    { unfold members, object, after in M. cbn in M. destruct i; discriminate. }
    pose proof (length_after C ds) as L.
    assert (H : Forall honest ds).
    { unfold only_calls in K. rewrite Forall_forall in *. intros e I. assert (J : In e (ds ++ [d])) by (apply in_or_app; auto).
      specialize (K e J). destruct e; cbn [honest]; tauto. }
    destruct (after_plain C ds H) as [W E].
    apply Forall_app in K. destruct K as [K1 K2]. apply Forall_inv in K2. specialize (IH K1).
    assert (V : value (plain_after C (ds ++ [d])) i = Some o).
    { assert (H2 : Forall honest (ds ++ [d])) by (apply Forall_app; split; [exact H|]; constructor; [destruct d; cbn [honest]; tauto|constructor]).
      destruct (after_plain C _ H2) as [_ ->]. rewrite value_erase. exact M. }
    rewrite plain_after_snoc in V. rewrite calls_to_app, run_ops_app, <- L. cbn [Nat.add].
    assert (G : forall p, value (plain_after C ds) i = Some p -> p = run_ops C (calls_to i 0 ds) new_options /\ i < length (after C ds)).
    { intros p P. rewrite E, value_erase in P. split; [apply IH; exact P|].
      unfold members in P. destruct (object (after C ds) i) as [b|] eqn:O; [|discriminate]. apply object_in in O.
      apply nth_error_Some. rewrite O. discriminate. }
    assert (R : forall q, value (replace i q (plain_after C ds)) i = Some o -> q = Some o).
    { intros q T. rewrite value_replace, Nat.eqb_refl in T. destruct (nth_error (plain_after C ds) i); [exact T|discriminate]. }
    destruct d as [|k x|k t j x|k j|k]; cbn [calls_to]; try contradiction K2.
    + cbn [plain fst] in V. unfold value in V. cbn [run_ops].
      destruct (Nat.ltb_spec i (length (after C ds))) as [LT|GE].
      * apply IH. rewrite <- value_erase, <- E. unfold value. rewrite nth_error_app1 in V; [exact V|].
        rewrite E. unfold erase. rewrite map_length. exact LT.
      * destruct (Nat.eq_dec i (length (after C ds))) as [->|N].
        -- rewrite nth_error_app2 in V by (rewrite E; unfold erase; rewrite map_length; lia).
           rewrite E in V. unfold erase in V. rewrite map_length, Nat.sub_diag in V. cbn [nth_error] in V. injection V as <-.
           assert (Z : calls_to (length (after C ds)) 0 ds = []).
           { rewrite L. clear. change (makes ds) with (0 + makes ds). generalize 0. induction ds as [|d ds IH]; intros n; [reflexivity|].
             destruct d; cbn [calls_to makes]; [rewrite Nat.add_succ_r; exact (IH (S n))| |apply IH..].
             rewrite (proj2 (Nat.ltb_ge (n + makes ds) n)) by lia. rewrite Bool.andb_false_r. apply IH. }
           rewrite Z. reflexivity.
        -- rewrite (proj2 (nth_error_None _ _)) in V; [discriminate|]. rewrite E. unfold erase. rewrite app_length, map_length. cbn [length]. lia.
    + cbn [plain] in V. destruct (Nat.eqb_spec k i) as [->|N]; cbn [andb].
      * destruct (value (plain_after C ds) i) as [p|] eqn:P; [|cbn [fst] in V; congruence].
        destruct (G p eq_refl) as [-> LT]. rewrite (proj2 (Nat.ltb_lt _ _) LT). cbn [run_ops].
        destruct (run_op C x (run_ops C (calls_to i 0 ds) new_options)) as [o1 r]. cbn [fst] in *.
        apply R in V. injection V as ->. reflexivity.
      * cbn [run_ops]. apply G. destruct (value (plain_after C ds) k) as [p|]; [|exact V].
        destruct (run_op C x p) as [o1 r]. cbn [fst] in V. rewrite value_replace in V.
        rewrite (proj2 (Nat.eqb_neq i k)) in V by congruence. exact V.
    + cbn [plain] in V. cbn [run_ops]. apply G. destruct (value (plain_after C ds) k) as [p|]; [|exact V]. cbn [fst] in V.
      rewrite value_replace in V. destruct (Nat.eqb i k); [|exact V]. destruct (nth_error (plain_after C ds) k); discriminate.
  - unfold members in M. unfold through. destruct (object (after C ds) i) as [b|] eqn:O; [|discriminate].
    cbn [option_map] in M. injection M as <-. rewrite (W i b O), O. reflexivity.
Qed.

(** *** Assignment *)
(** What [b_at] of a living object is changed by: only an assignment to it. *)
Definition at_of (w : world) (i : nat) : option nat := option_map b_at (object w i).
Lemma at_put w i o b k : object w i = Some b -> at_of (put i (Some (mkObjekt o (b_at b))) w) k = at_of w k.
Proof.
  intros O. unfold at_of. rewrite object_put. destruct (Nat.eqb_spec k i) as [->|_]; [|reflexivity].
  rewrite (object_in w i b O), O. reflexivity.
Qed.
Lemma act_at C d w i : (match d with Assign k j => k = i -> j = i | _ => True end) ->
  object (fst (act C d w)) i <> None -> i < length w -> at_of (fst (act C d w)) i = at_of w i.
Proof.
  intros A L I. destruct d as [|k x|k t j x|k j|k].
  - cbn [act fst]. unfold at_of. rewrite object_snoc. rewrite (proj2 (Nat.eqb_neq i (length w))) by lia. reflexivity.
  - cbn [act]. destruct (object w k) as [b|] eqn:O; [|reflexivity].
    destruct (on_members x) eqn:M.
    + assert (E : forall y, y = (let '(o, r) := run_op C x (b_own b) in (put k (Some (mkObjekt o (b_at b))) w, Did r)) -> at_of (fst y) i = at_of w i).
      { intros y ->. destruct (run_op C x (b_own b)) as [o r]. cbn [fst]. apply at_put. exact O. }
      apply E. destruct x; try discriminate M; reflexivity.
    + destruct x; try discriminate M. destruct (object w (b_at b)) as [t|] eqn:T; [|reflexivity].
      destruct (run_sig_op C m (o_main (b_own t))) as [s r]. cbn [fst]. apply at_put. exact T.
  - cbn [act]. destruct (object w k) as [b|] eqn:O; [|reflexivity]. destruct (object w j) as [c|] eqn:P; [|reflexivity].
    destruct (Nat.eqb k j && own_list t x (b_own b)); [reflexivity|].
    destruct (run_op C (taking t (the_list x (b_own c))) (b_own b)) as [o r]. cbn [fst]. apply at_put. exact O.
  - cbn [act]. destruct (object w k) as [b|] eqn:O; [|reflexivity]. destruct (object w j) as [c|] eqn:P; [|reflexivity].
    cbn [fst]. unfold at_of. rewrite object_put. destruct (Nat.eqb_spec i k) as [->|_]; [|reflexivity].
    rewrite (A eq_refl) in P. rewrite (object_in _ _ _ O), P. reflexivity.
  - cbn [act] in *. destruct (object w k) as [b|] eqn:O; [|reflexivity]. cbn [fst] in *. unfold at_of. rewrite object_put in *.
    destruct (Nat.eqb_spec i k) as [->|_]; [|reflexivity]. rewrite (object_in _ _ _ O) in L. contradiction.
Qed.
Lemma dead_stays C d w i : i < length w -> object w i = None -> object (fst (act C d w)) i = None.
Proof.
  intros I N. destruct (object (fst (act C d w)) i) as [x|] eqn:E; [|reflexivity]. exfalso. revert E.
  assert (K : forall k b, object w k <> None -> object (put k b w) i = None).
  { intros k b Z. rewrite object_put. destruct (Nat.eqb_spec i k) as [->|_]; [contradiction|exact N]. }
  destruct d as [|k y|k t j y|k j|k]; cbn [act].
  - cbn [fst]. rewrite object_snoc. rewrite (proj2 (Nat.eqb_neq i (length w))) by lia. rewrite N. discriminate.
  - destruct (object w k) as [b|] eqn:O; [|cbn [fst]; rewrite N; discriminate].
    destruct (on_members y) eqn:M.
    + assert (E : forall z, z = (let '(o, r) := run_op C y (b_own b) in (put k (Some (mkObjekt o (b_at b))) w, Did r)) -> object (fst z) i <> Some x).
      { intros z ->. destruct (run_op C y (b_own b)) as [o r]. cbn [fst]. rewrite K; [discriminate|congruence]. }
      apply E. destruct y; try discriminate M; reflexivity.
    + destruct y; try discriminate M. destruct (object w (b_at b)) as [t|] eqn:T; [|cbn [fst]; rewrite N; discriminate].
      destruct (run_sig_op C m (o_main (b_own t))) as [s r]. cbn [fst]. rewrite K; [discriminate|congruence].
  - destruct (object w k) as [b|] eqn:O; [|cbn [fst]; rewrite N; discriminate]. destruct (object w j) as [c|]; [|cbn [fst]; rewrite N; discriminate].
    destruct (Nat.eqb k j && own_list t y (b_own b)); [cbn [fst]; rewrite N; discriminate|].
    destruct (run_op C (taking t (the_list y (b_own c))) (b_own b)) as [o r]. cbn [fst]. rewrite K; [discriminate|congruence].
  - destruct (object w k) as [b|] eqn:O; [|cbn [fst]; rewrite N; discriminate]. destruct (object w j) as [c|]; [|cbn [fst]; rewrite N; discriminate].
    cbn [fst]. rewrite K; [discriminate|congruence].
  - destruct (object w k) as [b|] eqn:O; [|cbn [fst]; rewrite N; discriminate]. cbn [fst]. rewrite K; [discriminate|congruence].
Qed.
Lemma in_length w i b : object w i = Some b -> i < length w.
Proof. intros O. apply nth_error_Some. rewrite (object_in _ _ _ O). discriminate. Qed.
Lemma act_length C d w : length w <= length (fst (act C d w)).
Proof.
  destruct d as [|i x|i t j x|i j|i]; cbn [act].
  - cbn [fst]. rewrite app_length. lia.
  - destruct (object w i) as [b|]; [|reflexivity].
    destruct x; try (match goal with |- context [let '(_, _) := ?p in _] => destruct p end; cbn [fst]; rewrite length_put; reflexivity).
    destruct (object w (b_at b)) as [t|]; [|reflexivity]. destruct (run_sig_op C m (o_main (b_own t))). cbn [fst]. rewrite length_put. reflexivity.
  - destruct (object w i) as [b|]; [|reflexivity]. destruct (object w j) as [c|]; [|reflexivity].
    destruct (Nat.eqb i j && own_list t x (b_own b)); [reflexivity|].
    destruct (run_op C (taking t (the_list x (b_own c))) (b_own b)). cbn [fst]. rewrite length_put. reflexivity.
  - destruct (object w i) as [b|]; [|reflexivity]. destruct (object w j) as [c|]; [|reflexivity]. cbn [fst]. rewrite length_put. reflexivity.
  - destruct (object w i) as [b|]; [|reflexivity]. cbn [fst]. rewrite length_put. reflexivity.
Qed.

Lemma later_at C i : forall ds w, not_assigned i ds -> i < length w ->
  object (fold_left (fun w d => fst (act C d w)) ds w) i <> None ->
  at_of (fold_left (fun w d => fst (act C d w)) ds w) i = at_of w i.
Proof.
  intros ds. induction ds as [|d ds IH]; intros w A I L; cbn [fold_left] in *; [reflexivity|].
  apply Forall_cons_iff in A. destruct A as [A1 A2]. pose proof (act_length C d w) as G.
  rewrite IH; [|exact A2|lia|exact L]. apply act_at; [exact A1| |exact I].
  intros Z. apply L. clear L IH A1 A2. assert (I1 : i < length (fst (act C d w))) by lia. revert I1 Z. generalize (fst (act C d w)). clear.
  induction ds as [|d ds IH]; intros w I Z; cbn [fold_left]; [exact Z|].
  apply IH; [pose proof (act_length C d w); lia|]. apply dead_stays; assumption.
Qed.

Lemma through_at w i j : at_of w i = at_of w j -> object w i <> None -> object w j <> None -> through w i = through w j.
Proof.
  unfold at_of, through. destruct (object w i) as [b|]; [|contradiction]. destruct (object w j) as [c|]; [|contradiction].
  cbn [option_map]. intros T _ _. injection T as ->. reflexivity.
Qed.
Lemma living w i : members w i <> None <-> object w i <> None.
Proof. unfold members. destruct (object w i); cbn [option_map]; split; congruence. Qed.

(** After [i = j] the two show the same first signature until one of them is assigned to. *)
Lemma assigned_shared C ds i j rest : members (after C ds) i <> None -> members (after C ds) j <> None ->
  not_assigned i rest -> not_assigned j rest ->
  let w := after C (ds ++ Assign i j :: rest) in members w i <> None -> members w j <> None -> through w i = through w j.
Proof.
  intros A B NI NJ w LI LJ. rewrite living in *. subst w. change (Assign i j :: rest) with ([Assign i j] ++ rest) in *. rewrite app_assoc in *.
  rewrite after_app in *. apply through_at; [|assumption..].
  assert (E : at_of (after C (ds ++ [Assign i j])) i = at_of (after C (ds ++ [Assign i j])) j /\
              i < length (after C (ds ++ [Assign i j])) /\ j < length (after C (ds ++ [Assign i j]))).
  { rewrite after_snoc. cbn [act]. destruct (object (after C ds) i) as [b|] eqn:O; [|contradiction].
    destruct (object (after C ds) j) as [c|] eqn:P; [|contradiction]. cbn [fst]. rewrite length_put.
    split; [|split; eapply in_length; eassumption].
    unfold at_of. rewrite !object_put, Nat.eqb_refl, (object_in _ _ _ O). destruct (Nat.eqb_spec j i) as [->|_]; [reflexivity|]. rewrite P. reflexivity. }
  destruct E as (E & I & J). rewrite !later_at by assumption. exact E.
Qed.

Lemma set_domain_through C w i d b t : object w i = Some b -> object w (b_at b) = Some t -> dotted d ->
  forall k c, object w k = Some c -> b_at c = b_at b ->
  option_map so_domain (through (fst (act C (Call i (OnMain (SetDomain d))) w)) k) = Some d.
Proof.
  intros O T D k c K E. cbn [act]. rewrite O, T. cbn [run_sig_op]. unfold so_setdomain.
  destruct (ValidateDomain_spec d) as (v & -> & V). rewrite (proj2 V D). cbn [slift fst].
  unfold through. rewrite object_put. rewrite (object_in _ _ _ T).
  destruct (Nat.eqb_spec k (b_at b)) as [->|N].
  - rewrite T in K. injection K as <-. cbn [b_at]. rewrite E, object_put, Nat.eqb_refl, (object_in _ _ _ T). reflexivity.
  - rewrite K, E, object_put, Nat.eqb_refl, (object_in _ _ _ T). reflexivity.
Qed.
Lemma through_object w i s : through w i = Some s -> exists b t, object w i = Some b /\ object w (b_at b) = Some t /\ s = o_main (b_own t).
Proof.
  unfold through. destruct (object w i) as [b|]; [|discriminate]. destruct (object w (b_at b)) as [t|] eqn:T; [|discriminate].
  intros E. injection E as <-. exists b, t. auto.
Qed.
(** After [i = j] a domain set on either is the domain of both. *)
Lemma assigned_domain C ds i j d : members (after C ds) i <> None -> through (after C ds) j <> None -> dotted d ->
  forall k l, k = i \/ k = j -> l = i \/ l = j ->
  option_map so_domain (through (after C (ds ++ [Assign i j; Call k (OnMain (SetDomain d))])) l) = Some d.
Proof.
  intros A B D k l K L. rewrite living in A.
  change [Assign i j; Call k (OnMain (SetDomain d))] with ([Assign i j] ++ [Call k (OnMain (SetDomain d))]). rewrite app_assoc, after_snoc.
  destruct (through (after C ds) j) as [s|] eqn:TJ; [|contradiction]. apply through_object in TJ. destruct TJ as (c & t & P & T & ->).
  destruct (object (after C ds) i) as [b|] eqn:O; [|contradiction].
  rewrite after_snoc. cbn [act]. rewrite O, P. cbn [fst].
  set (w := put i (Some (mkObjekt (b_own c) (b_at c))) (after C ds)).
  assert (WI : object w i = Some (mkObjekt (b_own c) (b_at c))) by (unfold w; rewrite object_put, Nat.eqb_refl, (object_in _ _ _ O); reflexivity).
  assert (WJ : exists c', object w j = Some c' /\ b_at c' = b_at c).
  { unfold w. rewrite object_put. destruct (Nat.eqb_spec j i) as [->|_]; [|exists c; auto].
    rewrite (object_in _ _ _ O). eexists. split; reflexivity. }
  assert (WT : exists t', object w (b_at c) = Some t').
  { unfold w. rewrite object_put. destruct (Nat.eqb_spec (b_at c) i) as [E|_]; [|exists t; exact T].
    rewrite (object_in _ _ _ O). eexists. reflexivity. }
  destruct WJ as (c' & WJ & EC). destruct WT as (t' & WT).
  assert (Q : forall x, x = i \/ x = j -> exists y, object w x = Some y /\ b_at y = b_at c).
  { intros x [->| ->]; eexists; split; try eassumption. reflexivity. }
  destruct (Q k K) as (bk & WK & EK). destruct (Q l L) as (bl & WL & EL).
  apply (set_domain_through C w k d bk t' WK) with (c := bl); [rewrite EK; exact WT|exact D|exact WL|congruence].
Qed.

(** An object that was not assigned to has its pointers in itself. *)
Lemma own_front C ds i b : not_assigned i ds -> object (after C ds) i = Some b -> b_at b = i.
Proof.
  revert b. induction ds as [|d ds IH] using rev_ind; intros b N O.
  - unfold after, object in O. cbn in O. destruct i; discriminate.
  - apply Forall_app in N. destruct N as [N1 N2]. apply Forall_inv in N2. rewrite after_snoc in O.
    destruct (Nat.ltb_spec i (length (after C ds))) as [L|L].
    + pose proof (act_at C d (after C ds) i N2) as E. rewrite O in E. specialize (E ltac:(discriminate) L).
      unfold at_of in E. rewrite O in E. cbn [option_map] in E.
      destruct (object (after C ds) i) as [b0|] eqn:O0; [|discriminate]. cbn [option_map] in E. injection E as E. rewrite E. apply IH; [exact N1|reflexivity].
    + pose proof (in_length _ _ _ O) as I. pose proof (length_after C (ds ++ [d])) as M. rewrite after_snoc, makes_app, <- (length_after C ds) in M.
      destruct d; cbn [makes] in M; try lia. cbn [act fst] in O. rewrite object_snoc in O. assert (Z : i = length (after C ds)) by lia.
      rewrite Z, Nat.eqb_refl in O. injection O as <-. symmetry. exact Z.
Qed.
Lemma assigned_dangling C ds i j : i <> j -> members (after C ds) i <> None -> members (after C ds) j <> None -> not_assigned j ds ->
  let w := after C (ds ++ [Assign i j; End j]) in members w i <> None /\ through w i = None.
Proof.
  intros N A B NJ w. rewrite living in *. subst w.
  change [Assign i j; End j] with ([Assign i j] ++ [End j]). rewrite app_assoc, after_snoc.
  destruct (object (after C ds) i) as [b|] eqn:O; [|contradiction]. destruct (object (after C ds) j) as [c|] eqn:P; [|contradiction].
  pose proof (own_front C ds j c NJ P) as E.
  rewrite after_snoc. cbn [act]. rewrite O, P. cbn [fst]. rewrite object_put, (proj2 (Nat.eqb_neq j i)) by congruence. rewrite P. cbn [fst].
  unfold through. rewrite object_put. rewrite (proj2 (Nat.eqb_neq i j)) by congruence. rewrite object_put, Nat.eqb_refl, (object_in _ _ _ O). cbn [b_at].
  split; [discriminate|]. rewrite E, object_put, Nat.eqb_refl.
  destruct (nth_error (put i (Some (mkObjekt (b_own c) j)) (after C ds)) j) as [x|]; reflexivity.
Qed.

(** *** Lists handed over *)
Lemma pass_exact C ds i t j x : reply_to C ds (Pass i t j x) = Undefined <->
  i = j /\ x = Headers /\ exists o, members (after C ds) i = Some o /\ (t = ToAdd \/ t = ToDel /\ o_headers o <> []).
Proof.
  unfold reply_to, members. cbn [act]. destruct (object (after C ds) i) as [b|] eqn:O; cbn [option_map].
  2:{ split; [discriminate|]. intros (_ & _ & o & Z & _). discriminate. }
  destruct (object (after C ds) j) as [c|] eqn:P.
  2:{ split; [discriminate|]. intros (-> & _). congruence. }
  destruct (Nat.eqb_spec i j) as [->|N]; cbn [andb].
  2:{ destruct (run_op C (taking t (the_list x (b_own c))) (b_own b)) as [o1 r1]. split; [discriminate|]. intros (Z & _). contradiction. }
  destruct (own_list t x (b_own b)) eqn:W.
  - split; [|reflexivity]. intros _. destruct t, x; try discriminate W; (split; [reflexivity|split; [reflexivity|]]); exists (b_own b); (split; [reflexivity|]);
      [left; reflexivity|right; split; [reflexivity|]]. cbn [own_list] in W. destruct (o_headers (b_own b)); congruence.
  - destruct (run_op C (taking t (the_list x (b_own c))) (b_own b)) as [o1 r1]. split; [discriminate|].
    intros (_ & -> & o & E & [->|(-> & Z)]); [discriminate W|]. injection E as <-. cbn [own_list] in W. destruct (o_headers (b_own b)); [contradiction|discriminate].
Qed.
Lemma pass_values C ds i t j x o p : members (after C ds) i = Some o -> members (after C ds) j = Some p ->
  reply_to C ds (Pass i t j x) <> Undefined ->
  members (after C (ds ++ [Pass i t j x])) i = members (after C (ds ++ [Call i (taking t (the_list x p))])) i /\
  reply_to C ds (Pass i t j x) = reply_to C ds (Call i (taking t (the_list x p))).
Proof.
  unfold reply_to. rewrite !after_snoc. unfold members at 1 2. destruct (object (after C ds) i) as [b|] eqn:O; [|discriminate].
  destruct (object (after C ds) j) as [c|] eqn:P; [|discriminate]. cbn [option_map]. intros E1 E2. injection E1 as <-. injection E2 as <-.
  rewrite (act_members C _ _ _ _ O (taking_members _ _)). cbn [act]. rewrite O, P.
  destruct (Nat.eqb i j && own_list t x (b_own b)); [intros Z; now contradiction Z|]. intros _. auto.
Qed.

Lemma pass_told C ds i t j x o p : members (after C ds) i = Some o -> members (after C ds) j = Some p ->
  reply_to C ds (Pass i t j x) <> Undefined ->
  members (after C (ds ++ [Pass i t j x])) i = members (after C (ds ++ [Call i (told t (names_of x p))])) i /\
  reply_to C ds (Pass i t j x) = reply_to C ds (Call i (told t (names_of x p))).
Proof. intros A B N. rewrite told_taking, names_the_list. exact (pass_values C ds i t j x o p A B N). Qed.
(** Setters whose pointers lead nowhere. *)
Lemma gone_reply C ds i m : members (after C ds) i <> None -> through (after C ds) i = None ->
  (reply_to C ds (Call i (OnMain m)) = Undefined \/ reply_to C ds (Call i (OnMain m)) = Did perm) /\
  (reply_to C ds (Call i (OnMain m)) = Did perm <-> exists d, (m = SetDomain d \/ m = SetSelector d) /\ ~ dotted d).
Proof.
  unfold reply_to, members, through. destruct (object (after C ds) i) as [b|] eqn:O; [|intros N; now contradiction N]. intros _ T. cbn [act]. rewrite O.
  destruct (object (after C ds) (b_at b)) eqn:B; [discriminate|]. cbn [snd].
  assert (X : (exists d, m = SetDomain d \/ m = SetSelector d) \/ (through_nothing m = Undefined /\ forall d, m <> SetDomain d /\ m <> SetSelector d)).
  { destruct m; try (left; eexists; auto; fail); right; (split; [reflexivity|]); split; discriminate. }
  destruct X as [[d X]|[-> NE]].
  - destruct (ValidateDomain_spec d) as (v & V & DV).
    assert (E : through_nothing m = if v then Undefined else Did perm) by (destruct X as [-> | ->]; cbn [through_nothing]; rewrite V; destruct v; reflexivity).
    rewrite E. destruct v.
    + split; [left; reflexivity|]. split; [discriminate|]. intros (d' & X' & N). exfalso. apply N.
      assert (d' = d) by (destruct X as [-> | ->], X' as [X'|X']; congruence). subst d'. apply DV. reflexivity.
    + split; [right; reflexivity|]. split; [|reflexivity]. intros _. exists d. split; [exact X|]. intros D. apply DV in D. discriminate.
  - split; [left; reflexivity|]. split; [discriminate|]. intros (d & X & _). destruct (NE d). destruct X; contradiction.
Qed.
Lemma gone_case : let ds := [Make; Make; Assign 0 1; End 1] in members (after toy ds) 0 <> None /\ through (after toy ds) 0 = None /\
  reply_to toy ds (Call 0 (OnMain (SetDomain (str "-")))) = Did perm.
Proof. split; [vm_compute; discriminate|]. split; vm_compute; reflexivity. Qed.
