(** Which RSA objects get freed. *)
From Verif Require Import Bytes KeyHandles SpecHandles.

Lemma set_slot_nth n s l k : n < length l -> nth_error (set_slot n s l) k = if Nat.eqb k n then Some s else nth_error l k.
Proof.
  unfold set_slot. revert n k. induction l as [|y l IH]; intros n k L; [cbn in L; lia|]. destruct n as [|n], k as [|k]; cbn [firstn skipn app nth_error Nat.eqb]; auto.
  apply IH. cbn in L. lia.
Qed.

Record inv (P : list nat) (h : heap) : Prop := {
  i_freed : k_freed h = [];
  i_known : forall n s i, nth_error (k_slots h) n = Some s -> k_ptr s = Some i -> In i P;
  i_apart : forall n m s s' i, nth_error (k_slots h) n = Some s -> nth_error (k_slots h) m = Some s' -> k_ptr s = Some i -> k_ptr s' = Some i -> n = m }.
Lemma nth_app_new {A} (l : list A) a n x : nth_error (l ++ [a]) n = Some x -> nth_error l n = Some x \/ x = a.
Proof.
  intros E. destruct (Nat.lt_ge_cases n (length l)).
  - rewrite nth_error_app1 in E by auto. auto.
  - rewrite nth_error_app2 in E by auto. destruct (n - length l) as [|k]; cbn in E; [|destruct k; discriminate]. injection E as <-. auto.
Qed.
Lemma inv_store P h n s s0 cr gi le p : inv P h -> nth_error (k_slots h) n = Some s0 -> k_ptr s = p -> (forall i, p = Some i -> ~ In i P) ->
  inv (P ++ match p with Some i => [i] | None => [] end) (mkHeap (set_slot n s (k_slots h)) cr gi le (k_freed h)).
Proof.
  intros [F K A] E EP NI. assert (L : n < length (k_slots h)) by (apply nth_error_Some; congruence).
  constructor; cbn [k_slots k_freed]; auto.
  - intros m s' i. rewrite set_slot_nth by auto. destruct (Nat.eqb m n).
    + intros [= <-] Q. rewrite <- EP, Q. apply in_or_app. right. left. reflexivity.
    + intros Q1 Q2. apply in_or_app. left. eauto.
  - intros m m' s1 s2 i. rewrite !set_slot_nth by auto. destruct (Nat.eqb m n) eqn:E1, (Nat.eqb m' n) eqn:E2.
    + apply Nat.eqb_eq in E1, E2. congruence.
    + intros [= <-] Q1 Q2 Q3. exfalso. apply (NI i); [congruence|]. eauto.
    + intros Q1 [= <-] Q2 Q3. exfalso. apply (NI i); [congruence|]. eauto.
    + intros Q1 Q2 Q3 Q4. apply (A m m' s1 s2 i); auto.
Qed.
Lemma inv_weaken P Q h : (forall i, In i P -> In i Q) -> inv P h -> inv Q h.
Proof. intros W [F K A]. constructor; eauto. Qed.
Lemma inv_step P h o : inv P h -> is_copy o = false -> (forall i, In i (brought o) -> ~ In i P) -> inv (P ++ brought o) (key_step h o).
Proof.
  intros V NC NI. assert (SKIP : inv (P ++ brought o) h) by (apply (inv_weaken P); [intros; apply in_or_app; auto|auto]).
  destruct o as [n p|n p own| |n]; cbn [key_step]; try discriminate.
  - destruct (nth_error (k_slots h) n) as [s|] eqn:E; [|exact SKIP].
    replace (P ++ brought (KLoad n p)) with (P ++ match p with Some i => [i] | None => [] end) by (destruct p; reflexivity).
    eapply inv_store; eauto. intros i ->. apply NI. left. reflexivity.
  - destruct (nth_error (k_slots h) n) as [s|] eqn:E; [|exact SKIP].
    replace (P ++ brought (KGive n p own)) with (P ++ match p with Some i => [i] | None => [] end) by (destruct p; reflexivity).
    eapply inv_store; eauto. intros i ->. apply NI. left. reflexivity.
  - cbn [brought] in *. rewrite app_nil_r in *. destruct V as [F K A]. constructor; cbn [k_slots k_freed]; auto.
    + intros m s i Q1 Q2. apply nth_app_new in Q1 as [Q1| ->]; [eauto|discriminate].
    + intros m m' s s' i Q1 Q2 Q3 Q4. apply nth_app_new in Q1 as [Q1| ->]; [|discriminate]. apply nth_app_new in Q2 as [Q2| ->]; [|discriminate]. eauto.
Qed.
Lemma inv_run ops : forall P h, inv P h -> existsb is_copy ops = false -> NoDup (P ++ flat_map brought ops) ->
  inv (P ++ flat_map brought ops) (fold_left key_step ops h).
Proof.
  induction ops as [|o ops IH]; intros P h V NC ND; cbn [flat_map fold_left existsb] in *; [rewrite app_nil_r; auto|].
  apply orb_false_iff in NC as [NC1 NC2]. rewrite app_assoc in ND |- *. apply IH; auto. apply inv_step; auto.
  intros i I1 I2. clear - ND I1 I2. rewrite <- app_assoc in ND. induction P as [|q P IH]; [destruct I2|]. cbn [app] in ND. inversion ND; subst. destruct I2 as [->|I2]; [|auto].
  apply H1. apply in_or_app. right. apply in_or_app. auto.
Qed.
Lemma inv_new : inv [] new_heap.
Proof.
  constructor; cbn [new_heap k_slots k_freed]; auto.
  - intros n s i E Q. destruct n as [|[|n]]; cbn in E; try discriminate. injection E as <-. discriminate.
  - intros n m s s' i E _ Q. destruct n as [|[|n]]; cbn in E; try discriminate. injection E as <-. discriminate.
Qed.

Lemma freed_slots l : (forall n m s s' i, nth_error l n = Some s -> nth_error l m = Some s' -> k_ptr s = Some i -> k_ptr s' = Some i -> n = m) ->
  NoDup (flat_map slot_free l).
Proof.
  induction l as [|s l IH]; intros A; cbn [flat_map]; [constructor|].
  assert (ND : NoDup (flat_map slot_free l)).
  { apply IH. intros n m s1 s2 i Q1 Q2 Q3 Q4. specialize (A (S n) (S m) s1 s2 i Q1 Q2 Q3 Q4). congruence. }
  destruct s as [[i|] []]; cbn [slot_free k_free k_ptr app]; auto. constructor; auto. intros I. apply in_flat_map in I as (s' & I & J).
  apply In_nth_error in I as (n & I). destruct s' as [[j|] []]; cbn in J; try tauto. destruct J as [->|[]].
  specialize (A 0 (S n) _ _ i eq_refl I eq_refl eq_refl). discriminate.
Qed.
(** No object is freed twice. *)
Lemma freed_once ops : NoDup (flat_map brought ops) -> existsb is_copy ops = false -> NoDup (k_freed (key_life ops)).
Proof.
  intros ND NC. pose proof (inv_run ops [] new_heap inv_new NC ND) as [F K A]. unfold key_life, destroy. cbn [k_freed]. rewrite F. cbn [app]. apply freed_slots. exact A.
Qed.

(** What an element may free. *)
Definition may_free (O L : list nat) (h : heap) : Prop :=
  k_freed h = [] /\ forall n s i, nth_error (k_slots h) n = Some s -> k_ptr s = Some i -> k_free s = true -> In i O.
Lemma may_step O L h o : may_free O L h -> may_free (O ++ owned o) L (key_step h o).
Proof.
  intros [F M]. assert (SKIP : may_free (O ++ owned o) L h) by (split; auto; intros; apply in_or_app; left; eauto).
  destruct o as [n p|n p own| |n]; cbn [key_step].
  - destruct (nth_error (k_slots h) n) as [s|] eqn:E; [|exact SKIP]. assert (LT : n < length (k_slots h)) by (apply nth_error_Some; congruence).
    split; auto. cbn [k_slots]. intros m s' i. rewrite set_slot_nth by auto. destruct (Nat.eqb m n); [|apply SKIP]. intros [= <-]. cbn. intros -> _. apply in_or_app. right. left. reflexivity.
  - destruct (nth_error (k_slots h) n) as [s|] eqn:E; [|exact SKIP]. assert (LT : n < length (k_slots h)) by (apply nth_error_Some; congruence).
    split; auto. cbn [k_slots]. intros m s' i. rewrite set_slot_nth by auto. destruct (Nat.eqb m n); [|apply SKIP]. intros [= <-]. cbn. intros -> ->. apply in_or_app. right. left. reflexivity.
  - split; auto. cbn [k_slots]. intros m s i Q1 Q2 Q3. apply nth_app_new in Q1 as [Q1| ->]; [apply (proj2 SKIP m s); auto|discriminate].
  - destruct (nth_error (k_slots h) n) as [s0|] eqn:E; [|exact SKIP]. split; auto. cbn [k_slots]. intros m s i Q1 Q2 Q3.
    apply nth_app_new in Q1 as [Q1| ->]; [apply (proj2 SKIP m s); auto|apply (proj2 SKIP n s0); auto].
Qed.
Lemma may_run ops : forall O h, may_free O [] h -> may_free (O ++ flat_map owned ops) [] (fold_left key_step ops h).
Proof.
  induction ops as [|o ops IH]; intros O h M; cbn [flat_map fold_left]; [rewrite app_nil_r; auto|]. rewrite app_assoc. apply IH. apply may_step. exact M.
Qed.
(** Only objects the library owns are freed. *)
Lemma freed_owned ops i : In i (k_freed (key_life ops)) -> In i (flat_map owned ops).
Proof.
  assert (M0 : may_free [] [] new_heap). { split; auto. intros n s j E Q. destruct n as [|[|n]]; cbn in E; try discriminate. injection E as <-. discriminate. }
  destruct (may_run ops [] new_heap M0) as [F M]. unfold key_life, destroy. cbn [k_freed]. rewrite F. cbn [app]. intros I.
  apply in_flat_map in I as (s & I & J). apply In_nth_error in I as (n & I). destruct s as [[j|] []]; cbn in J; try tauto. destruct J as [->|[]]. eapply M; eauto.
Qed.
Lemma brought_split o : forall i, In i (owned o) -> ~ In i (lent o). Proof. destruct o as [n [i|]|n [i|] []| |n]; cbn; tauto. Qed.
Lemma lent_kept ops i : NoDup (flat_map brought ops) -> In i (flat_map lent ops) -> ~ In i (k_freed (key_life ops)).
Proof.
  intros ND L F. apply freed_owned in F. revert ND L F. induction ops as [|o ops IH]; cbn [flat_map]; [intros _ []|]. intros ND L F.
  assert (NDT : NoDup (flat_map brought ops)). { destruct (brought o) as [|a [|b r]] eqn:E; cbn [app] in ND; [auto|inversion ND; auto|]. destruct o as [n [x|]|n [x|] []| |n]; discriminate. }
  assert (SUBL : forall l, In i (flat_map lent l) -> In i (flat_map brought l)).
  { intros l. rewrite !in_flat_map. intros (x & I1 & I2). exists x. split; auto. destruct x as [n [y|]|n [y|] []| |n]; cbn in *; tauto. }
  assert (SUBO : forall l, In i (flat_map owned l) -> In i (flat_map brought l)).
  { intros l. rewrite !in_flat_map. intros (x & I1 & I2). exists x. split; auto. destruct x as [n [y|]|n [y|] []| |n]; cbn in *; tauto. }
  apply in_app_or in L, F. destruct L as [L|L], F as [F|F].
  - eapply brought_split; eauto.
  - destruct o as [n [x|]|n [x|] []| |n]; cbn in L; try tauto. destruct L as [->|[]]. cbn in ND. inversion ND; subst. auto.
  - destruct o as [n [x|]|n [x|] []| |n]; cbn in F; try tauto; destruct F as [->|[]]; cbn in ND; inversion ND; subst; auto.
  - auto.
Qed.

(** Each element gets at most one key. *)
Record one_inv (T O : list nat) (h : heap) : Prop := {
  o_freed : k_freed h = [];
  o_fresh : forall n s, nth_error (k_slots h) n = Some s -> ~ In n T -> s = new_slot;
  o_kept : forall i, In i O -> exists n s, In n T /\ nth_error (k_slots h) n = Some s /\ k_ptr s = Some i /\ k_free s = true }.
Lemma set_slot_length n s l : length (set_slot n s l) = length l.
Proof. unfold set_slot. rewrite app_length. rewrite <- (firstn_skipn n l) at 3. rewrite app_length. f_equal. destruct (skipn n l); reflexivity. Qed.
Lemma one_store T O h n s0 s cr gi le i : one_inv T O h -> nth_error (k_slots h) n = Some s0 -> ~ In n T ->
  (forall j, i = Some j -> k_ptr s = Some j /\ k_free s = true) ->
  one_inv (T ++ [n]) (O ++ match i with Some j => [j] | None => [] end) (mkHeap (set_slot n s (k_slots h)) cr gi le (k_freed h)).
Proof.
  intros [F FR KP] E NT S. assert (LT : n < length (k_slots h)) by (apply nth_error_Some; congruence). constructor; cbn [k_slots k_freed]; auto.
  - intros m s'. rewrite set_slot_nth by auto. destruct (Nat.eqb m n) eqn:EM.
    + apply Nat.eqb_eq in EM. subst m. intros _ NI. destruct NI. apply in_or_app. right. left. reflexivity.
    + intros Q NI. eapply FR; eauto. intros I. apply NI. apply in_or_app. auto.
  - intros j I. apply in_app_or in I as [I|I].
    + destruct (KP j I) as (m & s' & I1 & Q & R). exists m, s'. split; [apply in_or_app; auto|]. rewrite set_slot_nth by auto. split; auto.
      destruct (Nat.eqb m n) eqn:EM; auto. apply Nat.eqb_eq in EM. congruence.
    + destruct i as [j'|]; [|destruct I]. destruct I as [->|[]]. destruct (S j eq_refl) as [S1 S2]. exists n, s. split; [apply in_or_app; right; left; reflexivity|].
      rewrite set_slot_nth by auto. rewrite Nat.eqb_refl. auto.
Qed.
Lemma one_run ops : forall T O h, one_inv T O h -> addressed (length (k_slots h)) ops -> NoDup (T ++ flat_map target ops) ->
  exists T', one_inv T' (O ++ flat_map owned ops) (fold_left key_step ops h).
Proof.
  induction ops as [|o ops IH]; intros T O h V AD ND; cbn [flat_map fold_left]; [rewrite app_nil_r; eauto|].
  rewrite app_assoc. cbn [flat_map] in ND. inversion AD as [|k l AD' E|k o' l FA NE AD' E]; subst.
  - apply (IH T); auto.
    + destruct V as [F FR KP]. rewrite app_nil_r. constructor; cbn [key_step k_slots k_freed]; auto.
      * intros n s Q NI. apply nth_app_new in Q as [Q| ->]; eauto.
      * intros i I. destruct (KP i I) as (n & s & I1 & Q & R). exists n, s. split; auto. split; auto. rewrite nth_error_app1; auto. apply nth_error_Some. congruence.
    + cbn [key_step k_slots]. rewrite app_length. cbn [length]. rewrite Nat.add_1_r. exact AD'.
  - destruct o as [n p|n p own| |n]; cbn [target] in *; try congruence; inversion FA as [|? ? LT _]; subst;
      (assert (NT : ~ In n T); [intros I; clear - ND I; induction T as [|q T IH]; [destruct I|]; cbn [app] in ND; inversion ND; subst; destruct I as [->|I]; auto; apply H1, in_or_app; right; left; reflexivity|]);
      (destruct (nth_error (k_slots h) n) as [s|] eqn:EN; [|apply nth_error_None in EN; lia]);
      apply (IH (T ++ [n])); cbn [key_step]; rewrite ?EN; cbn [k_slots]; rewrite ?set_slot_length; auto; try (rewrite <- app_assoc; exact ND).
    + replace (owned (KLoad n p)) with (match p with Some j => [j] | None => [] end) by (destruct p; reflexivity). eapply one_store; eauto.
      intros j ->. split; [reflexivity|]. cbn. rewrite (o_fresh _ _ _ V n s EN NT). reflexivity.
    + replace (owned (KGive n p own)) with (match (if own then p else None) with Some j => [j] | None => [] end) by (destruct own, p; reflexivity).
      eapply one_store; eauto. destruct own; [|discriminate]. intros j ->. auto.
Qed.
Lemma all_freed ops i : addressed 1 ops -> NoDup (flat_map target ops) -> In i (flat_map owned ops) -> In i (k_freed (key_life ops)).
Proof.
  intros AD ND I. destruct (one_run ops [] [] new_heap) as (T & [F FR KP]); auto.
  - constructor; auto. intros n s E _. destruct n as [|[|n]]; cbn in E; try discriminate. congruence. intros j [].
  - cbn [app] in KP. destruct (KP i I) as (n & s & _ & E & P & FF). unfold key_life, destroy. cbn [k_freed]. rewrite F. cbn [app]. apply in_flat_map. exists s.
    split; [eapply nth_error_In; eauto|]. unfold slot_free. rewrite FF, P. left. reflexivity.
Qed.
Lemma addressed_no_copy k ops : addressed k ops -> existsb is_copy ops = false.
Proof. induction 1 as [|k l A IH|k o l F N A IH]; cbn [existsb]; auto. rewrite IH, orb_false_r. destruct o; auto. cbn in N. congruence. Qed.

(** PublicKey *)
Lemma pub_fold ops : forall h, exists l, pub_created (fold_left pub_step ops h) = l ++ pub_created h.
Proof.
  induction ops as [|o ops IH]; intros h; [exists []; reflexivity|]. cbn [fold_left]. destruct (IH (pub_step h o)) as (l & E). rewrite E.
  destruct o as [|[i|]]; cbn; [eauto| |eauto]. exists (l ++ [i]). rewrite <- app_assoc. reflexivity.
Qed.
Record pub_inv (P : list nat) (h : pub_heap) : Prop := {
  p_nodup : NoDup (match pub_ptr h with Some i => [i] | None => [] end ++ pub_freed h);
  p_known : forall i, pub_ptr h = Some i \/ In i (pub_freed h) -> In i P }.
Lemma pub_inv_step P h o : pub_inv P h -> (forall i, In i (pub_brought o) -> ~ In i P) -> pub_inv (P ++ pub_brought o) (pub_step h o).
Proof.
  intros [N K] F. destruct o as [|[i|]]; cbn [pub_step pub_brought] in *.
  - rewrite app_nil_r. constructor; cbn [pub_ptr pub_freed]; [destruct (pub_ptr h); exact N|]. intros i [X|I]; [discriminate|]. apply K. destruct (pub_ptr h) as [j|]; cbn in I; [destruct I as [->|I]|]; auto.
  - constructor; cbn [pub_ptr pub_freed].
    + cbn [app]. constructor; [|destruct (pub_ptr h); cbn in N; [inversion N|]; auto]. intros I. apply (F i); [left; reflexivity|]. apply K. auto.
    + intros j [X|I]; apply in_or_app; [right; injection X as ->; left; reflexivity|]. left. apply K. auto.
  - rewrite app_nil_r. constructor; auto.
Qed.
Lemma pub_inv_run ops : forall P h, pub_inv P h -> NoDup (P ++ flat_map pub_brought ops) -> pub_inv (P ++ flat_map pub_brought ops) (fold_left pub_step ops h).
Proof.
  induction ops as [|o ops IH]; intros P h V ND; cbn [flat_map fold_left] in *; [rewrite app_nil_r; auto|]. rewrite app_assoc in ND |- *. apply IH; auto.
  apply pub_inv_step; auto. intros i I1 I2. clear - ND I1 I2. rewrite <- app_assoc in ND. induction P as [|q P IH]; [destruct I2|]. cbn [app] in ND. inversion ND; subst. destruct I2 as [->|I2]; [|auto].
  apply H1. apply in_or_app. right. apply in_or_app. auto.
Qed.
Lemma pub_once ops : NoDup (flat_map pub_brought ops) -> NoDup (pub_freed (pub_life ops)).
Proof.
  intros ND. assert (V0 : pub_inv [] (mkPubHeap None [] [])). { constructor; cbn; [constructor|]. intros i [X|[]]. discriminate. }
  pose proof (pub_inv_step _ _ PReset (pub_inv_run ops [] _ V0 ND)) as V. destruct V as [N K]; [intros i []|]. unfold pub_life.
  destruct (pub_ptr (pub_step _ PReset)) eqn:E; [discriminate|]. exact N.
Qed.
Lemma pub_all_run e ops : reset_first e ops -> forall h, (e = true -> pub_ptr h = None) -> (forall i, In i (pub_created h) -> pub_ptr h = Some i \/ In i (pub_freed h)) ->
  forall i, In i (pub_created (pub_step (fold_left pub_step ops h) PReset)) -> In i (pub_freed (pub_step (fold_left pub_step ops h) PReset)).
Proof.
  induction 1 as [e|e l R IH|j l R IH|e l R IH]; intros h E K i I; cbn [fold_left] in *.
  - cbn in *. destruct (K i I) as [->|J]; [left; reflexivity|]. destruct (pub_ptr h); [right|]; auto.
  - apply IH; auto. cbn. intros k Q. right. destruct (K k Q) as [->|J]; [left; reflexivity|]. destruct (pub_ptr h); [right|]; auto.
  - apply IH; auto; [discriminate|]. cbn. intros k [->|Q]; auto. destruct (K k Q) as [X|J]; auto. rewrite E in X by auto. discriminate.
  - apply IH; auto.
Qed.
Lemma pub_all ops i : reset_first true ops -> In i (pub_created (pub_life ops)) -> In i (pub_freed (pub_life ops)).
Proof. intros R. apply (pub_all_run true ops R); cbn; auto; intros ? []. Qed.

Lemma exactly_once ops i : addressed 1 ops -> NoDup (flat_map target ops) -> NoDup (flat_map brought ops) -> In i (flat_map owned ops) ->
  count_occ Nat.eq_dec (k_freed (key_life ops)) i = 1.
Proof. intros AD T ND I. apply NoDup_count_occ'; [|apply all_freed; auto]. apply freed_once; auto. eapply addressed_no_copy; eauto. Qed.

Ltac distinct := repeat (constructor; [cbn; intuition discriminate|]); constructor.
Lemma two_loads : exists ops i, addressed 1 ops /\ NoDup (flat_map brought ops) /\ In i (flat_map owned ops) /\ ~ In i (k_freed (key_life ops)).
Proof.
  exists [KLoad 0 (Some 1); KLoad 0 (Some 2)], 1. split; [|split; [distinct|split; [cbn; auto|cbn; intuition discriminate]]].
  apply ad_on; [repeat constructor|discriminate|]. apply ad_on; [repeat constructor|discriminate|]. apply ad_nil.
Qed.
Lemma load_after_lent : exists a b, In b (flat_map owned [KGive 0 (Some a) false; KLoad 0 (Some b)]) /\ k_freed (key_life [KGive 0 (Some a) false; KLoad 0 (Some b)]) = [].
Proof. exists 1, 2. split; [left|]; reflexivity. Qed.
Lemma copied : exists ops i, NoDup (flat_map brought ops) /\ count_occ Nat.eq_dec (k_freed (key_life ops)) i = 2.
Proof. exists [KAdd; KLoad 1 (Some 1); KCopy 1], 1. split; [distinct|reflexivity]. Qed.
Lemma parsed_twice : exists ops i, In i (pub_created (pub_life ops)) /\ ~ In i (pub_freed (pub_life ops)).
Proof. exists [PParse (Some 1); PParse (Some 2)], 1. cbn. intuition discriminate. Qed.
Lemma some_life : let ops := [KLoad 0 (Some 1); KAdd; KGive 1 (Some 2) false; KAdd; KGive 2 (Some 3) true] in
  addressed 1 ops /\ NoDup (flat_map target ops) /\ NoDup (flat_map brought ops) /\ flat_map lent ops = [2] /\ k_freed (key_life ops) = [1; 3].
Proof.
  cbv zeta. split; [|split; [distinct|split; [distinct|split; reflexivity]]].
  apply ad_on; [repeat constructor|discriminate|]. apply ad_add. apply ad_on; [repeat constructor|discriminate|]. apply ad_add. apply ad_on; [repeat constructor|discriminate|]. apply ad_nil.
Qed.
Lemma some_pub : let ops := [PParse (Some 1); PReset; PParse None; PParse (Some 2)] in
  reset_first true ops /\ NoDup (flat_map pub_brought ops) /\ pub_freed (pub_life ops) = [2; 1].
Proof. cbv zeta. split; [|split; [distinct|reflexivity]]. apply rf_parse, rf_reset, rf_failed, rf_parse, rf_nil. Qed.

(** ** Exactly which objects are freed *)
Definition ptr_step (n : nat) (a : option nat) (o : key_op) : option nat :=
  match o with KLoad m p | KGive m p _ => if Nat.eqb m n then p else a | _ => a end.
Definition flag_step (n : nat) (a : bool) (o : key_op) : bool :=
  match o with KGive m _ own => if Nat.eqb m n then own else a | _ => a end.
Lemma nth_default {A} (l : list A) n s d : nth_error l n = Some s -> nth n l d = s.
Proof. intros E. rewrite (nth_error_nth l n d E). reflexivity. Qed.
Lemma run_slots ops : forall h, addressed (length (k_slots h)) ops ->
  k_freed (fold_left key_step ops h) = k_freed h /\
  length (k_slots h) <= length (k_slots (fold_left key_step ops h)) /\
  forall n s, nth_error (k_slots (fold_left key_step ops h)) n = Some s ->
    k_ptr s = fold_left (ptr_step n) ops (k_ptr (nth n (k_slots h) new_slot)) /\ k_free s = fold_left (flag_step n) ops (k_free (nth n (k_slots h) new_slot)).
Proof.
  induction ops as [|o ops IH]; intros h AD; cbn [fold_left].
  { split; [reflexivity|]. split; [lia|]. intros n s E. rewrite (nth_default _ _ _ new_slot E). auto. }
  inversion AD as [|k l AD' E|k o' l FA NE AD' E]; subst.
  - destruct (IH (key_step h KAdd)) as (F & L & S0); [cbn [key_step k_slots]; rewrite app_length; cbn [length]; rewrite Nat.add_1_r; exact AD'|].
    cbn [key_step k_slots k_freed] in F, L, S0 |- *. split; [exact F|]. split; [rewrite app_length in L; cbn [length] in L; lia|]. intros n s E. specialize (S0 n s E). cbn [ptr_step flag_step].
    assert (X : nth n (k_slots h ++ [new_slot]) new_slot = nth n (k_slots h) new_slot).
    { destruct (Nat.lt_ge_cases n (length (k_slots h))); [apply app_nth1; auto|]. rewrite app_nth2 by auto. rewrite (nth_overflow (k_slots h)) by auto.
      destruct (n - length (k_slots h)) as [|[|x]]; reflexivity. }
    rewrite X in S0. exact S0.
  - destruct o as [n0 p|n0 p own| |n0]; cbn [target] in *; try congruence; inversion FA as [|? ? LT _]; subst;
      (destruct (nth_error (k_slots h) n0) as [s0|] eqn:EN; [|apply nth_error_None in EN; lia]); cbn [key_step]; rewrite EN;
      (match goal with |- context [mkHeap ?a ?b ?c ?d ?e] => destruct (IH (mkHeap a b c d e)) as (F & L & S0) end; [cbn [k_slots]; rewrite set_slot_length; exact AD'|]);
      cbn [k_slots k_freed] in F, L, S0 |- *; rewrite set_slot_length in L; (split; [exact F|]); (split; [exact L|]); intros n s E; specialize (S0 n s E); cbn [ptr_step flag_step].
    + assert (X : nth n (set_slot n0 (mkSlot p (k_free s0)) (k_slots h)) new_slot = if Nat.eqb n0 n then mkSlot p (k_free s0) else nth n (k_slots h) new_slot).
      { destruct (Nat.lt_ge_cases n (length (k_slots h))).
        - destruct (nth_error (k_slots h) n) as [s1|] eqn:E1; [|apply nth_error_None in E1; lia].
          apply nth_default. rewrite set_slot_nth by auto. rewrite Nat.eqb_sym. destruct (Nat.eqb n0 n); [reflexivity|]. rewrite E1. rewrite (nth_default _ _ _ new_slot E1). reflexivity.
        - destruct (Nat.eqb_spec n0 n); [lia|]. rewrite !nth_overflow by (rewrite ?set_slot_length; auto). reflexivity. }
      rewrite X in S0. destruct (Nat.eqb_spec n0 n); [|exact S0]. cbn [k_ptr k_free] in S0. subst n0. rewrite (nth_default _ _ _ new_slot EN). exact S0.
    + assert (X : nth n (set_slot n0 (mkSlot p own) (k_slots h)) new_slot = if Nat.eqb n0 n then mkSlot p own else nth n (k_slots h) new_slot).
      { destruct (Nat.lt_ge_cases n (length (k_slots h))).
        - destruct (nth_error (k_slots h) n) as [s1|] eqn:E1; [|apply nth_error_None in E1; lia].
          apply nth_default. rewrite set_slot_nth by auto. rewrite Nat.eqb_sym. destruct (Nat.eqb n0 n); [reflexivity|]. rewrite E1. rewrite (nth_default _ _ _ new_slot E1). reflexivity.
        - destruct (Nat.eqb_spec n0 n); [lia|]. rewrite !nth_overflow by (rewrite ?set_slot_length; auto). reflexivity. }
      rewrite X in S0. destruct (Nat.eqb_spec n0 n); exact S0.
Qed.
(** An element that is addressed exists. *)
Lemma run_exists ops : forall h n o, addressed (length (k_slots h)) ops -> In o ops -> In n (target o) -> n < length (k_slots (fold_left key_step ops h)).
Proof.
  induction ops as [|x ops IH]; intros h n o AD I T; [destruct I|]. cbn [fold_left].
  assert (AD2 : addressed (length (k_slots (key_step h x))) ops /\ length (k_slots h) <= length (k_slots (key_step h x))).
  { inversion AD as [|k l AD' E|k o' l FA NE AD' E]; subst.
    - cbn [key_step k_slots]. rewrite app_length. cbn [length]. rewrite Nat.add_1_r. split; [exact AD'|lia].
    - destruct x as [m p|m p own| |m]; cbn [target] in NE; try congruence; cbn [key_step]; destruct (nth_error (k_slots h) m); cbn [k_slots]; rewrite ?set_slot_length; auto. }
  destruct AD2 as [AD2 L]. destruct I as [->|I]; [|eapply IH; eauto].
  assert (LT : n < length (k_slots h)).
  { inversion AD as [|k l AD' E|k o' l FA NE AD' E]; subst; [destruct T|]. rewrite Forall_forall in FA. auto. }
  destruct (run_slots ops (key_step h o) AD2) as (_ & L2 & _). lia.
Qed.
Lemma holds_fold n i l : fold_left (ptr_step n) l None = Some i <-> holds n i l.
Proof.
  induction l as [|o l IH] using rev_ind.
  { split; [discriminate|]. intros (l1 & o & l2 & E & _). destruct l1; discriminate. }
  rewrite fold_left_app. cbn [fold_left].
  assert (KEEP : ~ In n (target o) -> holds n i l <-> holds n i (l ++ [o])).
  { intros NT. split.
    - intros (l1 & x & l2 & -> & S0 & F). exists l1, x, (l2 ++ [o]). rewrite <- app_assoc. cbn [app]. split; [reflexivity|]. split; [exact S0|]. apply Forall_app. split; auto.
    - intros (l1 & x & l2 & E & S0 & F). destruct l2 as [|y l2] using rev_ind.
      + apply app_inj_tail in E as [_ <-]. destruct NT. destruct S0 as [->|(own & ->)]; left; reflexivity.
      + clear IHl2. rewrite app_comm_cons, app_assoc in E. apply app_inj_tail in E as [-> <-]. exists l1, x, l2. split; [reflexivity|]. split; [exact S0|].
        apply Forall_app in F. apply F. }
  assert (PUT : forall m p, target o = [m] -> ptr_step n (fold_left (ptr_step n) l None) o = (if Nat.eqb m n then p else fold_left (ptr_step n) l None) ->
    (forall j, p = Some j -> (o = KLoad m (Some j) \/ exists own, o = KGive m (Some j) own)) ->
    (forall j, (o = KLoad m (Some j) \/ exists own, o = KGive m (Some j) own) -> p = Some j) ->
    ptr_step n (fold_left (ptr_step n) l None) o = Some i <-> holds n i (l ++ [o])).
  { intros m p T E S1 S2. rewrite E. destruct (Nat.eqb_spec m n) as [->|NE]; [|rewrite IH; apply KEEP; rewrite T; intros [X|[]]; congruence]. split.
    - intros ->. exists l, o, []. split; [reflexivity|]. split; [apply S1; reflexivity|constructor].
    - intros (l1 & x & l2 & E2 & S0 & F). destruct l2 as [|y l2] using rev_ind.
      + apply app_inj_tail in E2 as [_ <-]. apply S2. exact S0.
      + clear IHl2. rewrite app_comm_cons, app_assoc in E2. apply app_inj_tail in E2 as [-> <-]. apply Forall_app in F as [_ F]. inversion F as [|? ? X _]. destruct X. rewrite T. left. reflexivity. }
  destruct o as [m p|m p own| |m].
  - apply (PUT m p); auto.
    + intros j ->. auto.
    + intros j [X|(own & X)]; congruence.
  - apply (PUT m p); auto.
    + intros j ->. eauto.
    + intros j [X|(own' & X)]; congruence.
  - cbn [ptr_step]. rewrite IH. apply KEEP. intros [].
  - cbn [ptr_step]. rewrite IH. apply KEEP. intros [].
Qed.
Lemma frees_fold n b l : fold_left (flag_step n) l true = b <-> frees n l b.
Proof.
  assert (FUN : forall b1, frees n l b1 -> fold_left (flag_step n) l true = b1).
  { assert (SKIP : forall l a, (forall p own, ~ In (KGive n p own) l) -> fold_left (flag_step n) l a = a).
    { induction l0 as [|o l0 IH]; intros a H; [reflexivity|]. cbn [fold_left]. rewrite IH by (intros p own K; apply (H p own); right; exact K).
      destruct o as [m p|m p own| |m]; try reflexivity. cbn [flag_step]. destruct (Nat.eqb_spec m n) as [->|]; [|reflexivity]. destruct (H p own). left. reflexivity. }
    intros b1 [l0 H|l1 p own l2 H]; [apply SKIP, H|]. rewrite fold_left_app. cbn [fold_left]. rewrite SKIP by exact H. cbn [flag_step]. rewrite Nat.eqb_refl. reflexivity. }
  split; [|apply FUN]. intros <-. assert (EX : exists b1, frees n l b1).
  { clear FUN. induction l as [|o l IH] using rev_ind; [exists true; constructor; intros p own []|].
    assert (KEEP : (forall p own, o <> KGive n p own) -> exists b1, frees n (l ++ [o]) b1).
    { intros NO. destruct IH as [b1 [l0 H|l1 p own l2 H]].
      - exists true. constructor. intros p own K. apply in_app_or in K as [K|[K|[]]]; [exact (H _ _ K)|exact (NO _ _ K)].
      - exists own. rewrite <- app_assoc. cbn [app]. constructor. intros p' own' K. apply in_app_or in K as [K|[K|[]]]; [exact (H _ _ K)|exact (NO _ _ K)]. }
    destruct o as [m p|m p own| |m]; try (apply KEEP; discriminate).
    destruct (Nat.eq_dec m n) as [->|NE]; [|apply KEEP; congruence]. exists own. apply (fr_last n l p own []). intros p' own' []. }
  destruct EX as (b1 & H). rewrite (FUN b1 H). exact H.
Qed.
Lemma freed_iff ops i : addressed 1 ops -> In i (k_freed (key_life ops)) <-> exists n, holds n i ops /\ frees n ops true.
Proof.
  intros AD. destruct (run_slots ops new_heap AD) as (F & _ & S0). unfold key_life, destroy. cbn [k_freed]. rewrite F. cbn [new_heap k_freed app].
  assert (NS : forall n, nth n (k_slots new_heap) new_slot = new_slot) by (intros [|[|n]]; reflexivity). rewrite in_flat_map. split.
  - intros (s & I & J). apply In_nth_error in I as (n & E). destruct (S0 n s E) as [P Q]. rewrite NS in P, Q. cbn [new_slot k_ptr k_free] in P, Q. exists n.
    unfold slot_free in J. destruct (k_free s) eqn:FR; [|destruct J]. destruct (k_ptr s) as [j|] eqn:PT; [|destruct J]. destruct J as [->|[]].
    rewrite <- holds_fold, <- frees_fold. auto.
  - intros (n & H & G). assert (LT : n < length (k_slots (fold_left key_step ops new_heap))).
    { destruct H as (l1 & o & l2 & E & S1 & _). eapply (run_exists ops new_heap n o AD); [rewrite E; apply in_or_app; right; left; reflexivity|].
      destruct S1 as [->|(own & ->)]; left; reflexivity. }
    destruct (nth_error (k_slots (fold_left key_step ops new_heap)) n) as [s|] eqn:E; [|apply nth_error_None in E; lia].
    exists s. split; [eapply nth_error_In; eauto|]. destruct (S0 n s E) as [P Q]. rewrite NS in P, Q. cbn [new_slot k_ptr k_free] in P, Q.
    apply holds_fold in H. apply frees_fold in G. unfold slot_free. rewrite Q, G, P, H. left. reflexivity.
Qed.
Lemma pub_iff_run ops i : forall h, In i (pub_freed (pub_step (fold_left pub_step ops h) PReset)) <->
  In i (pub_freed h) \/ (pub_ptr h = Some i /\ released_first ops) \/ exists l1 l2, ops = l1 ++ PParse (Some i) :: l2 /\ released_first l2.
Proof.
  induction ops as [|o ops IH]; intros h; cbn [fold_left].
  - cbn [pub_step pub_freed]. destruct (pub_ptr h) as [j|]; cbn [opt_cons In].
    + split; [intros [->|I]; [right; left; split; [reflexivity|constructor]|auto]|]. intros [I|[[[= ->] _]|(l1 & l2 & E & _)]]; auto. destruct l1; discriminate.
    + split; [auto|]. intros [I|[[X _]|(l1 & l2 & E & _)]]; auto; [discriminate|destruct l1; discriminate].
  - rewrite IH. clear IH. destruct o as [|[j|]]; cbn [pub_step pub_freed pub_ptr].
    + split.
      * intros [I|[[X _]|(l1 & l2 & -> & R)]]; [|discriminate|right; right; exists (PReset :: l1), l2; auto].
        destruct (pub_ptr h) as [j|]; cbn [opt_cons In] in I; [destruct I as [->|I]|]; auto. right. left. split; [reflexivity|constructor].
      * intros [I|[[-> _]|(l1 & l2 & E & R)]]; [left; destruct (pub_ptr h); [right|]; exact I|left; left; reflexivity|].
        destruct l1 as [|x l1]; [discriminate|]. injection E as _ ->. right. right. eauto.
    + split.
      * intros [I|[[[= ->] R]|(l1 & l2 & -> & R)]]; [auto|right; right; exists [], ops; auto|right; right; exists (PParse (Some j) :: l1), l2; auto].
      * intros [I|[[_ R]|(l1 & l2 & E & R)]]; [auto|inversion R|]. destruct l1 as [|x l1]; injection E as E1 E2.
        { subst. right. left. auto. }
        { subst. right. right. eauto. }
    + split.
      * intros [I|[[X R]|(l1 & l2 & -> & R)]]; [auto|right; left; split; [exact X|constructor; exact R]|right; right; exists (PParse None :: l1), l2; auto].
      * intros [I|[[X R]|(l1 & l2 & E & R)]]; [auto|right; left; split; [exact X|inversion R; auto]|]. destruct l1 as [|x l1]; [discriminate|]. injection E as _ ->. right. right. eauto.
Qed.
Lemma pub_iff ops i : In i (pub_freed (pub_life ops)) <-> exists l1 l2, ops = l1 ++ PParse (Some i) :: l2 /\ released_first l2.
Proof.
  unfold pub_life. rewrite pub_iff_run. cbn [pub_freed pub_ptr]. split; [|auto]. intros [[]|[[X _]|H]]; [discriminate|exact H].
Qed.
