(** The options of each signature, from the calls made on it. *)
From Verif Require Import Bytes Outcome Util Canonicalization Crypto SignatoryOptions SpecText SpecOptions OptionsFacts.

Lemma at_set {O A} (sets : list O -> O -> A -> Prop) d l x a : sets l x a -> latest_at sets d (l ++ [x]) a.
Proof. intros H. apply la_some; [exact H|]. intros m1 y m2 b E. destruct m1; discriminate. Qed.
Lemma at_keep {O A} (sets : list O -> O -> A -> Prop) d l x a : latest_at sets d l a -> (forall b, ~ sets l x b) -> latest_at sets d (l ++ [x]) a.
Proof.
  intros H N. destruct H as [l H|l1 y l2 a H1 H2].
  - apply la_none. intros l1 y l2 a E. destruct l2 as [|z l2 _] using rev_ind.
    + apply app_inj_tail in E as [<- <-]. apply N.
    + rewrite app_comm_cons, app_assoc in E. apply app_inj_tail in E as [E _]. exact (H _ _ _ a E).
  - rewrite <- app_assoc. cbn [app]. apply la_some; [exact H1|]. intros m1 z m2 b E. destruct m2 as [|w m2 _] using rev_ind.
    + apply app_inj_tail in E as [<- <-]. apply N.
    + rewrite app_comm_cons, app_assoc in E. apply app_inj_tail in E as [E _]. exact (H2 _ _ _ b E).
Qed.
Lemma latest_set {O A} (sets : O -> A -> Prop) d l x a : sets x a -> latest sets d (l ++ [x]) a.
Proof. intros H. apply latest_some; [exact H|]. intros y b []. Qed.
Lemma latest_keep {O A} (sets : O -> A -> Prop) d l x a : latest sets d l a -> (forall b, ~ sets x b) -> latest sets d (l ++ [x]) a.
Proof.
  intros H N. destruct H as [l H|l1 y l2 a H1 H2].
  - apply latest_none. intros y b I. apply in_app_or in I as [I|[<-|[]]]; auto.
  - rewrite <- app_assoc. cbn [app]. apply latest_some; [exact H1|]. intros z b I. apply in_app_or in I as [I|[<-|[]]]; auto.
Qed.
Lemma latest_fun {O A} (sets : O -> A -> Prop) d l a : (forall x p q, sets x p -> sets x q -> p = q) ->
  latest sets d l a -> forall b, latest sets d l b -> a = b.
Proof.
  intros F Ha b Hb. destruct Ha as [l H|l1 y l2 a H1 H2]; remember d as d' eqn:Ed in Hb; [|remember (l1 ++ y :: l2) as l eqn:El in Hb].
  - destruct Hb as [l Hb|k1 z k2 b G1 G2]; [congruence|]. destruct (H z b); [apply in_or_app; right; left; reflexivity|exact G1].
  - destruct Hb as [l Hb|k1 z k2 b G1 G2]; subst.
    + destruct (Hb y a); [apply in_or_app; right; left; reflexivity|exact H1].
    + revert k1 El. induction l1 as [|w l1 IH]; intros [|v k1] El; cbn [app] in El; injection El as E1 E2; subst.
      * eauto.
      * destruct (H2 z b); [apply in_or_app; right; left; reflexivity|exact G1].
      * destruct (G2 y a); [apply in_or_app; right; left; reflexivity|exact H1].
      * eapply IH; eauto.
Qed.
Lemma alg_is_fun l a b : algorithm_is l a -> algorithm_is l b -> a = b.
Proof. intros Ha Hb. eapply (latest_fun _ _ _ _ _ Ha _ Hb). Unshelve. intros; cbn in *; congruence. Qed.

Definition run_sigs (C : crypto) (l : list sig_op) (s : sig_options) : sig_options := fold_left (fun s m => fst (run_sig_op C m s)) l s.
Lemma sig_getters_run C l : sig_getters C l (run_sigs C l new_sig_options).
Proof.
  induction l as [|m l IH] using rev_ind.
  { split; cbn; try (apply latest_none; intros ? ? []); apply la_none; intros l1 x l2 a E; destruct l1; discriminate. }
  unfold run_sigs. rewrite fold_left_app. cbn [fold_left]. fold (run_sigs C l new_sig_options). set (s := run_sigs C l new_sig_options) in *. clearbody s.
  destruct IH as [HD HS HA HR HE]. destruct m as [key|k|d|x|a]; cbn [run_sig_op].
  - destruct (so_key_fields C key s) as (EA & ED & ES).
    assert (NR : so_alg s = ED25519 -> so_rsa (fst (so_key C key s)) = so_rsa s).
    { intros A. unfold so_key, so_SetPrivateKey, so_after_failed_key. rewrite A. repeat (match goal with |- context [if ?b then _ else _] => destruct b end); reflexivity. }
    assert (NE : so_alg s = RSA -> so_ed (fst (so_key C key s)) = so_ed s).
    { intros A. unfold so_key, so_SetPrivateKey, so_after_failed_key. rewrite A. destruct (beqb (firstn 5 key) (str "-----")); [destruct (c_pem_private C key) as [[k|]|]|destruct (c_der_private C (b64d C key))]; reflexivity. }
    split.
    + rewrite ED. apply latest_keep; [exact HD|]. intros b [K _]; discriminate.
    + rewrite ES. apply latest_keep; [exact HS|]. intros b [K _]; discriminate.
    + rewrite EA. apply latest_keep; [exact HA|]. discriminate.
    + destruct (so_alg s) eqn:A.
      * unfold so_key, so_SetPrivateKey, so_after_failed_key. rewrite A. fold (is_pem key). destruct (is_pem key) eqn:P.
        { assert (KEEP : (forall k, c_pem_private C key <> Some (Some k)) -> latest_at (sets_rsa C) None (l ++ [SetPrivateKey key]) (so_rsa s)).
          { intros N. apply at_keep; [exact HR|]. intros b [K|(key' & [= <-] & _ & K)]; [discriminate|]. rewrite P in K. destruct K as [K1 K2]. destruct b as [b|]; [|congruence]. exact (N b K2). }
          destruct (c_pem_private C key) as [[k|]|] eqn:PP; cbn [fst so_rsa]; [|apply KEEP; discriminate..].
          apply at_set. right. exists key. split; [reflexivity|]. split; [exact HA|]. rewrite P. split; [discriminate|exact PP]. }
        { assert (SET : latest_at (sets_rsa C) None (l ++ [SetPrivateKey key]) (c_der_private C (b64d C key))).
          { apply at_set. right. exists key. split; [reflexivity|]. split; [exact HA|]. rewrite P. reflexivity. }
          destruct (c_der_private C (b64d C key)); exact SET. }
      * rewrite NR by reflexivity. apply at_keep; [exact HR|]. intros b [K|(key' & [= <-] & K & _)]; [discriminate|]. pose proof (alg_is_fun _ _ _ HA K). discriminate.
    + destruct (so_alg s) eqn:A.
      * rewrite NE by reflexivity. apply at_keep; [exact HE|]. intros b (key' & [= <-] & K & _). pose proof (alg_is_fun _ _ _ HA K). discriminate.
      * assert (SET : forall k, (ed_octets C key k \/ length key <> 64 /\ length key <> 32 /\ ed_octets C (b64d C key) k) -> latest_at (sets_ed C) [] (l ++ [SetPrivateKey key]) k).
        { intros k K. apply at_set. exists key. auto. }
        unfold so_key, so_SetPrivateKey, so_after_failed_key. rewrite A. unfold ed_octets in SET.
        destruct (Nat.eqb_spec (length key) 64) as [L|L]; [cbn [fst so_ed]; apply SET; auto|].
        destruct (Nat.eqb_spec (length key) 32) as [L2|L2]; [cbn [fst so_ed]; apply SET; auto|].
        destruct (Nat.eqb_spec (length (b64d C key)) 64) as [L3|L3]; [cbn [fst so_ed]; apply SET; auto 8|].
        destruct (Nat.eqb_spec (length (b64d C key)) 32) as [L4|L4]; [cbn [fst so_ed]; apply SET; auto 8|].
        cbn [fst perm]. apply at_keep; [exact HE|]. intros b (key' & [= <-] & _ & K). unfold ed_octets in K. intuition congruence.
  - split; cbn [so_rsakey fst so_domain so_selector so_alg so_rsa so_ed].
    + apply latest_keep; [exact HD|]. intros b [K _]; discriminate.
    + apply latest_keep; [exact HS|]. intros b [K _]; discriminate.
    + apply latest_keep; [exact HA|]. discriminate.
    + apply at_set. left. reflexivity.
    + apply at_keep; [exact HE|]. intros b (key & K & _). discriminate.
  - assert (O : so_selector (fst (so_setdomain d s)) = so_selector s /\ so_alg (fst (so_setdomain d s)) = so_alg s /\ so_rsa (fst (so_setdomain d s)) = so_rsa s /\ so_ed (fst (so_setdomain d s)) = so_ed s).
    { destruct (setdomain_spec d s) as [[D E]|[D E]]; rewrite E; cbn; auto. }
    destruct O as (O1 & O2 & O3 & O4). split; rewrite ?O1, ?O2, ?O3, ?O4.
    + destruct (setdomain_spec d s) as [[D E]|[D E]]; rewrite E; [apply latest_set; auto|]. apply latest_keep; [exact HD|]. intros b [[= <-] K]. auto.
    + apply latest_keep; [exact HS|]. intros b [K _]; discriminate.
    + apply latest_keep; [exact HA|]. discriminate.
    + apply at_keep; [exact HR|]. intros b [K|(key & K & _)]; discriminate.
    + apply at_keep; [exact HE|]. intros b (key & K & _). discriminate.
  - assert (O : so_domain (fst (so_setselector x s)) = so_domain s /\ so_alg (fst (so_setselector x s)) = so_alg s /\ so_rsa (fst (so_setselector x s)) = so_rsa s /\ so_ed (fst (so_setselector x s)) = so_ed s).
    { destruct (setselector_spec x s) as [[D E]|[D E]]; rewrite E; cbn; auto. }
    destruct O as (O1 & O2 & O3 & O4). split; rewrite ?O1, ?O2, ?O3, ?O4.
    + apply latest_keep; [exact HD|]. intros b [K _]; discriminate.
    + destruct (setselector_spec x s) as [[D E]|[D E]]; rewrite E; [apply latest_set; auto|]. apply latest_keep; [exact HS|]. intros b [[= <-] K]. auto.
    + apply latest_keep; [exact HA|]. discriminate.
    + apply at_keep; [exact HR|]. intros b [K|(key & K & _)]; discriminate.
    + apply at_keep; [exact HE|]. intros b (key & K & _). discriminate.
  - split; cbn [so_setalg fst so_domain so_selector so_alg so_rsa so_ed].
    + apply latest_keep; [exact HD|]. intros b [K _]; discriminate.
    + apply latest_keep; [exact HS|]. intros b [K _]; discriminate.
    + apply latest_set. reflexivity.
    + apply at_keep; [exact HR|]. intros b [K|(key & K & _)]; discriminate.
    + apply at_keep; [exact HE|]. intros b (key & K & _). discriminate.
Qed.

(** Each signature sees just the calls on it. *)
Lemma sigs_run C l : forall o, refs_known (length (o_more o)) l -> forall n,
  nth_error (all_signatures (run_ops C l o)) n =
  if Nat.ltb n (length (all_signatures (run_ops C l o))) then Some (run_sigs C (calls_on n l) (nth n (all_signatures o) new_sig_options)) else None.
Proof.
  induction l as [|x l IH]; intros o NB n; cbn [run_ops calls_on].
  { unfold run_sigs. cbn [fold_left]. destruct (Nat.ltb_spec n (length (all_signatures o))); [|apply nth_error_None; lia]. apply nth_error_nth'. auto. }
  inversion NB as [|k l' NB' E|k n0 m l' LT NB' E|k x' l' N1 N2 NB' E]; subst.
  - rewrite IH by (cbn [run_op fst with_more o_more]; rewrite app_length; cbn [length]; rewrite Nat.add_1_r; exact NB').
    destruct (Nat.ltb n (length (all_signatures (run_ops C l (fst (run_op C AddAdditionalSignature o)))))); [|reflexivity]. do 2 f_equal.
    cbn [run_op fst]. unfold all_signatures. cbn [with_more o_main o_more]. destruct n as [|n]; [reflexivity|]. cbn [nth].
    destruct (Nat.lt_ge_cases n (length (o_more o))); [apply app_nth1; auto|]. rewrite app_nth2 by auto. rewrite (nth_overflow (o_more o)) by auto.
    destruct (n - length (o_more o)) as [|[|z]]; reflexivity.
  - destruct (nth_error (o_more o) n0) as [s0|] eqn:EN; [|apply nth_error_None in EN; lia]. destruct (on_more C n0 m o s0 EN) as [M1 M2].
    assert (LEN : length (o_more (fst (run_op C (OnMore n0 m) o))) = length (o_more o)).
    { cbn [run_op]. rewrite EN. destruct (run_sig_op C m s0). cbn. apply update_length. }
    rewrite IH by (rewrite LEN; exact NB').
    destruct (Nat.ltb n (length (all_signatures (run_ops C l (fst (run_op C (OnMore n0 m) o)))))); [|reflexivity]. f_equal.
    assert (X : nth n (all_signatures (fst (run_op C (OnMore n0 m) o))) new_sig_options = if Nat.eqb n (S n0) then fst (run_sig_op C m (nth n (all_signatures o) new_sig_options)) else nth n (all_signatures o) new_sig_options).
    { unfold all_signatures. rewrite M1. destruct n as [|n]; [reflexivity|]. cbn [nth Nat.eqb]. specialize (M2 n). destruct (Nat.eqb_spec n n0) as [->|NE].
      - rewrite (nth_error_nth _ _ _ M2). rewrite (nth_error_nth _ _ _ EN). reflexivity.
      - destruct (nth_error (o_more o) n) eqn:E2; [rewrite (nth_error_nth _ _ _ M2), (nth_error_nth _ _ _ E2); reflexivity|].
        apply nth_error_None in M2, E2. rewrite !nth_overflow by auto. reflexivity. }
    rewrite X. destruct (Nat.eqb n (S n0)); reflexivity.
  - assert (LEN : o_more (fst (run_op C x o)) = o_more o).
    { destruct x; try reflexivity; [apply on_main|destruct (N2 n0 m); reflexivity|congruence]. }
    rewrite IH by (rewrite LEN; exact NB').
    destruct (Nat.ltb n (length (all_signatures (run_ops C l (fst (run_op C x o)))))); [|reflexivity]. f_equal.
    destruct x; try reflexivity; [|destruct (N2 n0 m); reflexivity|congruence].
    destruct (on_main C m o) as [M1 M2]. unfold all_signatures. rewrite M1, M2. destruct n; reflexivity.
Qed.
Lemma signature_getters C l n s : refs_known 0 l -> nth_error (all_signatures (run_ops C l new_options)) n = Some s -> sig_getters C (calls_on n l) s.
Proof.
  intros NB E. rewrite (sigs_run C l new_options NB n) in E. destruct (Nat.ltb _ _); [|discriminate].
  assert (X : nth n (all_signatures new_options) new_sig_options = new_sig_options) by (destruct n as [|[|n]]; reflexivity). rewrite X in E. injection E as <-. apply sig_getters_run.
Qed.
