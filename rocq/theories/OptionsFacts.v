(** Facts about SignatoryOptions and ValidateDomain. *)
From Verif Require Import Bytes Outcome Base64 Canonicalization Util Crypto SignatoryOptions BytesFacts SpecText SpecOptions Examples.

(** ** ValidateDomain *)
Lemma alphanum_b c : in_set alphanum c = true <-> letter_digit c.
Proof.
  assert (X : forall c, Bool.eqb (in_set alphanum c) (((65 <=? code c) && (code c <=? 90)) || ((97 <=? code c) && (code c <=? 122)) || ((48 <=? code c) && (code c <=? 57)))%N = true)
    by (apply byte_sweep; reflexivity).
  specialize (X c). apply Bool.eqb_prop in X. rewrite X. unfold letter_digit, between.
  rewrite !orb_true_iff, !andb_true_iff, !N.leb_le. tauto.
Qed.
Lemma ldh_b c : in_set (alphanum ++ str "-") c = true <-> letter_digit c \/ c = chr 45.
Proof.
  assert (X : forall c, Bool.eqb (in_set (alphanum ++ str "-") c) (in_set alphanum c || (c =?c chr 45)) = true) by (apply byte_sweep; reflexivity).
  specialize (X c). apply Bool.eqb_prop in X. rewrite X, orb_true_iff, alphanum_b, ceqb_eq. tauto.
Qed.
Lemma find_first_not_None (p : ascii -> bool) l : find_first_not p l = None <-> forallb p l = true.
Proof.
  induction l as [|c l IH]; cbn [find_first_not forallb]; [tauto|]. destruct (p c); cbn [andb]; [|split; discriminate].
  destruct (find_first_not p l); cbn [option_map]; [split; [discriminate|]|]; rewrite <- IH; try tauto. discriminate.
Qed.
Lemma last_rev (c : ascii) l d : last (c :: l) d = match rev (c :: l) with x :: _ => x | [] => d end.
Proof.
  destruct (exists_last (l := c :: l) ltac:(discriminate)) as (k & z & ->). rewrite last_last, rev_app_distr. reflexivity.
Qed.
Lemma ValidateSubDomain_iff l : ValidateSubDomain l = true <-> label l.
Proof.
  unfold label, last_ok. destruct l as [|c l]; [cbn; split; [discriminate|tauto]|]. unfold ValidateSubDomain. rewrite last_rev.
  destruct (rev (c :: l)) as [|z k] eqn:R.
  { apply (f_equal (@rev _)) in R. rewrite rev_involutive in R. discriminate. }
  cbn [first_ok]. rewrite <- !alphanum_b. destruct (in_set alphanum c); cbn [negb]; [|split; [discriminate|intros (_ & _ & X & _); discriminate]].
  destruct (in_set alphanum z); cbn [negb]; [|split; [discriminate|intros (_ & _ & _ & X); discriminate]].
  assert (F : Forall (fun c => letter_digit c \/ c = chr 45) (c :: l) <-> forallb (in_set (alphanum ++ str "-")) (c :: l) = true).
  { rewrite forallb_forall, Forall_forall. split; intros H x K; apply ldh_b; auto. }
  rewrite F, <- find_first_not_None. destruct (find_first_not _ _); split; try discriminate; try tauto.
  - intros (_ & X & _). discriminate.
  - intros _. repeat (split; auto). discriminate.
Qed.
Lemma label_no_dot l : label l -> ~ In DOT l.
Proof.
  intros (_ & F & _) K. rewrite Forall_forall in F. destruct (F _ K) as [[[A B]|[[A B]|[A B]]]|E]; try discriminate;
    vm_compute in A, B; congruence.
Qed.
Lemma vd_loop_spec f : forall rest, length rest < f -> exists b, vd_loop f rest = Ok b /\ (b = true <-> dotted rest).
Proof.
  induction f as [|f IH]; intros rest L; [lia|]. cbn [vd_loop]. destruct (find_char DOT rest) as [pos|] eqn:E.
  - apply find_char_Some in E as (pre & post & -> & LP & NI). subst pos. rewrite firstn_app_exact.
    assert (SK : skipn (S (length pre)) (pre ++ DOT :: post) = post).
    { change (DOT :: post) with ([DOT] ++ post). rewrite app_assoc. replace (S (length pre)) with (length (pre ++ [DOT])) by (rewrite app_length; cbn; lia).
      apply skipn_app_exact. }
    rewrite SK.
    assert (INV : dotted (pre ++ DOT :: post) <-> label pre /\ dotted post).
    { split; [|intros [A B]; apply dotted_more; auto]. intros D. inversion D as [l LL EL|l r LL DR EL].
      - exfalso. apply (label_no_dot _ LL). subst l. apply in_or_app. right. left. reflexivity.
      - assert (l = pre /\ r = post) as [-> ->]; [|auto]. apply label_no_dot in LL. clear - LL NI EL. revert pre NI EL.
        induction l as [|x l IHl]; intros pre NI EL.
        + destruct pre as [|y pre]; [injection EL as ->; auto|]. injection EL as <- _. exfalso. apply NI. left. auto.
        + destruct pre as [|y pre]; [injection EL as -> _; exfalso; apply LL; left; auto|]. injection EL as -> EL.
          destruct (IHl ltac:(intros K; apply LL; right; auto) pre ltac:(intros K; apply NI; right; auto) EL) as [-> ->]. auto. }
    rewrite app_length in L. cbn in L. destruct (ValidateSubDomain pre) eqn:V.
    + apply ValidateSubDomain_iff in V. destruct (IH post) as (b & -> & B); [lia|]. exists b. split; auto. rewrite INV, B. tauto.
    + exists false. split; auto. rewrite INV, <- ValidateSubDomain_iff, V. split; [discriminate|intros [X _]; discriminate].
  - exists (ValidateSubDomain rest). split; auto. rewrite ValidateSubDomain_iff. split; [apply dotted_one|].
    intros D. inversion D as [l LL EL|l r LL DR EL]; auto. exfalso. subst rest. apply find_char_None in E. apply E, in_or_app. right. left. reflexivity.
Qed.
Lemma ValidateDomain_spec d : exists b, ValidateDomain d = Ok b /\ (b = true <-> dotted d).
Proof. apply vd_loop_spec. lia. Qed.

Lemma setdomain_spec d s :
  (dotted d /\ so_setdomain d s = (put_domain d s, Ok tt)) \/ (~ dotted d /\ so_setdomain d s = (s, perm)).
Proof.
  unfold so_setdomain. destruct (ValidateDomain_spec d) as (b & -> & B). cbn [slift]. destruct b; [left|right]; split; auto; [tauto|].
  intros D. apply B in D. discriminate.
Qed.
Lemma setselector_spec d s :
  (dotted d /\ so_setselector d s = (put_selector d s, Ok tt)) \/ (~ dotted d /\ so_setselector d s = (s, perm)).
Proof.
  unfold so_setselector. destruct (ValidateDomain_spec d) as (b & -> & B). cbn [slift]. destruct b; [left|right]; split; auto; [tauto|].
  intros D. apply B in D. discriminate.
Qed.
Lemma domain_iff d s : (snd (so_setdomain d s) = Ok tt <-> dotted d) /\
  (dotted d -> fst (so_setdomain d s) = put_domain d s) /\
  (~ dotted d -> so_setdomain d s = (s, Throw (PermanentError AR_PERMERROR))).
Proof.
  destruct (setdomain_spec d s) as [[D E]|[D E]]; rewrite E; cbn [fst snd].
  - split; [tauto|]. split; [auto|tauto].
  - split; [split; [discriminate|tauto]|]. split; [tauto|auto].
Qed.
Lemma selector_iff d s : (snd (so_setselector d s) = Ok tt <-> dotted d) /\
  (dotted d -> fst (so_setselector d s) = put_selector d s) /\
  (~ dotted d -> so_setselector d s = (s, Throw (PermanentError AR_PERMERROR))).
Proof.
  destruct (setselector_spec d s) as [[D E]|[D E]]; rewrite E; cbn [fst snd].
  - split; [tauto|]. split; [auto|tauto].
  - split; [split; [discriminate|tauto]|]. split; [tauto|auto].
Qed.

(** ** Sequences of calls *)
Lemma latest_run {A} C (get : options -> A) (sets : op -> A -> Prop) :
  (forall x o, (exists a, sets x a /\ get (fst (run_op C x o)) = a) \/ ((forall a, ~ sets x a) /\ get (fst (run_op C x o)) = get o)) ->
  forall l o, latest sets (get o) l (get (run_ops C l o)).
Proof.
  intros H. induction l as [|x l IH]; intros o; cbn [run_ops]; [apply latest_none; intros x a []|].
  specialize (IH (fst (run_op C x o))). destruct (H x o) as [(a & SA & E)|(N & E)].
  - rewrite E in IH. remember (get (run_ops C l (fst (run_op C x o)))) as r. destruct IH as [l NN|l1 y l2 b SB NN].
    + apply (latest_some sets (get o) [] x l a); auto.
    + apply (latest_some sets (get o) (x :: l1) y l2 b); auto.
  - rewrite E in IH. remember (get (run_ops C l (fst (run_op C x o)))) as r. destruct IH as [l NN|l1 y l2 b SB NN].
    + apply latest_none. intros z a [<-|K]; auto.
    + apply (latest_some sets (get o) (x :: l1) y l2 b); auto.
Qed.
Lemma run_op_main C x o : (exists m, x = OnMain m /\ run_op C x o = (with_main (fst (run_sig_op C m (o_main o))) o, snd (run_sig_op C m (o_main o)))) \/
  ((forall m, x <> OnMain m) /\ o_main (fst (run_op C x o)) = o_main o).
Proof.
  destruct x; try (right; split; [discriminate|reflexivity]).
  - left. exists m. split; auto. cbn [run_op]. destruct (run_sig_op C m (o_main o)); reflexivity.
  - right. split; [discriminate|]. cbn [run_op]. destruct (nth_error (o_more o) n); [|reflexivity].
    destruct (run_sig_op C m s); reflexivity.
Qed.
(** The calls on a signature leave the other options alone. *)
Ltac other_op C o :=
  match goal with
  | |- context [OnMain ?m] => cbn [run_op]; destruct (run_sig_op C m (o_main o)); reflexivity
  | |- context [OnMore ?n ?m] => cbn [run_op]; destruct (nth_error (o_more o) n) as [s0|]; [destruct (run_sig_op C m s0)|]; reflexivity
  | |- _ => reflexivity
  end.
Ltac plain C g f l :=
  refine (latest_run C g f _ l new_options); let x := fresh "x" in let o := fresh "o" in intros x o;
  destruct x; try (right; split; [discriminate|other_op C o]); left; eexists; split; reflexivity.

Lemma latest_main {A} C (get : sig_options -> A) (what : sig_op -> A -> Prop) :
  (forall m s, (exists a, what m a /\ get (fst (run_sig_op C m s)) = a) \/ ((forall a, ~ what m a) /\ get (fst (run_sig_op C m s)) = get s)) ->
  forall l o, latest (sets_main what) (get (o_main o)) l (get (o_main (run_ops C l o))).
Proof.
  intros H. apply (latest_run C (fun o => get (o_main o))). intros x o. destruct (run_op_main C x o) as [(m & -> & E)|(N & E)].
  - rewrite E. cbn [fst]. destruct (H m (o_main o)) as [(a & W & G)|(NW & G)].
    + left. exists a. split; [exists m; auto|exact G].
    + right. split; [|exact G]. intros a (m' & [= <-] & W). exact (NW a W).
  - right. rewrite E. split; auto. intros a (m & -> & _). exact (N m eq_refl).
Qed.
Lemma so_key_fields C key s : so_alg (fst (so_key C key s)) = so_alg s /\ so_domain (fst (so_key C key s)) = so_domain s /\
  so_selector (fst (so_key C key s)) = so_selector s.
Proof.
  unfold so_key, so_SetPrivateKey, so_after_failed_key. destruct (so_alg s) eqn:A.
  - destruct (beqb (firstn 5 key) (str "-----")).
    + destruct (c_pem_private C key) as [[k|]|]; cbn; auto.
    + destruct (c_der_private C (b64d C key)); cbn; auto.
  - repeat (match goal with |- context [if ?b then _ else _] => destruct b end); cbn; auto.
Qed.

Lemma flag_run C (get : options -> bool) (P : op -> Prop) :
  (forall x o, (P x /\ get (fst (run_op C x o)) = true) \/ (~ P x /\ get (fst (run_op C x o)) = get o)) ->
  forall l o, get (run_ops C l o) = true <-> (get o = true \/ exists x, In x l /\ P x).
Proof.
  intros H. induction l as [|x l IH]; intros o; cbn [run_ops].
  - split; [auto|intros [E|(x & [] & _)]; auto].
  - rewrite IH. destruct (H x o) as [[PX E]|[NX E]]; rewrite E.
    + split; [intros _; right; exists x; cbn; auto|auto].
    + split; intros [K|(y & I & PY)]; auto.
      * right. exists y. cbn. auto.
      * destruct I as [<-|I]; [contradiction|]. right. eauto.
Qed.
Lemma list_remove_all l : forall h n,
  count_occ (list_eq_dec ascii_dec) (fold_left (fun h x => list_remove x h) l h) n =
  if in_dec (list_eq_dec ascii_dec) n l then 0 else count_occ (list_eq_dec ascii_dec) h n.
Proof.
  induction l as [|x l IH]; intros h n; cbn [fold_left]; [reflexivity|]. rewrite IH.
  assert (R : count_occ (list_eq_dec ascii_dec) (list_remove x h) n = if list_eq_dec ascii_dec x n then 0 else count_occ (list_eq_dec ascii_dec) h n).
  { clear. unfold list_remove. induction h as [|y h IH]; [destruct list_eq_dec; reflexivity|]. cbn [filter count_occ].
    destruct (beqb_spec y x) as [->|NE]; cbn [negb].
    - rewrite IH. destruct (list_eq_dec ascii_dec x n); auto.
    - cbn [count_occ]. rewrite IH. destruct (list_eq_dec ascii_dec y n) as [->|]; auto. destruct (list_eq_dec ascii_dec x n); [congruence|auto]. }
  rewrite R. destruct (in_dec (list_eq_dec ascii_dec) n l) as [K|K]; destruct (in_dec (list_eq_dec ascii_dec) n (x :: l)) as [K'|K']; auto.
  - exfalso. apply K'. right. auto.
  - destruct (list_eq_dec ascii_dec x n) as [->|NE]; auto. destruct K'; contradiction.
  - destruct (list_eq_dec ascii_dec x n) as [->|NE]; auto. exfalso. apply K'. left. auto.
Qed.
Lemma list_remove_filter l : forall h, exists p, fold_left (fun h x => list_remove x h) l h = filter p h.
Proof.
  induction l as [|x l IH]; intros h; cbn [fold_left].
  - exists (fun _ => true). induction h as [|y h IH]; cbn; congruence.
  - destruct (IH (list_remove x h)) as (p & ->). exists (fun y => p y && negb (beqb y x)). unfold list_remove.
    clear. induction h as [|y h IH]; [reflexivity|]. cbn [filter]. destruct (beqb y x); cbn [negb andb].
    + rewrite andb_false_r. exact IH.
    + cbn [filter]. rewrite andb_true_r. destruct (p y); [f_equal|]; exact IH.
Qed.
Lemma headers_run C l : forall o, headers_after (o_headers o) l (o_headers (run_ops C l o)).
Proof.
  induction l as [|x l IH]; intros o; cbn [run_ops]; [constructor|]. specialize (IH (fst (run_op C x o))).
  assert (X : (forall l, x <> SetHeaders l /\ x <> AddHeaders l /\ x <> DelHeaders l) -> o_headers (fst (run_op C x o)) = o_headers o).
  { intros N. destruct x; try reflexivity; try (other_op C o); exfalso; destruct (N l0) as (A & B & D); congruence. }
  destruct x as [m|n m| |a|h|h|h|h|n|n|m|m|t|t a|i];
    try (rewrite X in IH by (intros; split; [discriminate|split; discriminate]); apply ha_other; [intros; split; [discriminate|split; discriminate]|exact IH]).
  - apply ha_set. exact IH.
  - apply ha_add. exact IH.
  - eapply ha_del; [| |exact IH]; cbn; [apply list_remove_all|apply list_remove_filter].
Qed.
Lemma update_length {A} n (x : A) l : length (update_nth n x l) = length l.
Proof.
  unfold update_nth. rewrite app_length. rewrite <- (firstn_skipn n l) at 3. rewrite app_length. f_equal. destruct (skipn n l); reflexivity.
Qed.
Lemma more_run C l : forall o, length (o_more (run_ops C l o)) =
  length (o_more o) + length (filter (fun x => match x with AddAdditionalSignature => true | _ => false end) l).
Proof.
  induction l as [|x l IH]; intros o; cbn [run_ops filter]; [cbn; lia|]. rewrite IH.
  destruct x; cbn [run_op fst o_more]; try reflexivity.
  - destruct (run_sig_op C m (o_main o)). reflexivity.
  - destruct (nth_error (o_more o) n) as [s0|]; [|reflexivity]. destruct (run_sig_op C m s0). cbn. rewrite update_length. reflexivity.
  - cbn. rewrite app_length. cbn. lia.
Qed.
Lemma options_getters C l : getters l (run_ops C l new_options).
Proof.
  split.
  - plain C o_digest (fun x a => x = SetDigestAlgorithm a) l.
  - plain C o_oversign (fun x a => x = SetOversignHeaders a) l.
  - plain C o_bodylen (fun x a => x = SetSignBodyLength a) l.
  - rewrite (flag_run C o_signlen (fun x => exists n, x = SetSignBodyLength n)).
    + split; [intros [K|(x & K & n & ->)]; [discriminate|eauto]|intros (n & K); eauto].
    + intros x o. destruct x; try (right; split; [intros (n0 & K); discriminate|other_op C o]). left. split; [eexists|]; reflexivity.
  - plain C o_arc (fun x a => x = SetARCInstance a) l.
  - plain C o_chead (fun x a => x = SetCanonModeHeader a) l.
  - plain C o_cbody (fun x a => x = SetCanonModeBody a) l.
  - plain C o_ts (fun x a => x = SetTimestamp a) l.
  - rewrite (flag_run C o_tssign (fun x => exists n, x = SetTimestamp n)).
    + split; [intros [K|(x & K & n & ->)]; [discriminate|eauto]|intros (n & K); eauto].
    + intros x o. destruct x; try (right; split; [intros (n0 & K); discriminate|other_op C o]). left. split; [eexists|]; reflexivity.
  - refine (latest_run C (fun o => (o_ex o, o_exabs o)) (fun x a => x = SetExpiration (fst a) (snd a)) _ l new_options).
    intros x o. destruct x; try (right; split; [discriminate|other_op C o]). left. exists (t, absolute). auto.
  - rewrite (flag_run C o_exsign (fun x => exists n a, x = SetExpiration n a)).
    + split; [intros [K|(x & K & n & a & ->)]; [discriminate|eauto]|intros (n & a & K); right; eexists; eauto].
    + intros x o. destruct x; try (right; split; [intros (n0 & a0 & K); discriminate|other_op C o]). left. split; [do 2 eexists|]; reflexivity.
  - plain C o_identity (fun x a => x = SetIdentity a) l.
  - refine (latest_main C so_domain (fun m d => m = SetDomain d /\ dotted d) _ l new_options). intros m s. destruct m; cbn [run_sig_op];
      try (right; split; [intros b [K _]; discriminate|]); try reflexivity.
    + apply so_key_fields.
    + destruct (setdomain_spec d s) as [[D E]|[D E]]; rewrite E; cbn [fst]; [left; exists d; auto|right; split; auto].
      intros a [[= <-] K]. auto.
    + destruct (setselector_spec s0 s) as [[D E]|[D E]]; rewrite E; reflexivity.
  - refine (latest_main C so_selector (fun m d => m = SetSelector d /\ dotted d) _ l new_options). intros m s. destruct m; cbn [run_sig_op];
      try (right; split; [intros b [K _]; discriminate|]); try reflexivity.
    + apply so_key_fields.
    + destruct (setdomain_spec d s) as [[D E]|[D E]]; rewrite E; reflexivity.
    + destruct (setselector_spec s0 s) as [[D E]|[D E]]; rewrite E; cbn [fst]; [left; exists s0; auto|right; split; auto].
      intros a [[= <-] K]. auto.
  - refine (latest_main C so_alg (fun m a => m = SetSignatureAlgorithm a) _ l new_options). intros m s. destruct m; cbn [run_sig_op];
      try (right; split; [discriminate|]); try reflexivity.
    + apply so_key_fields.
    + destruct (setdomain_spec d s) as [[D E]|[D E]]; rewrite E; reflexivity.
    + destruct (setselector_spec s0 s) as [[D E]|[D E]]; rewrite E; reflexivity.
    + left. eauto.
  - apply (headers_run C l new_options).
  - apply (more_run C l new_options).
Qed.

(** ** Failed calls *)
Lemma sig_op_failed C m s : snd (run_sig_op C m s) <> Ok tt -> ~ der_key m s -> fst (run_sig_op C m s) = s.
Proof.
  destruct m; cbn [run_sig_op]; intros F ND; try (cbn in F; congruence).
  - unfold so_key in *. destruct (so_SetPrivateKey C key s) eqn:E; cbn [fst snd] in *; try congruence.
    unfold so_after_failed_key. destruct (so_alg s) eqn:A; auto. destruct (beqb (firstn 5 key) (str "-----")) eqn:P; auto.
    exfalso. apply ND. exists key. auto.
  - destruct (setdomain_spec d s) as [[D E]|[D E]]; rewrite E in *; cbn [fst snd] in *; congruence.
  - destruct (setselector_spec s0 s) as [[D E]|[D E]]; rewrite E in *; cbn [fst snd] in *; congruence.
Qed.
Lemma update_same {A} n (x : A) l : nth_error l n = Some x -> update_nth n x l = l.
Proof.
  unfold update_nth. revert n. induction l as [|y l IH]; intros n E; [destruct n; discriminate|]. destruct n as [|n].
  - cbn in *. congruence.
  - cbn [nth_error firstn skipn app] in *. f_equal. auto.
Qed.
Lemma with_main_same o : with_main (o_main o) o = o. Proof. destruct o; reflexivity. Qed.
Lemma with_more_same o : with_more (o_more o) o = o. Proof. destruct o; reflexivity. Qed.
Lemma op_failed C x o : snd (run_op C x o) <> Ok tt -> ~ der_call x o -> fst (run_op C x o) = o.
Proof.
  destruct x; cbn [run_op]; intros F ND; try (cbn in F; congruence).
  - pose proof (sig_op_failed C m (o_main o)) as K. destruct (run_sig_op C m (o_main o)) as [s r]. cbn [fst snd] in *.
    rewrite K; auto using with_main_same. intros D. apply ND. left. eauto.
  - destruct (nth_error (o_more o) n) as [s0|] eqn:E; [|cbn in F; congruence].
    pose proof (sig_op_failed C m s0) as K. destruct (run_sig_op C m s0) as [s r]. cbn [fst snd] in *.
    rewrite K; auto; [rewrite update_same by auto; apply with_more_same|]. intros D. apply ND. right. exists n, m, s0. auto.
Qed.
(** Calls on one signature leave the others alone. *)
Lemma update_nth_error {A} n (x : A) l k : n < length l ->
  nth_error (update_nth n x l) k = if Nat.eqb k n then Some x else nth_error l k.
Proof.
  unfold update_nth. revert n k. induction l as [|y l IH]; intros n k L; [cbn in L; lia|]. destruct n as [|n], k as [|k]; cbn [firstn skipn app nth_error Nat.eqb]; auto.
  apply IH. cbn in L. lia.
Qed.
Lemma on_more C n m o s : nth_error (o_more o) n = Some s ->
  o_main (fst (run_op C (OnMore n m) o)) = o_main o /\
  forall k, nth_error (o_more (fst (run_op C (OnMore n m) o))) k =
    if Nat.eqb k n then Some (fst (run_sig_op C m s)) else nth_error (o_more o) k.
Proof.
  intros E. cbn [run_op]. rewrite E. destruct (run_sig_op C m s) as [s1 r]. cbn [fst]. split; [reflexivity|].
  intros k. cbn [with_more o_more]. apply update_nth_error. apply nth_error_Some. congruence.
Qed.
Lemma on_main C m o : o_main (fst (run_op C (OnMain m) o)) = fst (run_sig_op C m (o_main o)) /\
  o_more (fst (run_op C (OnMain m) o)) = o_more o.
Proof. cbn [run_op]. destruct (run_sig_op C m (o_main o)). auto. Qed.
(** Loading a key. *)
Lemma key_loaded C key s s1 : so_SetPrivateKey C key s = Ok s1 <->
  match so_alg s with
  | RSA => exists k, s1 = mkSO (Some k) (so_ed s) RSA (so_domain s) (so_selector s) /\
             (if is_pem key then c_pem_private C key = Some (Some k) else c_der_private C (b64d C key) = Some k)
  | ED25519 => exists k, s1 = mkSO (so_rsa s) k ED25519 (so_domain s) (so_selector s) /\
             (ed_octets C key k \/ length key <> 64 /\ length key <> 32 /\ ed_octets C (b64d C key) k)
  end.
Proof.
  unfold so_SetPrivateKey, is_pem, ed_octets. destruct (so_alg s).
  - destruct (beqb (firstn 5 key) (str "-----")).
    + destruct (c_pem_private C key) as [[k|]|]; (split; [|intros (k' & -> & E)]); try discriminate; [intros [= <-]; eauto|congruence].
    + destruct (c_der_private C (b64d C key)) as [k|]; (split; [|intros (k' & -> & E)]); try discriminate; [intros [= <-]; eauto|congruence].
  - cbv zeta. destruct (Nat.eqb_spec (length key) 64) as [A|A].
    { split; [intros [= <-]; eauto 6|]. intros (k & -> & [[[_ ->]|[B _]]|[B _]]); congruence. }
    destruct (Nat.eqb_spec (length key) 32) as [B|B].
    { split; [intros [= <-]; eauto 6|]. intros (k & -> & [[[D _]|[_ ->]]|(_ & D & _)]); congruence. }
    destruct (Nat.eqb_spec (length (b64d C key)) 64) as [D|D].
    { split; [intros [= <-]; eauto 8|]. intros (k & -> & [[[E _]|[E _]]|(_ & _ & [[_ ->]|[E _]])]); congruence. }
    destruct (Nat.eqb_spec (length (b64d C key)) 32) as [E|E].
    { split; [intros [= <-]; eexists; split; [reflexivity|]; right; auto|]. intros (k & -> & [[[F _]|[F _]]|(_ & _ & [[F _]|[_ ->]])]); congruence. }
    split; [discriminate|]. intros (k & _ & [[[F _]|[F _]]|(_ & _ & [[F _]|[F _]])]); congruence.
Qed.

(** A failed load of a key in DER form drops the key loaded before. *)
Lemma failed_key_dropped : exists C x o, snd (run_op C x o) <> Ok tt /\ fst (run_op C x o) <> o /\
  so_rsa (o_main o) <> None /\ so_rsa (o_main (fst (run_op C x o))) = None.
Proof.
  exists toy, (OnMain (SetPrivateKey [])), (run_ops toy [OnMain (SetRSAPrivateKey (Some (esc "key")))] new_options).
  vm_compute. split; [discriminate|split; [discriminate|split; [discriminate|reflexivity]]].
Qed.
