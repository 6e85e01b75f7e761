(** The numbers among the arguments (for C101). *)
From Verif Require Import Bytes Outcome Stream MailParser Util CStdlib Crypto Tool BytesFacts SpecText SpecTags SpecMail SpecSig SpecParse SpecReason SpecTool SpecVerdict SigFacts SigProps ToolArgs ReasonFacts.
Local Open Scope string_scope. Local Open Scope list_scope.

Lemma scan_plain v : skip_isspace v = v ->
  match strto_scan v with
  | Some (neg, m, rest) => exists t, v = t ++ rest /\ signed_number t neg m /\ first_ok (fun c => ~ between 48 57 c) rest
  | None => forall neg m, ~ starts_number v neg m
  end.
Proof.
  intros T. unfold strto_scan. rewrite T. clear T.
  assert (D0 : forall s, match s with
     | c :: _ => if is_digit c then let '(m, rest) := digits_val 0 s in
         exists ds, s = ds ++ rest /\ digits ds /\ m = dec_value ds /\ first_ok (fun c => ~ between 48 57 c) rest else ~ between 48 57 c
     | [] => True end).
  { intros [|c s]; auto. destruct (is_digit c) eqn:D.
    - destruct (digits_val 0 (c :: s)) as [m rest] eqn:E. destruct (digits_val_inv _ _ _ _ E) as (ds & E1 & F & R & ->).
      exists ds. split; auto. split; [|split; auto]. split; auto. intros ->. cbn in E1. subst rest. cbn in R. apply is_digit_spec in D. auto.
    - intros K. apply is_digit_spec in K. congruence. }
  assert (NS : forall t neg m, signed_number t neg m -> exists c t', t = c :: t' /\
     (c = chr 45 -> neg = true /\ digits t') /\ (c = chr 43 -> neg = false /\ digits t') /\ (c <> chr 45 -> c <> chr 43 -> between 48 57 c)).
  { intros t neg m [d [N F]|d D|d D].
    - destruct d as [|c d]; [congruence|]. exists c, d. inversion F; subst. destruct (digit_plain c H1) as (_ & X2 & X3).
      apply ceqb_neq in X2, X3. split; auto. split; [congruence|]. split; [congruence|]. auto.
    - exists (chr 43), d. split; auto. split; [discriminate|]. split; auto. congruence.
    - exists (chr 45), d. split; auto. split; auto. split; [discriminate|]. congruence. }
  assert (DG : forall ds c s r, digits ds -> c :: s = ds ++ r -> between 48 57 c).
  { intros ds c s r [N F] E. destruct ds as [|x ds]; [congruence|]. injection E as -> _. inversion F; auto. }
  destruct v as [|c v].
  - cbn. intros neg m (t & r & E & SN & _). destruct (NS _ _ _ SN) as (c & t' & -> & _). discriminate.
  - cbn [read_sign]. destruct (c =?c chr 45) eqn:C1; [|destruct (c =?c chr 43) eqn:C2].
    + apply ceqb_eq in C1. subst c. specialize (D0 v). destruct v as [|c v].
      * intros neg m (t & r & E & SN & _). destruct (NS _ _ _ SN) as (x & t' & -> & H1 & _). injection E as <- E.
        destruct (H1 eq_refl) as [_ [N _]]. destruct t'; [congruence|discriminate].
      * destruct (is_digit c).
        -- destruct (digits_val 0 (c :: v)) as [m rest]. destruct D0 as (ds & E & D & -> & R).
           exists (chr 45 :: ds). split; [cbn; rewrite E; reflexivity|]. split; auto. apply sn_minus; auto.
        -- intros neg m (t & r & E & SN & _). destruct (NS _ _ _ SN) as (x & t' & -> & H1 & _). injection E as <- E.
           destruct (H1 eq_refl) as [_ D]. apply D0. eapply DG; eauto.
    + apply ceqb_eq in C2. subst c. specialize (D0 v). destruct v as [|c v].
      * intros neg m (t & r & E & SN & _). destruct (NS _ _ _ SN) as (x & t' & -> & _ & H1 & _). injection E as <- E.
        destruct (H1 eq_refl) as [_ [N _]]. destruct t'; [congruence|discriminate].
      * destruct (is_digit c).
        -- destruct (digits_val 0 (c :: v)) as [m rest]. destruct D0 as (ds & E & D & -> & R).
           exists (chr 43 :: ds). split; [cbn; rewrite E; reflexivity|]. split; auto. apply sn_plus; auto.
        -- intros neg m (t & r & E & SN & _). destruct (NS _ _ _ SN) as (x & t' & -> & _ & H1 & _). injection E as <- E.
           destruct (H1 eq_refl) as [_ D]. apply D0. eapply DG; eauto.
    + apply ceqb_neq in C1, C2. specialize (D0 (c :: v)). cbn beta iota in D0. destruct (is_digit c).
      * destruct (digits_val 0 (c :: v)) as [m rest]. destruct D0 as (ds & E & D & -> & R).
        exists ds. split; [exact E|]. split; auto. apply sn_plain; auto.
      * intros neg m (t & r & E & SN & _). destruct (NS _ _ _ SN) as (x & t' & -> & _ & _ & H). injection E as <- E. auto.
Qed.


Lemma blank_isspace c : isspace c = true <-> blank_byte c.
Proof.
  unfold isspace, in_range, blank_byte, between. rewrite orb_true_iff, andb_true_iff, !N.leb_le, ceqb_eq. split.
  - intros [X| ->]; [right; exact X|left; reflexivity].
  - intros [X|X]; [right|left; exact X]. apply (f_equal chr) in X. unfold code, chr in X. rewrite ascii_N_embedding in X. rewrite X. reflexivity.
Qed.
Lemma skip_split s : exists w, s = w ++ skip_isspace s /\ Forall blank_byte w /\ skip_isspace (skip_isspace s) = skip_isspace s /\ first_ok (fun c => ~ blank_byte c) (skip_isspace s).
Proof.
  induction s as [|c s (w & E & F & I & N)]; [exists []; repeat split; constructor|]. cbn [skip_isspace]. destruct (isspace c) eqn:S0.
  - exists (c :: w). split; [cbn [app]; rewrite <- E; reflexivity|]. split; [constructor; [apply blank_isspace; exact S0|exact F]|]. split; assumption.
  - exists []. split; [reflexivity|]. split; [constructor|]. split; [cbn [skip_isspace]; rewrite S0; reflexivity|]. intros B. apply blank_isspace in B. congruence.
Qed.
Lemma number_start x neg m : starts_number x neg m -> exists c r, x = c :: r /\ ~ blank_byte c.
Proof.
  intros (t & r & -> & SN & _).
  assert (D : forall d, digits d -> exists c q, d = c :: q /\ ~ blank_byte c).
  { intros d [N F]. destruct F as [|c d B F]; [congruence|]. exists c, d. split; [reflexivity|]. unfold blank_byte, between in *. lia. }
  destruct SN as [d X|d X|d X].
  - destruct (D d X) as (c & q & -> & B). exists c, (q ++ r). auto.
  - exists (chr 43), (d ++ r). split; [reflexivity|]. unfold blank_byte, between. vm_compute. intuition discriminate.
  - exists (chr 45), (d ++ r). split; [reflexivity|]. unfold blank_byte, between. vm_compute. intuition discriminate.
Qed.
Lemma same_rest w w' x x' : Forall blank_byte w -> Forall blank_byte w' -> first_ok (fun c => ~ blank_byte c) x -> first_ok (fun c => ~ blank_byte c) x' -> w ++ x = w' ++ x' -> x = x'.
Proof.
  intros F. revert w'. induction F as [|c w B F IH]; intros w' F' N N' E.
  - destruct F' as [|c' w' B' F']; [exact E|]. cbn [app] in E. subst x. cbn in N. contradiction.
  - destruct F' as [|c' w' B' F'].
    + cbn [app] in E. subst x'. cbn in N'. contradiction.
    + cbn [app] in E. injection E as -> E. eapply IH; eauto.
Qed.
Lemma number_read_is v : let '(n, _, f) := strtoul v in number_read v n f.
Proof.
  unfold strtoul. pose proof (up_to_nul_c_str v) as UN. set (x := c_str v) in *. clearbody x. destruct (skip_split x) as (w & E & F & I & N).
  assert (SS : strto_scan x = strto_scan (skip_isspace x)) by (unfold strto_scan; rewrite I; reflexivity). rewrite SS.
  pose proof (scan_plain _ I) as SP. destruct (strto_scan (skip_isspace x)) as [[[neg m] rest]|].
  - destruct SP as (t & E1 & SN & R). assert (ST : starts_number (skip_isspace x) neg m) by (exists t, rest; auto). rewrite E in UN.
    unfold ULONG_MAX. destruct (N.ltb_spec 18446744073709551615 m) as [L|L].
    + eapply nr_large; eauto. lia.
    + assert (X : number_read v (ul_value neg m) false) by (eapply nr_number; eauto; lia). destruct neg; exact X.
  - apply (nr_none v x UN). intros w' y neg m E' F' S'. apply (SP neg m). replace (skip_isspace x) with y; [exact S'|].
    destruct (number_start _ _ _ S') as (c & q & -> & B). apply (same_rest w' w); auto. congruence.
Qed.
Lemma number_read_fun v n f n' f' : number_read v n f -> number_read v n' f' -> n = n' /\ f = f'.
Proof.
  assert (K : forall v w x neg m w' x' neg' m', up_to_nul v (w ++ x) -> Forall blank_byte w -> starts_number x neg m -> up_to_nul v (w' ++ x') -> Forall blank_byte w' -> starts_number x' neg' m' -> neg = neg' /\ m = m').
  { intros u w x neg m w' x' neg' m' U F S U' F' S'. pose proof (up_to_nul_fun _ _ _ U U') as E. destruct (number_start _ _ _ S) as (c & q & -> & B). destruct (number_start _ _ _ S') as (c' & q' & -> & B').
    assert (X : c :: q = c' :: q') by (apply (same_rest w w'); auto). rewrite X in S. eapply starts_fun; eauto. }
  intros A A'. destruct A as [v w x neg m U F S L|v w x neg m U F S L|v x U N]; inversion A' as [v' w' x' neg' m' U' F' S' L'|v' w' x' neg' m' U' F' S' L'|v' x' U' N']; subst; auto.
  - destruct (K _ _ _ _ _ _ _ _ _ U F S U' F' S') as [-> ->]. auto.
  - destruct (K _ _ _ _ _ _ _ _ _ U F S U' F' S') as [-> ->]. lia.
  - exfalso. pose proof (up_to_nul_fun _ _ _ U U'). subst x'. exact (N' _ _ _ _ eq_refl F S).
  - destruct (K _ _ _ _ _ _ _ _ _ U F S U' F' S') as [-> ->]. lia.
  - exfalso. pose proof (up_to_nul_fun _ _ _ U U'). subst x'. exact (N' _ _ _ _ eq_refl F S).
  - exfalso. pose proof (up_to_nul_fun _ _ _ U U'). subst x. exact (N _ _ _ _ eq_refl F' S').
  - exfalso. pose proof (up_to_nul_fun _ _ _ U U'). subst x. exact (N _ _ _ _ eq_refl F' S').
Qed.
Lemma take_numbers ss : Forall usual ss -> forall a, take_options (map event ss) new_args = inl a ->
  (exists v f, given (fun s v => s = Instance v) (str "0") ss v /\ number_read v (a_instance a) f) /\
  (a_errno a = true <-> exists v n, In (Instance v) ss /\ number_read v n true).
Proof.
  induction ss as [|s ss IH] using rev_ind; intros F a T.
  - cbn in T. injection T as <-. split.
    + exists (str "0"), false. split; [apply given_none; intros ? ? []|]. exact (number_read_is (str "0")).
    + split; [discriminate|]. intros (v & n & [] & _).
  - apply Forall_app in F as [F1 F2]. apply Forall_inv in F2 as [NH NI]. rewrite map_app in T. cbn [map] in T. rewrite take_app in T.
    destruct (take_options (map event ss) new_args) as [a0|x] eqn:T0; [|discriminate]. destruct (IH F1 a0 eq_refl) as [(v0 & f0 & G0 & R0) E0]. clear IH.
    assert (IO : forall v, In (Instance v) (ss ++ [s]) <-> In (Instance v) ss \/ s = Instance v).
    { intros v. rewrite in_app_iff. cbn. intuition congruence. }
    assert (OTHER : (forall v, s <> Instance v) -> a_instance a = a_instance a0 -> a_errno a = a_errno a0 ->
      (exists v f, given (fun s v => s = Instance v) (str "0") (ss ++ [s]) v /\ number_read v (a_instance a) f) /\
      (a_errno a = true <-> exists v n, In (Instance v) (ss ++ [s]) /\ number_read v n true)).
    { intros NS -> ->. split.
      - exists v0, f0. split; [|exact R0]. eapply given_snoc; eauto.
      - rewrite E0. split; intros (v & n & I & R); exists v, n; (split; [|exact R]); [apply IO; auto|]. apply IO in I as [I|I]; [exact I|]. destruct (NS _ I). }
    cbn [take_options] in T. destruct s as [| | | |v|v|v|v|v]; try congruence; cbn [event] in T; try (apply OTHER; [discriminate|injection T as <-; reflexivity|injection T as <-; reflexivity]).
    assert (T' : (let '(n, _, er) := strtoul v in mkArgs (a_validate a0) (a_selector a0) (a_domain a0) (a_keyfile a0) (a_keytype a0) (a_type a0) n (a_errno a0 || er)) = a) by (injection T as T; exact T). clear T.
    pose proof (number_read_is v) as NR. destruct (strtoul v) as [[n rest] er]. subst a. cbn [a_instance a_errno]. split.
    + exists v, er. split; [|exact NR]. eapply given_snoc; eauto.
    + rewrite orb_true_iff, E0. split.
      * intros [(v1 & n1 & I & R)| ->]; [exists v1, n1; split; [apply IO; auto|exact R]|]. exists v, n. split; [apply IO; auto|exact NR].
      * intros (v1 & n1 & I & R). apply IO in I as [I|I]; [left; eauto|]. injection I as <-. right. symmetry. apply (number_read_fun _ _ _ _ _ NR) in R as [_ ->]. reflexivity.
Qed.
Lemma take_all ss : Forall usual ss -> exists a, take_options (map event ss) new_args = inl a /\ all_settings ss a.
Proof.
  intros F. destruct (take_settings ss F) as (a & T & ST). exists a. split; [exact T|]. destruct (take_numbers ss F a T) as [A B]. constructor; assumption.
Qed.
Lemma settings_one ss a a' : all_settings ss a -> all_settings ss a' -> a = a'.
Proof.
  assert (G : forall (mk : bytes -> setting) d x y, (forall v w, mk v = mk w -> v = w) -> given (fun s v => s = mk v) d ss x -> given (fun s v => s = mk v) d ss y -> x = y).
  { intros mk d x y INJ A A'. destruct A as [l N|l1 s l2 x E N].
    - inversion A' as [l' N'|l1 s l2 y' E N' EQ]; subst; [reflexivity|]. exfalso. apply (N (mk y) y); [apply in_elt|reflexivity].
    - subst s. remember (l1 ++ mk x :: l2) as l eqn:EL. destruct A' as [l' N'|m1 s m2 y' E' N'].
      + exfalso. subst l'. apply (N' (mk x) x); [apply in_elt|reflexivity].
      + subst s. revert m1 EL N'. induction l1 as [|z l1 IH]; intros [|z' m1] EL N'; cbn [app] in EL; injection EL as E1 E2.
        * apply INJ in E1. auto.
        * exfalso. apply (N (mk y') y'); [rewrite <- E2; apply in_elt|reflexivity].
        * exfalso. apply (N' (mk x) x); [rewrite E2; apply in_elt|reflexivity].
        * eapply IH; eauto. }
  intros [S1 (v & f & G1 & R1) E1] [S2 (v2 & f2 & G2 & R2) E2]. destruct S1 as [V1 T1 L1 D1 K1 F1 _ _], S2 as [V2 T2 L2 D2 K2 F2 _ _], a as [x1 x2 x3 x4 x5 x6 x7 x8], a' as [y1 y2 y3 y4 y5 y6 y7 y8]. cbn [a_validate a_selector a_domain a_keyfile a_keytype a_type a_instance a_errno] in *.
  assert (INST : v = v2) by (eapply (G Instance); eauto; intros; congruence). subst v2. destruct (number_read_fun _ _ _ _ _ R1 R2) as [-> _].
  assert (B : forall x y : bool, (x = true <-> y = true) -> x = y) by (intros [] [] [P Q]; auto; symmetry; auto).
  f_equal; try (eapply G; [|eassumption|eassumption]; intros; congruence).
  - apply B. rewrite V1, V2. reflexivity.
  - destruct T1 as [[X ->]|[X ->]], T2 as [[Y ->]|[Y ->]]; tauto || reflexivity.
  - apply B. rewrite E1, E2. reflexivity.
Qed.
