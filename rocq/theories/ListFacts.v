(** ValueList: proofs. *)
From Verif Require Import Bytes Outcome Stream Tokenizer BytesFacts StreamFacts TokenizerFacts
  SpecText QPFacts.

(** ** The whitespace readers *)

Lemma good_St s : good s = true -> St s (s_prev s) (s_rest s).
Proof. repeat split; auto. Qed.

Lemma not_good_peek s : good s = false -> peek s = (None, set_fail s).
Proof. intros H. unfold peek. rewrite H. reflexivity. Qed.
Lemma set_fail_bad s : good (set_fail s) = false.
Proof. unfold good. cbn. apply andb_false_r. Qed.

Lemma read_fws_bad s : good s = false ->
  exists s', read_fws s = Ok ([], s') /\ s_prev s' = s_prev s /\ s_rest s' = s_rest s.
Proof.
  intros H. unfold read_fws, fuel_of. cbn [read_wsps].
  unfold read_wsp at 1. rewrite not_good_peek by auto. cbn [obind].
  unfold read_crlf. rewrite not_good_peek by apply set_fail_bad. cbn [obind].
  eexists. split; [reflexivity|]. split; reflexivity.
Qed.

Lemma read_fws_spec s :
  (exists w s', read_fws s = Ok (w, s') /\ s_prev s' = rev w ++ s_prev s /\
     s_rest s = w ++ s_rest s' /\ (w = [] \/ FWS w)) \/
  (read_fws s = perm /\ exists w r, s_rest s = w ++ r /\ Forall WSP w /\ lone_CR_first r).
Proof.
  destruct (good s) eqn:G.
  - pose proof (good_St s G) as H. pose proof (read_fws_St _ _ _ H) as R.
    destruct (l_fws (s_rest s)) as [[w r]|] eqn:E.
    + left. destruct R as (s' & R & (P1 & P2 & _)). exists w, s'. split; auto. split; auto.
      split. { rewrite P2. apply l_fws_app; auto. }
      destruct w; [left; auto|right]. eapply l_fws_FWS; eauto. discriminate.
    + right. split; auto. unfold l_fws in E. destruct (span is_wsp (s_rest s)) as [a b] eqn:SP.
      exists a, b. split; [eapply span_app; eauto|]. split.
      { apply forallb_WSP. eapply span_all; eauto. }
      destruct b as [|c b]; [discriminate|]. destruct (c =?c CR) eqn:C; [|discriminate].
      apply ceqb_eq in C. subst. destruct b as [|d b]; [constructor|].
      destruct (d =?c LF) eqn:D.
      * destruct (span is_wsp b) as [[|] ?]; discriminate.
      * apply ceqb_neq in D. constructor; auto.
  - left. destruct (read_fws_bad s G) as (s' & R & P1 & P2). exists [], s'. rewrite P2. auto.
Qed.

Lemma is_lwsp_LWSP c : is_lwsp c = true <-> LWSP c.
Proof. unfold is_lwsp, is_wsp, LWSP. rewrite !orb_true_iff, !ceqb_eq. tauto. Qed.

Lemma read_wsp_spec s w s' : read_wsp s = (w, s') ->
  s_prev s' = rev w ++ s_prev s /\ s_rest s = w ++ s_rest s' /\ (w = [] \/ exists c, w = [c] /\ WSP c).
Proof.
  unfold read_wsp, peek, get. destruct (good s) eqn:G; [|intros [= <- <-]; cbn; auto].
  destruct (s_rest s) as [|c r] eqn:R; [intros [= <- <-]; cbn; auto|].
  destruct (is_wsp c) eqn:W; [|intros [= <- <-]; cbn; auto].
  rewrite G, R. intros [= <- <-]. cbn. repeat split; auto. right. exists c. split; auto. apply is_wsp_WSP; auto.
Qed.
Lemma read_loose_spec s w s' : read_wsp_loose s = (w, s') ->
  s_prev s' = rev w ++ s_prev s /\ s_rest s = w ++ s_rest s' /\ (w = [] \/ exists c, w = [c] /\ LWSP c).
Proof.
  unfold read_wsp_loose, peek, get. destruct (good s) eqn:G; [|intros [= <- <-]; cbn; auto].
  destruct (s_rest s) as [|c r] eqn:R; [intros [= <- <-]; cbn; auto|].
  destruct (is_lwsp c) eqn:W; [|intros [= <- <-]; cbn; auto].
  rewrite G, R. intros [= <- <-]. cbn. repeat split; auto. right. exists c. split; auto. apply is_lwsp_LWSP; auto.
Qed.
Lemma read_crlf_spec s :
  (exists w s', read_crlf s = Ok (w, s') /\ s_prev s' = rev w ++ s_prev s /\
     s_rest s = w ++ s_rest s' /\ (w = [] \/ w = CRLF)) \/
  (read_crlf s = perm /\ lone_CR_first (s_rest s)).
Proof.
  unfold read_crlf, peek, get. destruct (good s) eqn:G; [|left; exists [], (set_fail s); cbn; auto].
  destruct (s_rest s) as [|c r] eqn:R; [left; eexists [], _; cbn; auto|].
  destruct (c =?c CR) eqn:C; [|left; exists [], s; cbn; auto]. apply ceqb_eq in C. subst.
  rewrite G, R. cbn. destruct r as [|d r].
  - right. split; auto. constructor.
  - destruct (d =?c LF) eqn:D.
    + apply ceqb_eq in D. subst. left. eexists [CR; LF], _. cbn. repeat split; auto.
    + right. split; auto. apply ceqb_neq in D. constructor; auto.
Qed.

(** ** Skipping any amount of folding whitespace *)

Lemma WSP_b c : WSP c -> is_wsp c = true. Proof. apply is_wsp_WSP. Qed.
Lemma not_WSP_b c : ~ WSP c -> is_wsp c = false.
Proof. intros H. destruct (is_wsp c) eqn:E; auto. apply is_wsp_WSP in E. tauto. Qed.

(** What may follow skipped whitespace: nothing, or a byte that is neither WSP nor CR. *)
Definition stops (r : bytes) : Prop := match r with [] => True | c :: _ => is_wsp c = false /\ c <> CR end.

Lemma l_fws_stops r : stops r -> l_fws r = Some ([], r).
Proof. destruct r as [|c r]; [reflexivity|]. intros [H1 H2]. apply l_fws_none; auto. Qed.

(** A text made of WSP and folds. *)
Inductive ws : bytes -> Prop :=
| ws_nil : ws []
| ws_wsp c w : WSP c -> ws w -> ws (c :: w)
| ws_fold c w : WSP c -> ws w -> ws (CR :: LF :: c :: w).

Lemma ws_app a b : ws a -> ws b -> ws (a ++ b).
Proof. intros H K. induction H; cbn [app]; auto; [apply ws_wsp|apply ws_fold]; auto. Qed.
Lemma ws_wsps w : Forall WSP w -> ws w.
Proof. induction 1; constructor; auto. Qed.
Lemma FWS_ws w : FWS w -> ws w.
Proof.
  intros [v H N|w1 w2 H1 H2 N]; [apply ws_wsps; auto|].
  apply ws_app; [apply ws_wsps; auto|]. destruct w2 as [|c w2]; [congruence|]. inversion H2; subst.
  apply ws_fold; auto. apply ws_wsps; auto.
Qed.
Lemma FWSs_ws w : FWSs w -> ws w.
Proof. induction 1; [constructor|]. apply ws_app; auto. apply FWS_ws; auto. Qed.
Lemma ws_FWSs w : ws w -> FWSs w.
Proof.
  induction 1.
  - constructor.
  - apply (FWSs_cons [c]); auto. constructor; [constructor; auto|discriminate].
  - apply (FWSs_cons ([] ++ CRLF ++ [c])); auto. apply FWS_fold; auto. discriminate.
Qed.

Lemma FWS_LWSP w : FWS w -> Forall LWSP w.
Proof.
  assert (WL : forall v, Forall WSP v -> Forall LWSP v).
  { intros v. apply Forall_impl. unfold WSP, LWSP. tauto. }
  intros [v H N|w1 w2 H1 H2 N]; [auto|].
  apply Forall_app. split; auto. apply Forall_app. split; auto.
  repeat constructor; unfold LWSP; tauto.
Qed.

(** Reading one FWS off a non-empty run leaves a run. *)
Lemma l_fws_ws w r : ws w -> w <> [] -> stops r ->
  exists w1 w2, w = w1 ++ w2 /\ w1 <> [] /\ ws w2 /\ l_fws (w ++ r) = Some (w1, w2 ++ r).
Proof.
  intros W N S. unfold l_fws.
  destruct (span is_wsp (w ++ r)) as [a b] eqn:E.
  assert (D : exists w2, ws w2 /\ w = a ++ w2 /\ b = w2 ++ r /\ match w2 with [] => True | c :: _ => c = CR end).
  { clear N. revert a b E. induction W; intros a b E.
    - cbn in E. destruct r as [|c r]; cbn in E.
      + injection E as <- <-. exists []. repeat split; auto; constructor.
      + destruct S as [S1 S2]. rewrite S1 in E. injection E as <- <-. exists []. repeat split; auto; constructor.
    - cbn [app span] in E. rewrite (WSP_b c H) in E. destruct (span is_wsp (w ++ r)) as [a1 b1] eqn:E1.
      injection E as <- <-. destruct (IHW _ _ eq_refl) as (w2 & H1 & H2 & H3 & H4).
      exists w2. subst. repeat split; auto.
    - cbn [app span] in E. replace (is_wsp CR) with false in E by reflexivity.
      injection E as <- <-. exists (CR :: LF :: c :: w). repeat split; auto. apply ws_fold; auto. }
  destruct D as (w2 & W2 & EW & EB & F). subst b.
  destruct w2 as [|x w2].
  - cbn [app]. exists a, []. rewrite app_nil_r in EW. subst a. split; [rewrite app_nil_r; auto|]. split; auto.
    split; [constructor|]. destruct r as [|c r]; [reflexivity|].
    destruct S as [S1 S2]. apply ceqb_neq in S2. rewrite S2. reflexivity.
  - subst x. inversion W2; subst.
    { destruct H1; discriminate. }
    cbn [app]. rewrite !ceqb_refl. rewrite app_comm_cons.
    destruct (span is_wsp ((c :: w0) ++ r)) as [a2 b2] eqn:E2.
    cbn [app span] in E2. rewrite (WSP_b c) in E2 by auto.
    destruct (span is_wsp (w0 ++ r)) as [a3 b3] eqn:E3. injection E2 as <- <-.
    assert (D : exists w2, ws w2 /\ w0 = a3 ++ w2 /\ b3 = w2 ++ r).
    { assert (W0 : ws w0) by auto. clear - W0 E3 S. revert a3 b3 E3. induction W0; intros a b E.
      - cbn in E. destruct r as [|c r]; cbn in E.
        + injection E as <- <-. exists []. repeat split; auto; constructor.
        + destruct S as [S1 S2]. rewrite S1 in E. injection E as <- <-. exists []. repeat split; auto; constructor.
      - cbn [app span] in E. rewrite (WSP_b c H) in E. destruct (span is_wsp (w ++ r)) as [a1 b1] eqn:E1.
        injection E as <- <-. destruct (IHW0 _ _ eq_refl) as (w2 & H1 & H3 & H4).
        exists w2. subst. repeat split; auto.
      - cbn [app span] in E. replace (is_wsp CR) with false in E by reflexivity.
        injection E as <- <-. exists (CR :: LF :: c :: w). repeat split; auto. apply ws_fold; auto. }
    destruct D as (w3 & W3 & EW3 & EB3). subst.
    exists (a ++ CRLF ++ c :: a3), w3. split. { rewrite <- !app_assoc. reflexivity. }
    split. { destruct a; discriminate. } split; auto.
Qed.

Lemma skip_fws_ws f : forall s p w r, St s p (w ++ r) -> ws w -> stops r -> length w < f ->
  exists s', skip_fws f s = Ok s' /\ St s' (rev w ++ p) r.
Proof.
  induction f as [|f IH]; intros s p w r H W S L; [lia|]. cbn [skip_fws].
  pose proof (read_fws_St _ _ _ H) as R.
  destruct w as [|c w].
  - cbn [app] in *. rewrite (l_fws_stops r S) in R. destruct R as (s' & R & H').
    rewrite R. cbn [obind]. eauto.
  - destruct (l_fws_ws (c :: w) r W ltac:(discriminate) S) as (w1 & w2 & E & N & W2 & LF).
    rewrite LF in R. destruct R as (s' & R & H'). rewrite R. cbn [obind].
    destruct w1 as [|x w1]; [congruence|].
    destruct (IH s' _ w2 r H' W2 S) as (s2 & R2 & H2).
    { assert (length (c :: w) = length (x :: w1) + length w2) by (rewrite E; apply app_length).
      cbn [length] in *. lia. }
    exists s2. split; auto. rewrite E, rev_app_distr, <- app_assoc. exact H2.
Qed.

(** ** Reading an item *)

Lemma ws_colon_stops t : match t with [] => True | c :: _ => c = COLON end -> stops t.
Proof. destruct t as [|c t]; cbn; auto. intros ->. split; [reflexivity|discriminate]. Qed.

(** The whitespace behind an item is dropped. *)
Lemma vl_value_tail f : forall s p w t value vbuf,
  St s p (w ++ t) -> ws w -> match t with [] => True | c :: _ => c = COLON end -> length w < f ->
  exists s', vl_value f s value vbuf = Ok (value, s') /\ St s' (rev w ++ p) t.
Proof.
  induction f as [|f IH]; intros s p w t value vbuf H W S L; [lia|]. cbn [vl_value].
  pose proof (read_fws_St _ _ _ H) as R.
  destruct w as [|c w].
  - cbn [app] in *. rewrite (l_fws_stops t (ws_colon_stops t S)) in R. destruct R as (s' & R & H').
    rewrite R. cbn [obind]. destruct t as [|c t]; cbn [rev app] in H'; peek_at H'; eauto.
    subst c. rewrite ceqb_refl. eauto.
  - destruct (l_fws_ws (c :: w) t W ltac:(discriminate) (ws_colon_stops t S)) as (w1 & w2 & E & N & W2 & LF).
    rewrite LF in R. destruct R as (s' & R & H'). rewrite R. cbn [obind].
    destruct w1 as [|x w1]; [congruence|].
    destruct (IH s' _ w2 t value (vbuf ++ x :: w1) H' W2 S) as (s2 & R2 & H2).
    { assert (length (c :: w) = length (x :: w1) + length w2) by (rewrite E; apply app_length).
      cbn [length] in *. lia. }
    exists s2. split; auto. rewrite E, rev_app_distr, <- app_assoc. exact H2.
Qed.

Lemma last_ok_tail P (c : ascii) v : v <> [] -> last_ok P (c :: v) -> last_ok P v.
Proof.
  unfold last_ok. cbn [rev]. intros N. destruct (rev v) as [|x l] eqn:E; auto.
  apply (f_equal (@rev _)) in E. rewrite rev_involutive in E. cbn in E. congruence.
Qed.

(** A span of WSP inside an item that ends in a non-WSP byte stops inside the item. *)
Lemma span_item v t a b : span is_wsp (v ++ t) = (a, b) -> last_ok (fun c => ~ WSP c) v -> v <> [] ->
  exists c v2, v = a ++ c :: v2 /\ b = c :: v2 ++ t /\ is_wsp c = false.
Proof.
  revert a b. induction v as [|c v IH]; intros a b E LO N; [congruence|].
  cbn [app span] in E. destruct (is_wsp c) eqn:W.
  - destruct (span is_wsp (v ++ t)) as [a1 b1] eqn:E1. injection E as <- <-.
    destruct v as [|d v].
    + unfold last_ok in LO. cbn in LO. apply is_wsp_WSP in W. tauto.
    + destruct (IH _ _ eq_refl) as (x & v2 & H1 & H2 & H3).
      * eapply last_ok_tail; eauto. discriminate.
      * discriminate.
      * exists x, v2. rewrite H1. auto.
  - injection E as <- <-. exists c, v. auto.
Qed.

Lemma vl_value_item f : forall s p v w t value vbuf,
  St s p (v ++ w ++ t) -> v <> [] -> ~ In COLON v -> ~ In CR v -> last_ok (fun c => ~ WSP c) v ->
  ws w -> match t with [] => True | c :: _ => c = COLON end -> length (v ++ w) < f ->
  exists s', vl_value f s value vbuf = Ok (value ++ vbuf ++ v, s') /\ St s' (rev (v ++ w) ++ p) t.
Proof.
  induction f as [|f IH]; intros s p v w t value vbuf H N NC NR LO W S L; [lia|]. cbn [vl_value].
  pose proof (read_fws_St _ _ _ H) as R. unfold l_fws in R.
  destruct (span is_wsp (v ++ w ++ t)) as [a b] eqn:E.
  destruct (span_item _ _ _ _ E LO N) as (c & v2 & EV & EB & WC).
  subst b. assert (CC : c <> CR). { intros ->. apply NR. rewrite EV. apply in_elt. }
  assert (CO : c <> COLON). { intros ->. apply NC. rewrite EV. apply in_elt. }
  pose proof CC as CC'. apply ceqb_neq in CC. rewrite CC in R. destruct R as (s' & R & H').
  rewrite R. cbn [obind].
  destruct a as [|x a].
  - cbn [app rev] in *. subst v. peek_at H'. apply ceqb_neq in CO. rewrite CO. get_at H'. cbn [as_char].
    cbn [length] in L.
    destruct v2 as [|d v2].
    + destruct (vl_value_tail f s0 _ w t (value ++ vbuf ++ [c]) [] H0 W S ltac:(cbn in L; lia)) as (s2 & R2 & H2).
      exists s2. split; auto. cbn [app rev] in *. rewrite <- app_assoc. exact H2.
    + destruct (IH s0 _ (d :: v2) w t (value ++ vbuf ++ [c]) [] H0) as (s2 & R2 & H2); auto.
      * discriminate.
      * intros I. apply NC. right. auto.
      * intros I. apply NR. right. auto.
      * eapply last_ok_tail; eauto. discriminate.
      * cbn [length app] in *. lia.
      * exists s2. split; auto.
        -- rewrite R2. f_equal. f_equal. rewrite <- !app_assoc. reflexivity.
        -- cbn [rev app] in *. rewrite <- !app_assoc in *. exact H2.
  - assert (LO2 : last_ok (fun c => ~ WSP c) (c :: v2)).
    { clear - LO EV. subst v. unfold last_ok in *. rewrite rev_app_distr in LO. cbn [rev] in *.
      destruct (rev v2) as [|y l]; cbn in *; auto. }
    destruct (IH s' _ (c :: v2) w t value (vbuf ++ x :: a) H') as (s2 & R2 & H2); auto.
    + discriminate.
    + intros I. apply NC. rewrite EV. apply in_or_app. auto.
    + intros I. apply NR. rewrite EV. apply in_or_app. auto.
    + rewrite EV, <- app_assoc, app_length in L. cbn [length] in L. lia.
    + exists s2. split; auto.
      * rewrite R2, EV. f_equal. f_equal. rewrite <- !app_assoc. reflexivity.
      * rewrite EV. rewrite <- app_assoc, rev_app_distr, <- app_assoc. exact H2.
Qed.

Lemma item_stops v r : list_item v -> stops (v ++ r).
Proof.
  intros (N & C & R & F & _). destruct v as [|c v]; [congruence|]. cbn in *. split.
  - apply not_WSP_b; auto.
  - intros ->. tauto.
Qed.

Lemma vl_loop_rendered vs t : rendered_list vs t ->
  forall f s p acc, St s p t -> length t < f -> vl_loop f s acc = Ok (acc ++ vs).
Proof.
  induction 1 as [w W|w1 v w2 W1 I W2|w1 v w2 vs t W1 I W2 N R IH]; intros f s p acc H L;
    (destruct f as [|f]; [lia|]); cbn [vl_loop]; rewrite (St_fuel _ _ _ H).
  - rewrite <- (app_nil_r w) in H. apply FWSs_ws in W.
    destruct (skip_fws_ws (S (length w)) s p w [] H W Logic.I ltac:(lia)) as (s1 & R1 & H1).
    rewrite R1. cbn [obind]. peek_at H1. rewrite app_nil_r. reflexivity.
  - apply FWSs_ws in W1, W2.
    destruct (skip_fws_ws (S (length (w1 ++ v ++ w2))) s p w1 (v ++ w2) H W1) as (s1 & R1 & H1).
    { apply item_stops; auto. } { rewrite app_length. lia. }
    rewrite R1. cbn [obind]. destruct I as (N & NC & NR & F & LO).
    destruct v as [|c v]; [congruence|]. cbn [app] in H1. peek_at H1. rewrite (St_fuel _ _ _ H1).
    rewrite <- (app_nil_r w2), app_comm_cons in H1.
    destruct (vl_value_item (S (length (c :: v ++ w2))) s1 _ (c :: v) w2 [] [] [] H1) as (s2 & R2 & H2); auto.
    rewrite R2. cbn [obind app]. get_at H2. reflexivity.
  - apply FWSs_ws in W1, W2.
    destruct (skip_fws_ws (S (length (w1 ++ v ++ w2 ++ COLON :: t))) s p w1 (v ++ w2 ++ COLON :: t) H W1) as (s1 & R1 & H1).
    { apply item_stops; auto. } { rewrite app_length. lia. }
    rewrite R1. cbn [obind]. destruct I as (NV & NC & NR & F & LO).
    destruct v as [|c v]; [congruence|]. cbn [app] in H1. peek_at H1. rewrite (St_fuel _ _ _ H1).
    rewrite app_comm_cons in H1.
    destruct (vl_value_item (S (length (c :: v ++ w2 ++ COLON :: t))) s1 _ (c :: v) w2 (COLON :: t) [] [] H1) as (s2 & R2 & H2); auto.
    { cbn [length app]. rewrite !app_length. cbn [length]. lia. }
    rewrite R2. cbn [obind app]. get_at H2.
    erewrite IH; [|exact H0|].
    + rewrite <- app_assoc. reflexivity.
    + rewrite !app_length in L. cbn [length] in L. lia.
Qed.

Lemma ValueList_rendered vs t : rendered_list vs t -> ValueList t = Ok vs.
Proof.
  intros R. unfold ValueList. rewrite (St_fuel _ _ _ (St_open t)).
  apply (vl_loop_rendered vs t R _ _ _ [] (St_open t)). lia.
Qed.

(** ** Whatever the input *)

Lemma skip_fws_any f : forall s p r, St s p r -> length r < f ->
  skip_fws f s = perm \/
  exists s' p' a r', skip_fws f s = Ok s' /\ St s' p' r' /\ r = a ++ r' /\ l_fws r' = Some ([], r').
Proof.
  induction f as [|f IH]; intros s p r H L; [lia|]. cbn [skip_fws].
  pose proof (read_fws_St _ _ _ H) as R.
  destruct (l_fws r) as [[w r']|] eqn:E.
  - destruct R as (s' & R & H'). rewrite R. cbn [obind].
    pose proof (l_fws_app _ _ _ E) as EA.
    destruct w as [|c w].
    + right. cbn in EA. subst r'. exists s', p, [], r. auto.
    + assert (length r = length (c :: w) + length r') by (rewrite EA; apply app_length). cbn [length] in *.
      destruct (IH _ _ _ H' ltac:(lia)) as [P|(s2 & p2 & a & r2 & P & H2 & EQ & F)]; [left; auto|right].
      exists s2, p2, ((c :: w) ++ a), r2. subst. rewrite <- app_assoc. auto.
  - left. rewrite R. reflexivity.
Qed.

Definition no_WSP_start (r : bytes) : Prop := first_ok (fun c => ~ WSP c) r.

Lemma folds_only_app a b : folds_only (a ++ b) -> folds_only b.
Proof. intros F x y E. apply (F (a ++ x) y). rewrite E, app_assoc. reflexivity. Qed.

Lemma fws_none_start r : folds_only r -> l_fws r = Some ([], r) -> no_WSP_start r.
Proof.
  intros F E. unfold l_fws in E. destruct (span is_wsp r) as [a b] eqn:SP.
  pose proof (span_app _ _ _ _ SP) as A. pose proof (span_all _ _ _ _ SP) as AL. pose proof (span_stop _ _ _ _ SP) as ST.
  assert (G : a = [] -> no_WSP_start r).
  { intros ->. cbn in A. subst b. destruct r as [|c r]; [exact I|]. cbn. intros W. apply is_wsp_WSP in W. congruence. }
  destruct b as [|c b]; [injection E; auto|]. destruct (c =?c CR) eqn:C; [|injection E; auto].
  apply ceqb_eq in C. subst c. destruct b as [|d b]; [discriminate|]. destruct (d =?c LF) eqn:D; [|discriminate].
  apply ceqb_eq in D. subst d. specialize (F a b). rewrite A in F. specialize (F eq_refl).
  destruct b as [|x b]; [destruct F|]. cbn [span] in E. rewrite (WSP_b x F) in E.
  destruct (span is_wsp b). destruct a; discriminate.
Qed.

Definition clean_so_far (v vbuf r : bytes) : Prop :=
  trimmed v /\ (v = [] -> vbuf = [] /\ l_fws r = Some ([], r)).

Lemma last_ok_app P (a b : bytes) : b <> [] -> last_ok P b -> last_ok P (a ++ b).
Proof.
  unfold last_ok. intros N H. rewrite rev_app_distr. destruct (rev b) as [|x l] eqn:E; auto.
  apply (f_equal (@rev _)) in E. rewrite rev_involutive in E. cbn in E. congruence.
Qed.
Lemma first_ok_app P (a b : bytes) : a <> [] -> first_ok P a -> first_ok P (a ++ b).
Proof. destruct a; [congruence|]. auto. Qed.

Lemma vl_value_any f : forall s p r value vbuf, St s p r -> length r < f ->
  ~ In COLON value -> ~ In COLON vbuf ->
  vl_value f s value vbuf = perm \/
  exists v s' p' a r', vl_value f s value vbuf = Ok (v, s') /\ St s' p' r' /\ r = a ++ r' /\ ~ In COLON v /\
    (folds_only r -> clean_so_far value vbuf r -> trimmed v).
Proof.
  induction f as [|f IH]; intros s p r value vbuf H L NV NB; [lia|]. cbn [vl_value].
  pose proof (read_fws_St _ _ _ H) as R.
  destruct (l_fws r) as [[w r']|] eqn:E.
  2:{ left. rewrite R. reflexivity. }
  destruct R as (s' & R & H'). rewrite R. cbn [obind].
  pose proof (l_fws_app _ _ _ E) as EA.
  destruct w as [|c w].
  - cbn [app rev] in *. subst r'. destruct r as [|c r]; peek_at H'.
    + right. exists value, s0, p, [], []. split; [reflexivity|]. split; [eassumption|]. split; [reflexivity|]. split; auto.
      intros _ [T _]. exact T.
    + destruct (c =?c COLON) eqn:C.
      * right. exists value. do 2 eexists. exists [], (c :: r). split; [reflexivity|].
        split; [eassumption|]. split; auto. split; auto. intros _ [T _]. exact T.
      * apply ceqb_neq in C. get_at H'. cbn [as_char]. cbn [length] in L.
        assert (NV2 : ~ In COLON (value ++ vbuf ++ [c])).
        { rewrite !in_app_iff. cbn. intuition. }
        destruct (IH s0 _ r (value ++ vbuf ++ [c]) [] H0 ltac:(lia) NV2 ltac:(auto))
          as [P|(v & s2 & p2 & a & r2 & P & H2 & EQ & NC & T)]; [left; auto|right].
        exists v, s2, p2, (c :: a), r2. split; auto. split; auto. subst r. split; auto. split; auto.
        intros FO [CT CE]. apply T.
        { apply (folds_only_app [c]). exact FO. }
        assert (CW : ~ WSP c).
        { intros W. pose proof (fws_none_start _ FO E) as S. cbn in S. auto. }
        split.
        -- destruct value as [|x value].
           ++ destruct (CE eq_refl) as [-> _]. cbn. split; auto.
           ++ destruct CT as [CF CL]. split; [exact CF|]. rewrite app_assoc. apply last_ok_app; [discriminate|]. cbn. auto.
        -- destruct value; [destruct vbuf; discriminate|discriminate].
  - assert (length r = length (c :: w) + length r') by (rewrite EA; apply app_length). cbn [length] in *.
    assert (NB2 : ~ In COLON (vbuf ++ c :: w)).
    { rewrite in_app_iff. intros [X|X]; [auto|].
      pose proof (l_fws_FWS _ _ _ E ltac:(discriminate)) as FW. clear - FW X.
      pose proof (FWS_LWSP _ FW) as H.
      rewrite Forall_forall in H. apply H in X. destruct X as [X|[X|[X|X]]]; discriminate. }
    destruct (IH _ _ _ value (vbuf ++ c :: w) H' ltac:(lia) NV NB2) as [P|(v & s2 & p2 & a & r2 & P & H2 & EQ & NC & T)]; [left; auto|right].
    exists v, s2, p2, ((c :: w) ++ a), r2. split; auto. split; auto. split. { rewrite EA, EQ, <- app_assoc. reflexivity. }
    split; auto. intros FO [CT CE]. apply T.
    { apply (folds_only_app (c :: w)). rewrite <- EA. exact FO. }
    split; auto. intros ->. exfalso. destruct (CE eq_refl) as [_ NS]. rewrite NS in E. discriminate.
Qed.

(** What ValueList guarantees about each item. *)
Lemma vl_loop_any f : forall s p r values, St s p r -> length r < f ->
  vl_loop f s values = perm \/
  exists vs, vl_loop f s values = Ok (values ++ vs) /\
    Forall (fun v => v <> [] /\ ~ In COLON v /\ (folds_only r -> trimmed v)) vs.
Proof.
  induction f as [|f IH]; intros s p r values H L; [lia|]. cbn [vl_loop]. rewrite (St_fuel _ _ _ H).
  destruct (skip_fws_any (S (length r)) s p r H ltac:(lia)) as [P|(s1 & p1 & a & r1 & P & H1 & EQ & F)]; rewrite P; [left; auto|].
  cbn [obind]. destruct r1 as [|c r1].
  - peek_at H1. right. exists []. rewrite app_nil_r. auto.
  - peek_at H1. rewrite (St_fuel _ _ _ H1).
    destruct (vl_value_any (S (length (c :: r1))) s1 p1 (c :: r1) [] [] H1 ltac:(lia) ltac:(auto) ltac:(auto))
      as [P2|(v & s2 & p2 & a2 & r2 & P2 & H2 & EQ2 & NC & T)]; rewrite P2; [left; auto|]. cbn [obind].
    destruct v as [|x v]; [left; auto|].
    assert (Q : x :: v <> [] /\ ~ In COLON (x :: v) /\ (folds_only r -> trimmed (x :: v))).
    { split; [discriminate|]. split; auto. intros FO. apply T.
      - rewrite EQ in FO. eapply folds_only_app; eauto.
      - split; [split; exact I|]. auto. }
    destruct r2 as [|d r2].
    + get_at H2. right. exists [x :: v]. split; auto.
    + get_at H2.
      assert (LL : length r2 < length r).
      { rewrite EQ, EQ2, !app_length. cbn [length]. lia. }
      destruct (IH s0 _ r2 (values ++ [x :: v]) H0 ltac:(lia)) as [P3|(vs & P3 & FA)]; [left; exact P3|].
      right. exists ((x :: v) :: vs). split. { etransitivity; [exact P3|]. rewrite <- app_assoc. reflexivity. } constructor; auto.
      eapply Forall_impl; [|exact FA]. intros y (Y1 & Y2 & Y3). split; auto. split; auto. intros FO. apply Y3.
      rewrite EQ, EQ2 in FO. apply folds_only_app in FO. apply folds_only_app in FO.
      apply (folds_only_app [d]). exact FO.
Qed.

Lemma ValueList_any t :
  ValueList t = perm \/
  exists vs, ValueList t = Ok vs /\ Forall (fun v => v <> [] /\ ~ In COLON v /\ (folds_only t -> trimmed v)) vs.
Proof.
  unfold ValueList. rewrite (St_fuel _ _ _ (St_open t)).
  apply (vl_loop_any _ _ _ _ [] (St_open t)). lia.
Qed.

(** ** Witnesses *)

Lemma rendered_example : rendered_list [str "from"; str "to"] ([SP] ++ str "from" ++ [SP] ++ COLON :: str "to" ++ CRLF ++ [HT]).
Proof.
  assert (W : FWSs [SP]).
  { apply (FWSs_cons [SP] []); [apply FWS_plain; [repeat constructor|discriminate]|constructor]. }
  assert (NW : forall c, is_wsp c = false -> ~ WSP c).
  { intros c H W2. apply is_wsp_WSP in W2. congruence. }
  apply (rl_more [SP] (str "from") [SP] [str "to"] (str "to" ++ CRLF ++ [HT])); auto.
  - split; [discriminate|]. split; [cbn; intuition discriminate|]. split; [cbn; intuition discriminate|].
    split; cbn; apply NW; reflexivity.
  - discriminate.
  - apply (rl_last [] (str "to") (CRLF ++ [HT])); [constructor| |].
    + split; [discriminate|]. split; [cbn; intuition discriminate|]. split; [cbn; intuition discriminate|].
      split; cbn; apply NW; reflexivity.
    + apply (FWSs_cons (CRLF ++ [HT]) []); [|constructor].
      apply (FWS_fold [] [HT]); [constructor|constructor; [right; reflexivity|constructor]|discriminate].
Qed.

Lemma stray_crlf : exists t vs, ValueList t = Ok vs /\ ~ Forall trimmed vs.
Proof.
  exists (SP :: CRLF ++ str "X"), [SP :: CRLF ++ str "X"]. split; [vm_compute; reflexivity|].
  intros F. apply Forall_inv in F. destruct F as [F _]. apply F. left. reflexivity.
Qed.
