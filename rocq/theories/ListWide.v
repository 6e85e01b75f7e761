(** What ValueList takes, exactly, for every text (for C06 and C07). *)
From Verif Require Import Bytes Outcome Stream Tokenizer BytesFacts StreamFacts TokenizerFacts SpecText QPFacts ListFacts AddressClean ListExact Examples.

(** ** The whitespace reader on a stray CRLF *)
Lemma WSPs_b u : Forall WSP u -> forallb is_wsp u = true.
Proof. induction 1 as [|c u W F IH]; cbn [forallb]; auto. rewrite (WSP_b c W). exact IH. Qed.
Lemma span_wsps u r : Forall WSP u -> no_wsp r -> span is_wsp (u ++ r) = (u, r).
Proof.
  induction 1 as [|c u W F IH]; cbn [app span].
  - intros N. destruct r as [|c r]; auto. cbn in N. cbn [span]. rewrite (not_WSP_b c N). reflexivity.
  - intros N. rewrite (WSP_b c W), (IH N). reflexivity.
Qed.
Lemma CR_no_wsp r : no_wsp (CR :: r).
Proof. intros [X|X]; discriminate. Qed.
Lemma l_fws_stray u r : Forall WSP u -> no_wsp r -> l_fws (u ++ CRLF ++ r) = Some ([], u ++ CRLF ++ r).
Proof.
  intros U N. unfold l_fws. rewrite (span_wsps u (CRLF ++ r) U (CR_no_wsp _)). change (CRLF ++ r) with (CR :: LF :: r). cbv iota beta. rewrite !ceqb_refl.
  pose proof (span_wsps [] r (Forall_nil _) N) as E. cbn [app] in E. rewrite E. reflexivity.
Qed.
(** What the reader finds: nothing, a stray CRLF, or folding whitespace. *)
Lemma l_fws_cases r : match l_fws r with
  | None => True
  | Some ([], r') => r' = r /\ (stops r \/ exists u r2, r = u ++ CRLF ++ r2 /\ Forall WSP u /\ no_wsp r2)
  | Some (w, r') => r = w ++ r' /\ no_wsp r' /\ (Forall WSP w /\ stops r' \/ exists u c b, w = u ++ CRLF ++ c :: b /\ Forall WSP u /\ WSP c /\ Forall WSP b)
  end.
Proof.
  unfold l_fws. destruct (span is_wsp r) as [a b] eqn:E. pose proof (span_app _ _ _ _ E) as A. pose proof (span_all _ _ _ _ E) as AL.
  pose proof (span_stop _ _ _ _ E) as ST. apply forallb_WSP in AL.
  assert (PLAIN : stops b -> match a with [] => b = r /\ (stops r \/ exists u r2, r = u ++ CRLF ++ r2 /\ Forall WSP u /\ no_wsp r2)
    | _ => r = a ++ b /\ no_wsp b /\ (Forall WSP a /\ stops b \/ exists u c x, a = u ++ CRLF ++ c :: x /\ Forall WSP u /\ WSP c /\ Forall WSP x) end).
  { intros SB. destruct a as [|c a]; [cbn in A; subst b; auto|]. split; auto. split; [|left; auto].
    destruct b as [|d b]; [exact Logic.I|]. cbn in *. intros W. apply is_wsp_WSP in W. destruct SB. congruence. }
  destruct b as [|c b].
  - apply PLAIN. exact Logic.I.
  - destruct (c =?c CR) eqn:C.
    2:{ apply PLAIN. split; [exact ST|]. intros ->. rewrite ceqb_refl in C. discriminate. }
    apply ceqb_eq in C. subst c. destruct b as [|d b]; [exact Logic.I|]. destruct (d =?c LF) eqn:D; [|exact Logic.I].
    apply ceqb_eq in D. subst d. destruct (span is_wsp b) as [w2 r4] eqn:E2. pose proof (span_app _ _ _ _ E2) as A2.
    pose proof (span_all _ _ _ _ E2) as AL2. pose proof (span_stop _ _ _ _ E2) as ST2. apply forallb_WSP in AL2.
    assert (N4 : no_wsp r4). { destruct r4 as [|x r4]; [exact Logic.I|]. cbn in *. intros W. apply is_wsp_WSP in W. congruence. }
    destruct w2 as [|x w2].
    + split; auto. right. exists a, b. cbn in A2. subst b. split; auto.
    + destruct (a ++ CRLF ++ x :: w2) as [|y t] eqn:EY; [destruct a; discriminate|]. rewrite <- EY.
      split; [rewrite A, A2; unfold CRLF; rewrite <- !app_assoc; reflexivity|]. split; auto. right.
      inversion AL2; subst. exists a, x, w2. auto.
Qed.

(** ** From the grammar to the result *)
Lemma wide_nonempty z v : wide_text z v -> v <> [].
Proof. intros []; discriminate. Qed.
Lemma wide_wsps z v u r : Forall WSP u -> wide_text z v -> v ++ z = u ++ r -> exists v2, v = u ++ v2 /\ wide_text z v2 /\ v2 ++ z = r.
Proof.
  intros U. revert v. induction U as [|c u W U IH]; intros v T E; [exists v; auto|].
  destruct T as [d B|N|d v B T|v T]; unfold CRLF in *; cbn [app] in E.
  - injection E as -> _. destruct B. contradiction.
  - injection E as <- _. destruct W; discriminate.
  - injection E as -> E. destruct (IH v T E) as (v2 & -> & T2 & E2). exists v2. auto.
  - injection E as <- _. destruct W; discriminate.
Qed.
Lemma wide_fold z v c r : WSP c -> wide_text z v -> v ++ z = CRLF ++ c :: r -> exists v2, v = CRLF ++ v2 /\ wide_text z v2 /\ v2 ++ z = c :: r.
Proof.
  intros W T E. destruct T as [d B|N|d v B T|v T]; unfold CRLF in *; cbn [app] in E.
  - injection E as -> _. destruct B as (_ & B & _). congruence.
  - injection E as E. subst z. cbn in N. contradiction.
  - injection E as -> _. destruct B as [(_ & B & _)|[B|B]]; solve [congruence|discriminate].
  - injection E as E. exists v. auto.
Qed.
Lemma wide_fws z v w r : wide_text z v -> l_fws (v ++ z) = Some (w, r) -> w <> [] -> exists v2, v = w ++ v2 /\ wide_text z v2 /\ v2 ++ z = r.
Proof.
  intros T E N. pose proof (l_fws_cases (v ++ z)) as K. rewrite E in K. destruct w as [|y w0]; [congruence|]. remember (y :: w0) as w eqn:EW. clear EW E N.
  destruct K as (EQ & _ & [[W _]|(u & c & b & -> & U & W & B)]).
  - apply wide_wsps; auto.
  - rewrite <- !app_assoc in EQ. destruct (wide_wsps _ _ _ _ U T EQ) as (v2 & -> & T2 & E2).
    destruct (wide_fold _ _ _ _ W T2 E2) as (v3 & -> & T3 & E3).
    destruct (wide_wsps z v3 (c :: b) r (Forall_cons _ W B) T3 E3) as (v4 & -> & T4 & E4).
    exists v4. split; auto. rewrite <- !app_assoc. reflexivity.
Qed.
(** A lone CR does not occur. *)
Lemma wide_some z v : wide_text z v -> stops z \/ (exists w r, ws w /\ w <> [] /\ z = w ++ r /\ stops r) -> l_fws (v ++ z) <> None.
Proof.
  intros T Z E. assert (SC : forall t, wide_text z t -> forall u r, Forall WSP u -> t ++ z = u ++ CR :: r -> exists r', r = LF :: r').
  { intros t Tt u r U Et. destruct (wide_wsps _ _ _ _ U Tt Et) as (v2 & -> & T2 & E2). destruct T2 as [d B|N|d v2 B T2|v2 T2]; unfold CRLF in *; cbn [app] in E2.
    - injection E2 as -> _. destruct B as (_ & B & _). congruence.
    - injection E2 as <-. eauto.
    - injection E2 as -> _. destruct B as [(_ & B & _)|[B|B]]; solve [congruence|discriminate].
    - injection E2 as <-. eauto. }
  unfold l_fws in E. destruct (span is_wsp (v ++ z)) as [a b] eqn:SP. pose proof (span_app _ _ _ _ SP) as A. pose proof (span_all _ _ _ _ SP) as AL.
  apply forallb_WSP in AL. destruct b as [|c b]; [discriminate|]. destruct (c =?c CR) eqn:C; [|discriminate]. apply ceqb_eq in C. subst c.
  destruct (SC v T a b AL A) as (r' & ->). rewrite ceqb_refl in E. destruct (span is_wsp r') as [[|x w2] r4]; discriminate.
Qed.
Lemma wide_tail z c v : wide_text z (c :: v) -> v = [] \/ wide_text z v.
Proof.
  intros T. inversion T; subst; auto.
  - right. apply wt_last. split; [intros [X|X]; discriminate|split; discriminate].
  - right. apply wt_byte; auto. left. split; [intros [X|X]; discriminate|split; discriminate].
Qed.
Lemma wide_colon z c v : wide_text z (c :: v) -> c <> COLON.
Proof. intros T ->. inversion T; subst; try (destruct H0 as (_ & _ & X); congruence). destruct H1 as [(_ & _ & X)|[X|X]]; solve [congruence|discriminate]. Qed.

Lemma value_wide f : forall s p v w t value vbuf,
  St s p (v ++ w ++ t) -> wide_text (w ++ t) v -> ws w -> match t with [] => True | c :: _ => c = COLON end -> length (v ++ w) < f ->
  exists s', vl_value f s value vbuf = Ok (value ++ vbuf ++ v, s') /\ St s' (rev (v ++ w) ++ p) t.
Proof.
  induction f as [|f IH]; intros s p v w t value vbuf H T W TT L; [lia|]. cbn [vl_value].
  pose proof (read_fws_St _ _ _ H) as R.
  assert (Z : stops (w ++ t) \/ exists w' r, ws w' /\ w' <> [] /\ w ++ t = w' ++ r /\ stops r).
  { destruct w as [|x w]; [left; apply ws_colon_stops; auto|]. right. exists (x :: w), t. split; auto. split; [discriminate|]. split; auto.
    apply ws_colon_stops; auto. }
  pose proof (wide_some _ _ T Z) as NN. destruct (l_fws (v ++ w ++ t)) as [[x r]|] eqn:E; [|congruence]. clear NN Z.
  destruct R as (s' & R & H'). rewrite R. cbn [obind]. destruct x as [|y x].
  - pose proof (l_fws_cases (v ++ w ++ t)) as K. rewrite E in K. destruct K as [-> _]. cbn [rev app] in H'.
    destruct v as [|c v]; [apply wide_nonempty in T; congruence|]. cbn [app] in H'. peek_at H'.
    assert (CO := wide_colon _ _ _ T). apply ceqb_neq in CO. rewrite CO. get_at H'. cbn [as_char]. cbn [length app] in L.
    destruct (wide_tail _ _ _ T) as [->|T2].
    + destruct (vl_value_tail f s0 _ w t (value ++ vbuf ++ [c]) [] H0 W TT ltac:(cbn [app] in L; lia)) as (s2 & E2 & H2).
      exists s2. split; auto. cbn [app rev] in *. rewrite <- app_assoc. exact H2.
    + destruct (IH s0 _ v w t (value ++ vbuf ++ [c]) [] H0 T2 W TT ltac:(lia)) as (s2 & E2 & H2).
      exists s2. split.
      * rewrite E2. f_equal. f_equal. rewrite <- !app_assoc. reflexivity.
      * cbn [rev app] in *. rewrite <- !app_assoc in *. exact H2.
  - destruct (wide_fws _ _ _ _ T E ltac:(discriminate)) as (v2 & -> & T2 & <-).
    destruct (IH s' _ v2 w t value (vbuf ++ y :: x) H' T2 W TT) as (s2 & E2 & H2).
    { repeat rewrite app_length in *. cbn [length] in L. lia. }
    exists s2. split.
    + rewrite E2. f_equal. f_equal. rewrite <- !app_assoc. reflexivity.
    + rewrite <- app_assoc, rev_app_distr, <- app_assoc. exact H2.
Qed.

Lemma fold_chunk w r : ws w -> In CR w -> no_wsp r ->
  exists w1 w2, w = w1 ++ w2 /\ w1 <> [] /\ l_fws (w ++ r) = Some (w1, w2 ++ r) /\ (w2 = [] \/ ws w2 /\ In CR w2).
Proof.
  intros W I N.
  assert (SP : forall w, ws w -> exists u y, w = u ++ y /\ Forall WSP u /\ (y = [] \/ exists c z, y = CRLF ++ c :: z /\ WSP c /\ ws z)).
  { clear. induction 1 as [|c w W F IH|c w W F IH].
    - exists [], []. auto.
    - destruct IH as (u & y & -> & U & Y). exists (c :: u), y. auto.
    - exists [], (CRLF ++ c :: w). split; auto. split; auto. right. eauto. }
  destruct (SP w W) as (u & y & -> & U & [->|(c & z & -> & Wc & Wz)]).
  { exfalso. rewrite app_nil_r in I. rewrite Forall_forall in U. destruct (U _ I); discriminate. }
  destruct (SP z Wz) as (b & y & -> & B & Y). exists (u ++ CRLF ++ c :: b), y.
  split; [rewrite <- !app_assoc; reflexivity|]. split; [destruct u; discriminate|]. split.
  - unfold l_fws. rewrite <- !app_assoc. rewrite (span_wsps u (CRLF ++ (c :: b ++ y) ++ r) U (CR_no_wsp _)). change (CRLF ++ (c :: b ++ y) ++ r) with (CR :: LF :: (c :: b ++ y) ++ r). cbv iota beta. rewrite !ceqb_refl.
    assert (NY : no_wsp (y ++ r)). { destruct Y as [->|(d & z & -> & _)]; [exact N|apply CR_no_wsp]. }
    rewrite app_comm_cons, <- app_assoc.
    rewrite (span_wsps (c :: b) (y ++ r) (Forall_cons _ Wc B) NY). reflexivity.
  - destruct Y as [->|(d & z & -> & Wd & Wz')]; auto. right. split; [apply ws_fold; auto|left; reflexivity].
Qed.
Lemma skip_fold f : forall s p w r, St s p (w ++ CRLF ++ r) -> ws w -> In CR w -> no_wsp r -> length w < f ->
  exists s', skip_fws f s = Ok s' /\ St s' (rev w ++ p) (CRLF ++ r).
Proof.
  induction f as [|f IH]; intros s p w r H W I N L; [lia|]. cbn [skip_fws].
  destruct (fold_chunk w (CRLF ++ r) W I (CR_no_wsp _)) as (w1 & w2 & -> & N1 & E & K).
  pose proof (read_fws_St _ _ _ H) as R. rewrite E in R. destruct R as (s1 & R & H1). rewrite R. cbn [obind].
  destruct w1 as [|c w1]; [congruence|]. rewrite app_length in L. cbn [length] in L. destruct K as [->|[W2 I2]].
  - cbn [app] in H1. destruct f as [|f]; [lia|]. cbn [skip_fws]. pose proof (read_fws_St _ _ _ H1) as R2.
    pose proof (l_fws_stray [] r (Forall_nil _) N) as ES. cbn [app] in ES. unfold bytes in *. rewrite ES in R2.
    destruct R2 as (s2 & R2 & H2). rewrite R2. cbn [obind]. exists s2. split; auto. rewrite app_nil_r. exact H2.
  - destruct (IH s1 _ w2 r H1 W2 I2 N ltac:(lia)) as (s2 & E2 & H2). exists s2. split; auto.
    rewrite rev_app_distr, <- app_assoc. exact H2.
Qed.
(** The whitespace in front of an item. *)
Lemma skip_opens f s p w v z : St s p (w ++ v ++ z) -> ws w -> opens w v z -> length w < f ->
  exists s', skip_fws f s = Ok s' /\ St s' (rev w ++ p) (v ++ z).
Proof.
  intros H W O L. destruct O as [(c & r & -> & B)|(u & r & E & U & N & K)].
  - apply skip_fws_ws; auto. cbn [app]. apply item_byte_stops. exact B.
  - rewrite E in *. destruct K as [->|[-> I]].
    + destruct f as [|f]; [lia|]. cbn [skip_fws]. pose proof (read_fws_St _ _ _ H) as R. cbn [app] in R.
      pose proof (l_fws_stray u r U N) as ES. unfold bytes in *. rewrite ES in R.
      destruct R as (s1 & R & H1). rewrite R. cbn [obind]. exists s1. auto.
    + cbn [app] in *. apply skip_fold; auto.
Qed.

Lemma loop_wide vs t : list_wide vs t ->
  forall f s p acc, St s p t -> length t < f -> vl_loop f s acc = Ok (acc ++ vs).
Proof.
  induction 1 as [w W|w1 v w2 W1 O T W2|w1 v w2 vs t W1 O T W2 R IH]; intros f s p acc H L;
    (destruct f as [|f]; [lia|]); cbn [vl_loop]; rewrite (St_fuel _ _ _ H).
  - rewrite <- (app_nil_r w) in H. apply FWSs_ws in W.
    destruct (skip_fws_ws (S (length w)) s p w [] H W Logic.I ltac:(lia)) as (s1 & R1 & H1).
    rewrite R1. cbn [obind]. peek_at H1. rewrite app_nil_r. reflexivity.
  - apply FWSs_ws in W1, W2.
    destruct (skip_opens (S (length (w1 ++ v ++ w2))) s p w1 v w2 H W1 O) as (s1 & R1 & H1). { rewrite app_length. lia. }
    rewrite R1. cbn [obind].
    destruct v as [|c v]; [apply wide_nonempty in T; congruence|]. cbn [app] in H1. peek_at H1. rewrite (St_fuel _ _ _ H1).
    rewrite <- (app_nil_r w2), app_comm_cons in H1.
    destruct (value_wide (S (length (c :: v ++ w2))) s1 _ (c :: v) w2 [] [] [] H1) as (s2 & R2 & H2); auto.
    { rewrite app_nil_r. exact T. }
    rewrite R2. cbn [obind app]. get_at H2. reflexivity.
  - apply FWSs_ws in W1, W2.
    destruct (skip_opens (S (length (w1 ++ v ++ w2 ++ COLON :: t))) s p w1 v (w2 ++ COLON :: t) H W1 O) as (s1 & R1 & H1). { rewrite app_length. lia. }
    rewrite R1. cbn [obind].
    destruct v as [|c v]; [apply wide_nonempty in T; congruence|]. cbn [app] in H1. peek_at H1. rewrite (St_fuel _ _ _ H1).
    rewrite app_comm_cons in H1.
    destruct (value_wide (S (length (c :: v ++ w2 ++ COLON :: t))) s1 _ (c :: v) w2 (COLON :: t) [] [] H1) as (s2 & R2 & H2); auto.
    { cbn [length app]. rewrite !app_length. cbn [length]. lia. }
    rewrite R2. cbn [obind app]. get_at H2.
    erewrite IH; [|exact H0|].
    + rewrite <- app_assoc. reflexivity.
    + rewrite !app_length in L. cbn [length] in L. lia.
Qed.

(** ** And back *)
Definition before (x : bytes) : Prop := forall z v, wide_text z v -> wide_text z (x ++ v).
Lemma before_app x y : before x -> before y -> before (x ++ y).
Proof. intros X Y z v T. rewrite <- app_assoc. auto. Qed.
Lemma before_one c : item_byte c \/ WSP c -> before [c].
Proof. intros B z v T. apply wt_byte; auto. Qed.
Lemma before_crlf : before CRLF.
Proof. intros z v T. apply wt_crlf. auto. Qed.
Lemma before_wsps u : Forall WSP u -> before u.
Proof. induction 1 as [|c u W U IH]; [intros z v T; exact T|]. apply (before_app [c]); auto. apply before_one. auto. Qed.
Lemma before_ws w : ws w -> before w.
Proof.
  induction 1 as [|c w W F IH|c w W F IH]; [intros z v T; exact T| |].
  - apply (before_app [c]); auto. apply before_one. auto.
  - apply (before_app CRLF (c :: w)); [exact before_crlf|]. apply (before_app [c]); auto. apply before_one. auto.
Qed.

Lemma stray_run u : forall f s p r value vbuf, St s p (u ++ CRLF ++ r) -> Forall WSP u -> no_wsp r -> length (u ++ CRLF ++ r) < f ->
  exists f' s', vl_value f s value vbuf = vl_value f' s' (value ++ vbuf ++ u ++ CRLF) [] /\ St s' (rev (u ++ CRLF) ++ p) r /\ length r < f' /\ f' < f.
Proof.
  induction u as [|c u IH]; intros f s p r value vbuf H U N L; (destruct f as [|f]; [lia|]).
  - cbn [app] in *. destruct f as [|f]; [unfold CRLF in L; cbn [app length] in L; lia|].
    pose proof (read_fws_St _ _ _ H) as R. pose proof (l_fws_stray [] r (Forall_nil _) N) as ES. cbn [app] in ES. unfold bytes in *. rewrite ES in R.
    destruct R as (s1 & R & H1). cbn [rev app] in H1. cbn [vl_value]. rewrite R. cbn [obind]. unfold CRLF in H1, L. cbn [app length] in H1, L.
    peek_at H1. change (CR =?c COLON) with false. cbv iota. get_at H1. cbn [as_char].
    pose proof (read_fws_St _ _ _ H0) as R2. rewrite (l_fws_stops (LF :: r)) in R2 by (split; [reflexivity|discriminate]).
    destruct R2 as (s2 & R2 & H2). cbn [rev app] in H2. rewrite R2. cbn [obind]. peek_at H2. change (LF =?c COLON) with false. cbv iota.
    get_at H2. cbn [as_char app]. exists f, s3. split; [rewrite <- !app_assoc; reflexivity|]. split; [exact H3|]. lia.
  - inversion U as [|? ? W U']; subst. pose proof (read_fws_St _ _ _ H) as R. pose proof (l_fws_stray (c :: u) r U N) as ES. unfold bytes in *.
    rewrite ES in R. destruct R as (s1 & R & H1). cbn [rev app] in H1. cbn [vl_value]. rewrite R. cbn [obind]. peek_at H1.
    assert (NC : (c =?c COLON) = false) by (destruct W as [->| ->]; reflexivity). rewrite NC. get_at H1. cbn [as_char]. cbn [app length] in L.
    destruct (IH f s0 _ r (value ++ vbuf ++ [c]) [] H0 U' N ltac:(lia)) as (f' & s2 & EV & H2 & L1 & L2).
    exists f', s2. split; [rewrite EV; rewrite <- !app_assoc; reflexivity|]. split; [|lia]. cbn [app rev]. rewrite <- app_assoc. exact H2.
Qed.

Definition taken_so_far (value vbuf r : bytes) : Prop :=
  (value = [] /\ vbuf = [] /\ l_fws r = Some ([], r)) \/ (wide_text (vbuf ++ r) value /\ ws vbuf /\ before value).
Lemma value_back f : forall s p r value vbuf, St s p r -> length r < f -> taken_so_far value vbuf r ->
  vl_value f s value vbuf = perm \/
  exists v w s' p' r', vl_value f s value vbuf = Ok (v, s') /\ St s' p' r' /\ value ++ vbuf ++ r = v ++ w ++ r' /\
    match r' with [] => True | c :: _ => c = COLON end /\ (v = [] /\ w = [] \/ wide_text (w ++ r') v /\ ws w).
Proof.
  induction f as [f IHf] using lt_wf_ind. intros s p r value vbuf H L SF. destruct f as [|f]; [lia|].
  pose proof (read_fws_St _ _ _ H) as R. pose proof (l_fws_cases r) as K.
  assert (DONE : match r with [] => True | c :: _ => c = COLON end -> value = [] /\ vbuf = [] \/ wide_text (vbuf ++ r) value /\ ws vbuf).
  { intros _. destruct SF as [(A & B & _)|(A & B & _)]; auto. }
  assert (NEXT : forall x r', r = x ++ r' -> x <> [] -> (forall z, z = r' -> wide_text z x) -> before x -> taken_so_far (value ++ vbuf ++ x) [] r').
  { intros x r' E NX T B. right. cbn [app]. split; [|split; [constructor|]].
    - destruct SF as [(-> & -> & _)|(A & W & BV)]; [cbn [app]; auto|]. apply BV, before_ws; auto.
    - destruct SF as [(-> & -> & _)|(A & W & BV)]; [cbn [app]; auto|]. apply before_app; auto. apply before_app; auto. apply before_ws. auto. }
  destruct (l_fws r) as [[w r']|] eqn:E.
  2:{ left. cbn [vl_value]. rewrite R. reflexivity. }
  destruct w as [|c w].
  - destruct K as [-> [ST|(u & r2 & -> & U & N)]].
    + cbn [vl_value]. destruct R as (s' & R & H'). rewrite R. cbn [obind rev app] in *. destruct r as [|c r]; peek_at H'.
      * right. exists value, vbuf, s0, p, []. split; [reflexivity|]. split; [eassumption|]. split; [reflexivity|]. split; auto.
      * destruct (c =?c COLON) eqn:C.
        -- apply ceqb_eq in C. right. exists value, vbuf. do 3 eexists. split; [reflexivity|].
           split; [eassumption|]. split; [reflexivity|]. split; auto.
        -- apply ceqb_neq in C. get_at H'. cbn [as_char]. cbn [length] in L. destruct ST as [S1 S2].
           assert (IB : item_byte c). { split; [|split; auto]. intros W. apply is_wsp_WSP in W. congruence. }
           destruct (IHf f (Nat.lt_succ_diag_r f) s0 _ r (value ++ vbuf ++ [c]) [] H0 ltac:(lia)) as [P|(v & w & s2 & p2 & r2 & P & H2 & EQ & T & Q)]; [|left; auto|right].
           ++ apply (NEXT [c] r); auto; [discriminate| |apply before_one; auto]. intros z _. apply wt_last. exact IB.
           ++ exists v, w, s2, p2, r2. split; auto. split; auto. split; auto. rewrite <- EQ. rewrite <- !app_assoc. reflexivity.
    + destruct (stray_run u (S f) s p r2 value vbuf H U N L) as (f' & s' & EV & H' & L1 & L2). rewrite EV.
      destruct (IHf f' L2 s' _ r2 (value ++ vbuf ++ u ++ CRLF) [] H' L1) as [P|(v & w & s2 & p2 & r3 & P & H2 & EQ & T & Q)]; [|left; auto|right].
      * apply (NEXT (u ++ CRLF) r2); auto.
        -- rewrite <- app_assoc. reflexivity.
        -- destruct u; discriminate.
        -- intros z ->. apply before_wsps; auto. apply wt_end. exact N.
        -- apply before_app; [apply before_wsps; auto|exact before_crlf].
      * exists v, w, s2, p2, r3. split; auto. split; auto. split; auto. rewrite <- EQ. rewrite <- !app_assoc. reflexivity.
  - destruct K as (EA & _). cbn [vl_value]. destruct R as (s' & R & H'). rewrite R. cbn [obind].
    assert (LL : length r = length (c :: w) + length r') by (rewrite EA; apply app_length). cbn [length] in LL.
    pose proof (l_fws_FWS _ _ _ E ltac:(discriminate)) as FW.
    destruct SF as [(_ & _ & X)|(TV & WB & BV)]; [rewrite E in X; discriminate|].
    destruct (IHf f (Nat.lt_succ_diag_r f) _ _ _ value (vbuf ++ c :: w) H' ltac:(lia)) as [P|(v & w' & s2 & p2 & r2 & P & H2 & EQ & T & Q)]; [|left; auto|right].
    + right. split; [rewrite <- app_assoc, <- EA; exact TV|]. split; auto. apply ws_app; auto. apply FWS_ws. auto.
    + exists v, w', s2, p2, r2. split; auto. split; auto. split; auto.
      rewrite EA, <- EQ. rewrite <- !app_assoc. reflexivity.
Qed.

(** What is skipped in front of a stray CRLF is nothing or ends in a fold. *)
Lemma skip_back f : forall s p r, St s p r -> length r < f ->
  skip_fws f s = perm \/
  exists s' p' a r', skip_fws f s = Ok s' /\ St s' p' r' /\ r = a ++ r' /\ ws a /\ l_fws r' = Some ([], r') /\
    (stops r' \/ exists u r2, r' = u ++ CRLF ++ r2 /\ Forall WSP u /\ no_wsp r2 /\ (a = [] \/ u = [] /\ In CR a)).
Proof.
  induction f as [|f IH]; intros s p r H L; [lia|]. cbn [skip_fws].
  pose proof (read_fws_St _ _ _ H) as R. pose proof (l_fws_cases r) as K.
  destruct (l_fws r) as [[w r']|] eqn:E; [|left; rewrite R; reflexivity].
  destruct R as (s' & R & H'). rewrite R. cbn [obind]. destruct w as [|c w].
  - right. destruct K as [-> K]. exists s', p, [], r. split; auto. split; auto. split; auto. split; [constructor|]. split; auto.
    destruct K as [K|(u & r2 & K1 & K2 & K3)]; auto. right. exists u, r2. auto.
  - destruct K as (EA & NW & K). assert (LL : length r = length (c :: w) + length r') by (rewrite EA; apply app_length). cbn [length] in LL.
    destruct (IH _ _ _ H' ltac:(lia)) as [P|(s2 & p2 & a & r2 & P & H2 & EQ & W & F & Q)]; [left; auto|right].
    exists s2, p2, ((c :: w) ++ a), r2. split; auto. split; auto. split; [rewrite EA, EQ, app_assoc; reflexivity|].
    split; [apply ws_app; auto; apply FWS_ws, (l_fws_FWS _ _ _ E); discriminate|]. split; auto.
    destruct Q as [Q|(u & r3 & Q1 & Q2 & Q3 & Q4)]; auto. right. exists u, r3. split; auto. split; auto. split; auto. right.
    assert (UN : u = [] \/ In CR a). { destruct Q4 as [->|[-> Q4]]; auto. left. cbn [app] in EQ. subst r' r2. destruct u as [|x u]; auto. cbn in NW. inversion Q2. contradiction. }
    destruct K as [[KW KS]|(u0 & d & b & EW & _ & _ & _)].
    + (* WSP only, then something that is neither WSP nor CR *)
      exfalso. destruct Q4 as [->|[-> IA]].
      * cbn [app] in EQ. subst r' r2. unfold CRLF in KS; destruct u as [|x u]; cbn in KS; [tauto|]. inversion Q2 as [|? ? Q5 _]; subst. apply WSP_b in Q5. destruct KS. congruence.
      * destruct a as [|x a]; [destruct IA|]. cbn [app] in EQ. subst r'. cbn in KS. inversion W; subst; [|tauto].
        match goal with X : WSP x |- _ => apply WSP_b in X; destruct KS; congruence end.
    + split.
      * destruct UN as [U|IA]; auto. destruct Q4 as [->|[-> _]]; auto. destruct IA.
      * rewrite EW. apply in_or_app. left. apply in_or_app. right. left. reflexivity.
Qed.

Lemma loop_back f : forall s p r values, St s p r -> length r < f ->
  vl_loop f s values = perm \/ exists vs, vl_loop f s values = Ok (values ++ vs) /\ list_wide vs r.
Proof.
  induction f as [|f IH]; intros s p r values H L; [lia|]. cbn [vl_loop]. rewrite (St_fuel _ _ _ H).
  destruct (skip_back (S (length r)) s p r H ltac:(lia)) as [P|(s1 & p1 & a & r1 & P & H1 & EQ & W & F & O)]; rewrite P; [left; auto|].
  cbn [obind]. apply ws_FWSs in W. destruct r1 as [|c r1].
  - peek_at H1. right. exists []. rewrite app_nil_r. split; auto. subst r. rewrite app_nil_r. apply lw_none. auto.
  - peek_at H1. rewrite (St_fuel _ _ _ H1).
    destruct (value_back (S (length (c :: r1))) s1 p1 (c :: r1) [] [] H1 ltac:(lia) ltac:(left; auto))
      as [P2|(v & w & s2 & p2 & r2 & P2 & H2 & EQ2 & T & Q)]; rewrite P2; [left; auto|]. cbn [obind]. cbn [app] in EQ2.
    destruct v as [|x v]; [left; auto|]. destruct Q as [[Q _]|[FV WW]]; [discriminate|]. apply ws_FWSs in WW.
    assert (OP : opens a (x :: v) (w ++ r2)).
    { destruct O as [S|(u & r3 & E3 & U & N & K)].
      - left. cbn [app] in EQ2. injection EQ2 as -> EQ2. exists x, v. split; auto. destruct S as [S1 S2]. split; [|split; auto].
        + intros K. apply is_wsp_WSP in K. congruence.
        + exact (wide_colon _ _ _ FV).
      - right. exists u, r3. rewrite <- EQ2. auto. }
    destruct r2 as [|d r2].
    + rewrite app_nil_r in *. get_at H2. right. exists [x :: v]. split; auto. subst r. rewrite EQ2. apply lw_last; auto.
    + get_at H2. subst d.
      assert (LL : length r2 < length r).
      { rewrite EQ, EQ2, !app_length. cbn [length]. lia. }
      destruct (IH s0 _ r2 (values ++ [x :: v]) H0 ltac:(lia)) as [P3|(vs & P3 & FA)]; [left; exact P3|].
      right. exists ((x :: v) :: vs). split. { etransitivity; [exact P3|]. rewrite <- app_assoc. reflexivity. }
      rewrite EQ, EQ2. apply lw_more; auto.
Qed.

Lemma ValueList_wide t vs : ValueList t = Ok vs <-> list_wide vs t.
Proof.
  unfold ValueList. rewrite (St_fuel _ _ _ (St_open t)). split.
  - intros E. destruct (loop_back (S (length t)) _ _ _ [] (St_open t) ltac:(lia)) as [P|(vs' & P & T)]; rewrite P in E; [discriminate|].
    cbn [app] in E. apply Ok_inj in E. subst vs'. exact T.
  - intros R. apply (loop_wide vs t R _ _ _ [] (St_open t)). lia.
Qed.
Lemma wide_case : list_wide [esc "a \r\n"; esc "\r\nb"] (esc "a \r\n:\r\n \r\nb") /\ ValueList (esc "a \r\n:\r\n \r\nb") = Ok [esc "a \r\n"; esc "\r\nb"].
Proof. split; [apply ValueList_wide|]; vm_compute; reflexivity. Qed.

(** ** The ends of an item *)
Lemma wide_last z v : wide_text z v -> last_ok (fun c => ~ WSP c) v.
Proof.
  assert (L : forall a v, v <> [] -> last_ok (fun c => ~ WSP c) v -> last_ok (fun c => ~ WSP c) (a ++ v)).
  { intros a u N K. unfold last_ok in *. rewrite rev_app_distr. destruct (rev u) eqn:E; [|exact K].
    apply (f_equal (@rev _)) in E. rewrite rev_involutive in E. destruct (N E). }
  induction 1 as [c (N & _)|N|c v _ T IH|v T IH].
  - exact N.
  - cbn. intros [X|X]; discriminate.
  - apply (L [c] v); auto. exact (wide_nonempty _ _ T).
  - apply (L [CR; LF] v); auto. exact (wide_nonempty _ _ T).
Qed.
Lemma opens_first w v z : v <> [] -> wide_text z v -> opens w v z ->
  first_ok (fun c => ~ WSP c) v \/ exists u r, u <> [] /\ Forall WSP u /\ v = u ++ CRLF ++ r /\ no_wsp (r ++ z).
Proof.
  intros NE T [(c & r & -> & N & _)|(u & r & E & U & N & _)].
  - left. exact N.
  - destruct u as [|c u].
    + left. destruct v as [|c v]; [destruct (NE eq_refl)|]. cbn [app] in E. injection E as E1 _. subst c. cbn. intros [X|X]; discriminate.
    + right. destruct (wide_wsps z v (c :: u) (CRLF ++ r) U T E) as (v2 & -> & T2 & E2).
      assert (K : exists v3, v2 = CRLF ++ v3).
      { destruct T2 as [d (N1 & N2 & N3)|N1|d v D T2|v T2].
        - exfalso. injection E2 as E3 _. destruct (N2 E3).
        - exists []. reflexivity.
        - exfalso. injection E2 as E3 _. destruct D as [(_ & D & _)|[D|D]]; [destruct (D E3)| |]; rewrite E3 in D; discriminate.
        - exists v. reflexivity. }
      destruct K as (v3 & ->). exists (c :: u), v3. split; [discriminate|]. split; auto. split; auto.
      rewrite <- app_assoc in E2. apply app_inv_head in E2. rewrite E2. exact N.
Qed.
Lemma list_ends t vs : ValueList t = Ok vs -> Forall (fun v => last_ok (fun c => ~ WSP c) v /\
  (first_ok (fun c => ~ WSP c) v \/ exists u r, u <> [] /\ Forall WSP u /\ v = u ++ CRLF ++ r /\ no_wsp r)) vs.
Proof.
  intros E. apply ValueList_wide in E.
  assert (K : forall w v z, opens w v z -> wide_text z v -> last_ok (fun c => ~ WSP c) v /\
    (first_ok (fun c => ~ WSP c) v \/ exists u r, u <> [] /\ Forall WSP u /\ v = u ++ CRLF ++ r /\ no_wsp r)).
  { intros w v z O T. split; [exact (wide_last _ _ T)|]. destruct (opens_first w v z (wide_nonempty _ _ T) T O) as [F|(u & r & N & U & V & Z)]; auto.
    right. exists u, r. repeat (split; auto). destruct r as [|c r]; [exact Logic.I|exact Z]. }
  induction E as [w F|w1 v w2 F1 O T F2|w1 v w2 vs t F1 O T F2 E IH]; constructor; eauto.
Qed.
