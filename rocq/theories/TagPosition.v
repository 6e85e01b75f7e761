(** The position of a tag in a tag list is unique. *)
From Verif Require Import Bytes Outcome Stream Tokenizer TagList BytesFacts SpecText SpecTags ListFacts TagListFacts HeaderProps SigFacts.

Lemma name_head_stop w2 x : Forall LWSP w2 -> match w2 ++ EQUALS :: x with [] => True | c :: _ => is_namechar c = false end.
Proof. intros W2. destruct w2 as [|c w2]; [reflexivity|]. cbn. apply lwsp_not_name. inversion W2; subst. apply is_lwsp_LWSP. auto. Qed.
Lemma name_lwsp_stop n x : tag_name n -> match n ++ x with [] => True | c :: _ => is_lwsp c = false end.
Proof. intros N. destruct (name_first n x N) as (c & n' & _ & NL & ->). exact NL. Qed.

Lemma entry_det w1 n w2 w3 v w4 r w1' n' w2' w3' v' w4' r' :
  Forall LWSP w1 -> tag_name n -> Forall LWSP w2 -> Forall LWSP w3 -> tag_value v -> Forall LWSP w4 -> ends_value r ->
  Forall LWSP w1' -> tag_name n' -> Forall LWSP w2' -> Forall LWSP w3' -> tag_value v' -> Forall LWSP w4' -> ends_value r' ->
  w1 ++ n ++ w2 ++ EQUALS :: w3 ++ v ++ w4 ++ r = w1' ++ n' ++ w2' ++ EQUALS :: w3' ++ v' ++ w4' ++ r' ->
  w1 = w1' /\ n = n' /\ w2 = w2' /\ v = v' /\ (v <> [] -> w3 = w3').
Proof.
  intros W1 N W2 W3 V W4 R W1' N' W2' W3' V' W4' R' E.
  assert (E1 := f_equal (span is_lwsp) E). rewrite !lwsp_stop in E1 by (first [assumption|apply name_lwsp_stop; assumption]). injection E1 as -> E1.
  assert (E2 := f_equal (span is_namechar) E1). rewrite !name_stop in E2 by (first [assumption|apply name_head_stop; assumption]). injection E2 as -> E2.
  assert (E3 := f_equal (span is_lwsp) E2). rewrite !lwsp_stop in E3 by (auto; reflexivity). injection E3 as -> E3.
  destruct (value_split v w4 r V W4 R w3 W3) as (x & y & S1 & b & S2 & S3).
  destruct (value_split v' w4' r' V' W4' R' w3' W3') as (x' & y' & S1' & b' & S2' & S3').
  rewrite E3, S1' in S1. injection S1 as -> ->. rewrite S2' in S2. injection S2 as -> ->.
  assert (EV : v = v') by congruence. repeat (split; auto). intros NV. rewrite <- EV in *. clear - W3 W3' V NV E3.
  destruct v as [|c v]; [congruence|]. destruct V as (_ & FO & _). cbn in FO. apply value_byte_b, val_not_lwsp in FO.
  assert (E4 := f_equal (span is_lwsp) E3). rewrite !lwsp_stop in E4 by auto. congruence.
Qed.

Lemma LWSP_not c w : Forall LWSP w -> is_lwsp c = false -> ~ In c w.
Proof. intros W L K. rewrite Forall_forall in W. specialize (W c K). apply is_lwsp_LWSP in W. congruence. Qed.
Lemma entry_no_semi w1 n w2 w3 v w4 : Forall LWSP w1 -> tag_name n -> Forall LWSP w2 -> Forall LWSP w3 -> tag_value v -> Forall LWSP w4 ->
  ~ In SEMI (w1 ++ n ++ w2 ++ EQUALS :: w3 ++ v ++ w4).
Proof.
  intros W1 [_ N] W2 W3 (V & _) W4 K.
  apply in_app_or in K as [K|K]; [revert K; apply LWSP_not; auto|].
  apply in_app_or in K as [K|K]; [rewrite Forall_forall in N; apply N in K; apply name_byte_b in K; discriminate|].
  apply in_app_or in K as [K|K]; [revert K; apply LWSP_not; auto|].
  destruct K as [K|K]; [discriminate|].
  apply in_app_or in K as [K|K]; [revert K; apply LWSP_not; auto|].
  apply in_app_or in K as [K|K]; [|revert K; apply LWSP_not; auto].
  rewrite Forall_forall in V. destruct (V _ K) as [[_ X]|X]; [congruence|]. apply is_lwsp_LWSP in X. discriminate.
Qed.

Definition semis (t : bytes) : nat := length (filter (fun c => c =?c SEMI) t).
Lemma semis_app a b : semis (a ++ b) = semis a + semis b.
Proof. unfold semis. rewrite filter_app, app_length. reflexivity. Qed.
Lemma semis_none a : ~ In SEMI a -> semis a = 0.
Proof.
  unfold semis. induction a as [|c a IH]; intros NI; [reflexivity|]. cbn [filter].
  destruct (c =?c SEMI) eqn:E; [apply ceqb_eq in E; exfalso; apply NI; left; auto|]. apply IH. intros K. apply NI. right. auto.
Qed.
Definition at_boundary (t : bytes) : Prop := t = [] \/ exists u, t = u ++ [SEMI].

(** What the ';' split gives. *)
Lemma boundary_skip t x e y : at_boundary t -> t <> [] -> ~ In SEMI e -> t ++ x = e ++ SEMI :: y ->
  exists t1, at_boundary t1 /\ y = t1 ++ x /\ semis t = S (semis t1).
Proof.
  intros [->|(u & ->)] NE NS E; [congruence|].
  assert (ES : semis e = 0) by (apply semis_none; auto).
  rewrite <- app_assoc in E. destruct (app_split _ _ _ _ E) as [(l & -> & E')|(l & -> & E')].
  - cbn in E'. destruct l as [|c l].
    + injection E' as ->. exists []. split; [left; auto|]. split; auto. rewrite app_nil_r, semis_app, ES. reflexivity.
    + injection E' as <- ->. exists (l ++ [SEMI]). split; [right; eauto|]. split; [rewrite <- app_assoc; reflexivity|].
      rewrite !semis_app, ES. change (semis (SEMI :: l)) with (S (semis l)). reflexivity.
  - destruct l as [|c l]; cbn in E'.
    + injection E' as ->. exists []. split; [left; auto|]. split; auto. rewrite app_nil_r in *. rewrite semis_app, ES. reflexivity.
    + injection E' as <- _. exfalso. apply NS, in_or_app. right. left. reflexivity.
Qed.

Lemma at_nth l input : rendered_tags l input -> forall n t w1 w2 w3 v w4 r, tag_name n -> at_boundary t ->
  Forall LWSP w1 -> Forall LWSP w2 -> Forall LWSP w3 -> tag_value v -> Forall LWSP w4 -> ends_value r ->
  input = t ++ w1 ++ n ++ w2 ++ EQUALS :: w3 ++ v ++ w4 ++ r -> nth_error l (semis t) = Some (n, v).
Proof.
  induction 1 as [w W|a1 m a2 a3 u a4 A1 M A2 A3 U A4|a1 m a2 a3 u a4 l t0 A1 M A2 A3 U A4 R IH];
    intros n t w1 w2 w3 v w4 r N B W1 W2 W3 V W4 ER E.
  - exfalso. subst w. apply (LWSP_not EQUALS _ W eq_refl). apply in_or_app. right. apply in_or_app. right. apply in_or_app. right.
    apply in_or_app. right. left. reflexivity.
  - pose proof (entry_no_semi _ _ _ _ _ _ A1 M A2 A3 U A4) as NS. destruct B as [->|(t1 & ->)].
    + cbn [semis filter length nth_error]. cbn [app] in E.
      assert (X : a1 ++ m ++ a2 ++ EQUALS :: a3 ++ u ++ a4 ++ [] = w1 ++ n ++ w2 ++ EQUALS :: w3 ++ v ++ w4 ++ r) by (rewrite app_nil_r; exact E).
      apply entry_det in X; auto; [|exact I]. destruct X as (_ & -> & _ & -> & _). reflexivity.
    + exfalso. apply NS. rewrite E. rewrite <- app_assoc. apply in_or_app. right. left. reflexivity.
  - pose proof (entry_no_semi _ _ _ _ _ _ A1 M A2 A3 U A4) as NS. destruct t as [|c t].
    + cbn [semis filter length nth_error]. cbn [app] in E.
      apply entry_det in E; auto; [|reflexivity]. destruct E as (_ & -> & _ & -> & _). reflexivity.
    + assert (X : (c :: t) ++ w1 ++ n ++ w2 ++ EQUALS :: w3 ++ v ++ w4 ++ r = (a1 ++ m ++ a2 ++ EQUALS :: a3 ++ u ++ a4) ++ SEMI :: t0).
      { rewrite <- E. rewrite <- !app_assoc. cbn [app]. rewrite <- !app_assoc. reflexivity. }
      destruct (boundary_skip _ _ _ _ B ltac:(discriminate) NS X) as (t1 & B1 & E1 & ES). rewrite ES. cbn [nth_error].
      exact (IH n t1 w1 w2 w3 v w4 r N B1 W1 W2 W3 V W4 ER E1).
Qed.

Lemma same_boundary t t' x x' : at_boundary t -> at_boundary t' -> t ++ x = t' ++ x' -> semis t = semis t' -> t = t' /\ x = x'.
Proof.
  assert (H : forall t t' l, at_boundary t' -> t' = t ++ l -> semis t = semis t' -> l = []).
  { intros a a' l B -> ES. rewrite semis_app in ES. destruct l as [|c l]; [reflexivity|]. exfalso.
    destruct B as [B|(u & B)]; [destruct a; discriminate|].
    destruct (exists_last (l := c :: l) ltac:(discriminate)) as (k & z & EK). rewrite EK in *. rewrite app_assoc in B.
    apply app_inj_tail in B as [_ ->]. rewrite semis_app in ES. change (semis [SEMI]) with 1 in ES. lia. }
  intros B B' E ES. destruct (app_split _ _ _ _ E) as [(l & E1 & E2)|(l & E1 & E2)].
  - assert (l = []) as -> by (eapply H; [exact B|exact E1|congruence]). rewrite app_nil_r in E1. auto.
  - assert (l = []) as -> by (eapply H; [exact B'|exact E1|congruence]). rewrite app_nil_r in E1. auto.
Qed.

Lemma ends_value_post (r : bytes) : (r = [] \/ exists u, r = SEMI :: u) -> ends_value r.
Proof. intros [->|(u & ->)]; cbn; auto. Qed.
(** A tag stands in a list only once. *)
Lemma tag_at_unique l input n pre v post pre' v' post' : rendered_tags l input -> NoDup (map fst l) -> tag_name n ->
  tag_at n input pre v post -> tag_at n input pre' v' post' -> v <> [] -> pre = pre' /\ v = v' /\ post = post'.
Proof.
  intros R ND N (E & V & (t & w1 & w2 & w3 & EP & B & W1 & W2 & W3) & (w4 & r & EQ & W4 & ER))
    (E' & V' & (t' & w1' & w2' & w3' & EP' & B' & W1' & W2' & W3') & (w4' & r' & EQ' & W4' & ER')) NV.
  apply ends_value_post in ER, ER'. subst pre post pre' post'.
  assert (EI : input = t ++ w1 ++ n ++ w2 ++ EQUALS :: w3 ++ v ++ w4 ++ r).
  { rewrite E, <- !app_assoc. reflexivity. }
  assert (EI' : input = t' ++ w1' ++ n ++ w2' ++ EQUALS :: w3' ++ v' ++ w4' ++ r').
  { rewrite E', <- !app_assoc. reflexivity. }
  pose proof (at_nth l input R n t w1 w2 w3 v w4 r N B W1 W2 W3 V W4 ER EI) as K.
  pose proof (at_nth l input R n t' w1' w2' w3' v' w4' r' N B' W1' W2' W3' V' W4' ER' EI') as K'.
  assert (ES : semis t = semis t').
  { apply (proj1 (NoDup_nth_error (map fst l)) ND).
    - apply nth_error_Some. rewrite nth_error_map, K. discriminate.
    - rewrite !nth_error_map, K, K'. reflexivity. }
  rewrite <- ES, K in K'. injection K' as <-.
  rewrite EI in EI'. destruct (same_boundary _ _ _ _ B B' EI' ES) as [<- EX].
  pose proof EX as EX'. apply entry_det in EX as (<- & _ & <- & _ & W); auto. rewrite <- (W NV) in *. split; auto. split; auto.
  do 2 apply app_inv_head in EX'. apply app_inv_head in EX'. injection EX' as EX'. do 2 apply app_inv_head in EX'. auto.
Qed.
