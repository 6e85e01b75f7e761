(** What TagList::Parse leaves in an object (for C95). *)
From Verif Require Import Bytes Outcome Stream Tokenizer TagList MailParser Canonicalization Crypto Signature PublicKey BytesFacts StreamFacts TokenizerFacts SpecText SpecTags SpecSig SpecReuse
  QPFacts ListFacts Base64Facts TagListFacts.

Lemma held_nv t : held t = nv t. Proof. reflexivity. Qed.

Definition tag_text (w1 n w2 w3 v w4 : bytes) (t : bytes) : bytes := w1 ++ n ++ w2 ++ EQUALS :: w3 ++ v ++ w4 ++ SEMI :: t.
Definition a_tag (w1 n w2 w3 v w4 : bytes) : Prop :=
  Forall LWSP w1 /\ tag_name n /\ Forall LWSP w2 /\ Forall LWSP w3 /\ tag_value v /\ Forall LWSP w4.

Lemma tag_spans w1 n w2 w3 v w4 t : a_tag w1 n w2 w3 v w4 ->
  span is_lwsp (tag_text w1 n w2 w3 v w4 t) = (w1, n ++ w2 ++ EQUALS :: w3 ++ v ++ w4 ++ SEMI :: t) /\
  span is_namechar (n ++ w2 ++ EQUALS :: w3 ++ v ++ w4 ++ SEMI :: t) = (n, w2 ++ EQUALS :: w3 ++ v ++ w4 ++ SEMI :: t) /\
  span is_lwsp (w2 ++ EQUALS :: w3 ++ v ++ w4 ++ SEMI :: t) = (w2, EQUALS :: w3 ++ v ++ w4 ++ SEMI :: t) /\
  exists x y, span is_lwsp (w3 ++ v ++ w4 ++ SEMI :: t) = (x, y) /\ exists b, span is_valws y = (b, SEMI :: t) /\ rstrip b = v.
Proof.
  intros (W1 & N & W2 & W3 & V & W4). unfold tag_text.
  destruct (name_first n (w2 ++ EQUALS :: w3 ++ v ++ w4 ++ SEMI :: t) N) as (c & n' & EN & NL & EA).
  split; [apply lwsp_stop; auto; rewrite EA; exact NL|]. split.
  { apply name_stop; auto. destruct w2 as [|x w2]; [reflexivity|]. cbn. apply lwsp_not_name. inversion W2; subst. apply is_lwsp_LWSP. auto. }
  split; [apply lwsp_stop; auto; reflexivity|]. exact (value_split v w4 (SEMI :: t) V W4 eq_refl w3 W3).
Qed.
(** Nothing new in front. *)
Definition no_tag (names : list bytes) (r : bytes) : Prop :=
  forall w1 n w2 w3 v w4 u, a_tag w1 n w2 w3 v w4 -> r = tag_text w1 n w2 w3 v w4 u -> In n names.

(** One turn of the loop: it ends without a new tag, or there is a tag in front and the loop goes on behind it. *)
Lemma tl_turn f s p r tags : St s p r -> length r <= f ->
  (no_tag (keys tags) r /\ tl_loop (S f) s tags = (tags, perm)) \/
  (exists ents, rendered_tags (nv ents) r /\ fresh_names tags (nv ents) /\ tl_loop (S f) s tags = (tags ++ ents, Ok tt)) \/
  exists w1 n w2 w3 v w4 t off s' p', a_tag w1 n w2 w3 v w4 /\ ~ In n (keys tags) /\ r = tag_text w1 n w2 w3 v w4 t /\ St s' p' t /\
    length t < length r /\ tl_loop (S f) s tags = tl_loop f s' (tags ++ [(n, mkEntry v off)]).
Proof.
  intros H L. cbn [tl_loop].
  assert (NT : forall r1' w1', span is_lwsp r = (w1', r1') -> forall n' r2', span is_namechar r1' = (n', r2') ->
    (n' <> [] -> ~ In n' (keys tags) -> forall w2' r3', span is_lwsp r2' = (w2', r3') -> forall r4', r3' = EQUALS :: r4' ->
     forall w3' r5', span is_lwsp r4' = (w3', r5') -> forall b' r6', span is_valws r5' = (b', r6') -> ends_value r6' -> False) -> no_tag (keys tags) r).
  { intros r1' w1' X1 n' r2' X2 K a1 n a2 a3 v a4 u T ->. destruct (tag_spans _ _ _ _ _ _ u T) as (Y1 & Y2 & Y3 & x & y & Y4 & b & Y5 & _).
    rewrite Y1 in X1. injection X1 as <- <-. rewrite Y2 in X2. injection X2 as <- <-.
    destruct (in_dec (list_eq_dec ascii_dec) n (keys tags)) as [I|I]; [exact I|exfalso].
    refine (K _ I _ _ Y3 _ eq_refl _ _ Y4 _ _ Y5 eq_refl). apply (proj1 (proj1 (proj2 T))). }
  assert (Hq := H). rewrite (St_fuel _ _ _ H). destruct (span is_lwsp r) as [w1 r1] eqn:E1.
  destruct (skip_loose_St (S (length r)) s p r w1 r1 H E1 ltac:(lia)) as (s1 & P1 & H1 & G1). rewrite P1.
  pose proof (span_length _ _ _ _ E1) as L1. pose proof (span_app _ _ _ _ E1) as A1.
  pose proof (span_all _ _ _ _ E1) as W1. apply (forallb_Forall _ _ _ is_lwsp_LWSP) in W1.
  destruct r1 as [|c1 r1].
  { peek_at H1. right. left. exists []. rewrite app_nil_r. split; [|split; [split; [constructor|intros m []]|reflexivity]].
    rewrite A1, app_nil_r. apply rt_none. exact W1. }
  peek_at H1. destruct (span is_namechar (c1 :: r1)) as [n r2] eqn:E2.
  destruct (tl_name_St s1 _ _ n r2 H1 E2) as (s3 & P3 & H3). rewrite P3. cbn [obind].
  pose proof (span_length _ _ _ _ E2) as L2. pose proof (span_app _ _ _ _ E2) as A2.
  destruct n as [|n0 n']; [left; split; [|reflexivity]; apply (NT _ _ eq_refl _ _ E2); congruence|].
  assert (N : tag_name (n0 :: n')).
  { split; [discriminate|]. apply (forallb_Forall _ _ _ name_byte_b). exact (span_all _ _ _ _ E2). }
  remember (n0 :: n') as n eqn:EN.
  destruct (GetTag n tags) as [e0|] eqn:GT; [left; split; [|reflexivity]; apply (NT _ _ eq_refl _ _ E2); intros _ Z; exfalso; apply Z;
    destruct (in_dec (list_eq_dec ascii_dec) n (keys tags)) as [I|I]; [exact I|apply GetTag_None in I; congruence]|].
  apply GetTag_None in GT.
  rewrite (St_fuel _ _ _ H3). destruct (span is_lwsp r2) as [w2 r3] eqn:E3.
  destruct (skip_loose_St (S (length r2)) s3 _ r2 w2 r3 H3 E3 ltac:(lia)) as (s4 & P4 & H4 & G4). rewrite P4. cbn [obind].
  pose proof (span_length _ _ _ _ E3) as L3. pose proof (span_app _ _ _ _ E3) as A3.
  pose proof (span_all _ _ _ _ E3) as W2. apply (forallb_Forall _ _ _ is_lwsp_LWSP) in W2.
  destruct r3 as [|e r4].
  { peek_at H4. left. split; [|reflexivity]. apply (NT _ _ eq_refl _ _ E2). intros _ _ w2' r3' X3 r4' ->. rewrite E3 in X3. discriminate X3. }
  peek_at H4. destruct (e =?c EQUALS) eqn:EQ.
  2:{ left. split; [|reflexivity]. apply (NT _ _ eq_refl _ _ E2). intros _ _ w2' r3' X3 r4' ->. rewrite E3 in X3. injection X3 as _ -> _. rewrite ceqb_refl in EQ. discriminate EQ. }
  apply ceqb_eq in EQ. subst e.
  get_at H4. rewrite (St_fuel _ _ _ H0). destruct (span is_lwsp r4) as [w3 r5] eqn:E5.
  destruct (skip_loose_St (S (length r4)) s0 _ r4 w3 r5 H0 E5 ltac:(lia)) as (s7 & P7 & H7 & G7). rewrite P7. cbn [obind].
  pose proof (span_length _ _ _ _ E5) as L5. pose proof (span_app _ _ _ _ E5) as A5. cbn [length] in L1, L2, L3.
  pose proof (span_all _ _ _ _ E5) as W3. apply (forallb_Forall _ _ _ is_lwsp_LWSP) in W3. pose proof (span_stop _ _ _ _ E5) as S5.
  destruct (span is_valws r5) as [b r6] eqn:E6.
  pose proof (span_length _ _ _ _ E6) as L6. pose proof (span_app _ _ _ _ E6) as A6. pose proof (span_all _ _ _ _ E6) as B6.
  match type of H7 with St _ ?q _ => set (p7 := q) in * end.
  assert (TG : exists s8, tellg s7 = (match r5 with [] => (-1)%Z | _ => Z.of_nat (length p7) end, s8) /\ St s8 p7 r5).
  { destruct r5 as [|c5 r5].
    - apply tellg_nil; auto.
    - exists s7. split; auto. apply (tellg_cons _ _ _ _ H7). }
  destruct TG as (s8 & PT & H8). rewrite PT. rewrite (St_fuel _ _ _ H8).
  destruct (tl_value_St (S (length r5)) s8 p7 r5 b r6 [] [] H8 E6 ltac:(lia) eq_refl) as [(EV & s9 & P9 & H9)|(EV & P9)].
  2:{ rewrite P9. cbn [obind]. left. split; [|reflexivity]. apply (NT _ _ eq_refl _ _ E2). intros _ _ w2' r3' X3 r4' -> w3' r5' X5 b' r6' X6 Z.
      rewrite E3 in X3. injection X3 as <- <-. rewrite E5 in X5. injection X5 as <- <-. rewrite E6 in X6. injection X6 as <- <-. exact (EV Z). }
  rewrite P9. cbn [obind app].
  destruct (strip_split b B6) as (w4 & Eb & W4 & TV).
  { destruct b as [|x b]; [exact I|]. cbn. rewrite A6 in S5. exact S5. }
  destruct r6 as [|x r7].
  - get_at H9. right. left. eexists. split; [|split; [|reflexivity]].
    + cbn [nv map fst snd te_value]. rewrite A1, A2, A3, A5, A6, app_nil_r. rewrite Eb at 2. apply rt_last; auto.
    + unfold fresh_names. cbn [nv map keys fst]. split; [constructor; [intros []|constructor]|]. intros m [<-|[]]. exact GT.
  - cbn in EV. subst x. get_at H9. right. right. exists w1, n, w2, w3, (rstrip b), w4, r7. do 3 eexists.
    split; [repeat (split; auto)|]. split; [exact GT|]. split.
    { unfold tag_text. rewrite A1, A2, A3, A5, A6. rewrite Eb at 1. rewrite <- !app_assoc. reflexivity. }
    split; [exact H2|]. split; [cbn [length] in L6; lia|]. reflexivity.
Qed.

Definition good_ents (ents : taglist) : Prop := Forall (fun x => tag_value (te_value (snd x))) ents.
Lemma rendered_good l t : rendered_tags l t -> Forall (fun x => tag_value (snd x)) l.
Proof. induction 1; [constructor|constructor; [assumption|constructor]|constructor; assumption]. Qed.
Lemma good_nv ents : Forall (fun x => tag_value (snd x)) (nv ents) -> good_ents ents.
Proof. unfold nv. rewrite Forall_map. intros H. exact H. Qed.

Lemma tl_left f : forall s p r tags names, St s p r -> length r < f -> (forall m, In m names <-> In m (keys tags)) ->
  exists ents o, tl_loop f s tags = (tags ++ ents, o) /\ fresh_names tags (nv ents) /\ good_ents ents /\
    (o = Ok tt /\ rendered_tags (nv ents) r \/ o = perm /\ left_behind names (nv ents) r).
Proof.
  induction f as [|f IH]; intros s p r tags names H L NM; [lia|].
  destruct (tl_turn f s p r tags H ltac:(lia)) as [(NT & E)|[(ents & R & F & E)|(w1 & n & w2 & w3 & v & w4 & t & off & s' & p' & T & NI & -> & H' & LT & E)]].
  - exists [], perm. rewrite app_nil_r. split; [exact E|]. split; [split; [constructor|intros m []]|]. split; [constructor|]. right. split; [reflexivity|].
    apply lb_stop. intros w1 n w2 w3 v w4 u W1 N W2 W3 V W4 X. apply NM. apply (NT w1 n w2 w3 v w4 u); [|exact X]. repeat (split; auto).
  - exists ents, (Ok tt). split; [exact E|]. split; [exact F|]. split; [apply good_nv, (rendered_good _ _ R)|]. left. auto.
  - assert (KT : forall m, In m (keys (tags ++ [(n, mkEntry v off)])) <-> In m (keys tags) \/ m = n).
    { intros m. unfold keys. rewrite map_app, in_app_iff. cbn. intuition. }
    destruct (IH s' p' t (tags ++ [(n, mkEntry v off)]) (n :: names) H' ltac:(lia)) as (ents & o & E2 & [ND DJ] & G & O).
    { intros m. rewrite KT. cbn [In]. rewrite NM. intuition. }
    destruct T as (W1 & N & W2 & W3 & V & W4).
    exists ((n, mkEntry v off) :: ents), o. rewrite E, E2. rewrite <- app_assoc. split; [reflexivity|]. cbn [nv map fst snd te_value]. fold (nv ents).
    split. { split.
      - cbn [keys map fst]. constructor; [|exact ND]. intros I. apply (DJ n I). apply KT. auto.
      - cbn [keys map fst]. intros m [<-|I]; [exact NI|]. intros J. apply (DJ m I). apply KT. auto. }
    split; [constructor; [exact V|exact G]|].
    destruct O as [[-> R]|[-> R]]; [left|right]; (split; [reflexivity|]).
    + apply rt_more; auto.
    + apply lb_tag; auto. intros I. apply NI, NM, I.
Qed.
Lemma TagList_left tags input : exists ents o, TagList_Parse tags input = (tags ++ ents, o) /\ fresh_names tags (nv ents) /\ good_ents ents /\
    (o = Ok tt /\ rendered_tags (nv ents) input \/ o = perm /\ left_behind (keys tags) (nv ents) input).
Proof.
  unfold TagList_Parse. rewrite (St_fuel _ _ _ (St_open input)).
  apply (tl_left (S (length input)) _ _ _ tags (keys tags) (St_open input)); [lia|tauto].
Qed.
