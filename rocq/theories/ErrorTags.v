(** C93: what is said of tag lists. *)
From Verif Require Import Bytes Outcome Stream Tokenizer TagList ErrorText SpecText SpecTags SpecSig SpecError
  BytesFacts StreamFacts TokenizerFacts QPFacts ListFacts TagListFacts ErrorFacts ShownFacts.

Lemma value_says f : forall s p r b c u value vbuf, St s p r -> span is_valws r = (b, c :: u) -> length r < f -> c <> SEMI ->
  exists m, tl_value_says f s value vbuf = Says m /\ byte_at "Invalid tag value (invalid data), unexpected 0x" " at position " m c (length p + length b).
Proof.
  induction f as [|f IH]; intros s p r b c u value vbuf H E L N; [lia|]. cbn [tl_value_says].
  destruct r as [|x r]; [discriminate|]. peek_at H. cbn [span] in E. cbn [length] in L.
  destruct (x =?c SEMI) eqn:X.
  { apply ceqb_eq in X. subst x. rewrite valws_semi in E. injection E as _ E _. congruence. }
  destruct (is_valchar x) eqn:V.
  - unfold is_valws at 1 in E. rewrite V in E. cbn [orb] in E. destruct (span is_valws r) as [b' r'] eqn:E'. injection E as <- ->.
    get_at H. destruct (IH _ _ _ _ _ _ (value ++ vbuf ++ [x]) [] H0 E' ltac:(lia) N) as (m & M & B). exists m. split; [exact M|].
    cbn [length] in B |- *. replace (length p + S (length b')) with (S (length p) + length b') by lia. exact B.
  - unfold is_valws at 1 in E. rewrite V in E. cbn [orb] in E. destruct (is_lwsp x) eqn:W.
    + destruct (span is_valws r) as [b' r'] eqn:E'. injection E as <- ->.
      destruct (read_loose_yes s p x r H W) as (s2 & -> & H2).
      destruct (IH _ _ _ _ _ _ value (vbuf ++ [x]) H2 E' ltac:(lia) N) as (m & M & B). exists m. split; [exact M|].
      cbn [length] in B |- *. replace (length p + S (length b')) with (S (length p) + length b') by lia. exact B.
    + injection E as <- <- <-. destruct (read_loose_no s p (x :: r) H W) as (s2 & -> & H2 & _).
      eexists. split; [reflexivity|]. cbn [length]. rewrite Nat.add_0_r. apply (byte_place_at _ _ _ _ _ _ H2).
Qed.
Lemma value_fine f s p r b r' value vbuf : St s p r -> span is_valws r = (b, r') -> length r < f -> forallb is_lwsp vbuf = true -> ends_value r' ->
  exists s', tl_value_says f s value vbuf = Fine (value ++ rstrip (vbuf ++ b), s') /\ St s' (rev b ++ p) r'.
Proof.
  intros H E L V EV. destruct (tl_value_St f s p r b r' value vbuf H E L V) as [(_ & s' & R & H')|(N & _)]; [|tauto].
  exists s'. split; [|exact H']. rewrite <- tl_value_same in R. destruct (tl_value_says f s value vbuf); cbn in R; [injection R as ->; reflexivity|discriminate R|discriminate R].
Qed.

(** ** Texts that are no tag lists *)
Lemma valws_iff c : is_valws c = true <-> value_byte c \/ LWSP c.
Proof. unfold is_valws. rewrite orb_true_iff, is_lwsp_LWSP. rewrite <- value_byte_b. tauto. Qed.
Lemma no_tags t : l_tags (S (length t)) 0 t = None -> forall l, ~ rendered_tags l t.
Proof. intros E l R. destruct (l_tags_rendered l t R (S (length t)) 0 ltac:(lia)) as (e & X & _). congruence. Qed.
Lemma no_name w c u l : Forall LWSP w -> ~ LWSP c -> ~ name_byte c -> ~ rendered_tags l (w ++ c :: u).
Proof.
  intros W NL NN. apply no_tags. cbn [l_tags]. rewrite lwsp_stop; auto.
  2:{ destruct (is_lwsp c) eqn:X; auto. apply is_lwsp_LWSP in X. tauto. }
  cbn [span]. destruct (is_namechar c) eqn:X; [apply name_byte_b in X; tauto|reflexivity].
Qed.
Definition ends_name (r : bytes) : Prop := first_ok (fun c => ~ name_byte c) r.
Lemma ends_name_b r : ends_name r -> match r with [] => True | c :: _ => is_namechar c = false end.
Proof. destruct r as [|c r]; auto. cbn. intros N. destruct (is_namechar c) eqn:X; auto. apply name_byte_b in X. tauto. Qed.
Lemma lwsp_ends_name w r : Forall LWSP w -> ends_name r -> ends_name (w ++ r).
Proof.
  intros W E. destruct w as [|c w]; auto. cbn. inversion W; subst. intros N. apply name_byte_b in N.
  apply name_not_lwsp in N. match goal with H : LWSP c |- _ => apply is_lwsp_LWSP in H; congruence end.
Qed.
Lemma l_tags_tag f pos w1 n w2 r : Forall LWSP w1 -> tag_name n -> Forall LWSP w2 -> ends_name (w2 ++ r) ->
  match r with [] => True | c :: _ => ~ LWSP c end ->
  l_tags (S f) pos (w1 ++ n ++ w2 ++ r) =
  match r with
  | e :: r4 =>
      if e =?c EQUALS then
        let '(w3, r5) := span is_lwsp r4 in
        let '(b, r6) := span is_valws r5 in
        let pos' := pos + length w1 + length n + length w2 + 1 + length w3 in
        let entry := entry_at pos' r5 b in
        match r6 with
        | [] => Some [(n, entry)]
        | x :: r7 =>
            if x =?c SEMI then
              match l_tags f (pos' + length b + 1) r7 with
              | Some l => Some ((n, entry) :: l)
              | None => None
              end
            else None
        end
      else None
  | [] => None
  end.
Proof.
  intros W1 N W2 EN NL. cbn [l_tags]. rewrite lwsp_stop; auto.
  2:{ destruct (name_first n (w2 ++ r) N) as (c & n' & _ & X & ->). exact X. }
  destruct (name_first n (w2 ++ r) N) as (c & n' & _ & X & E). rewrite E. rewrite <- E.
  rewrite name_stop; auto.
  2:{ apply ends_name_b, EN. }
  destruct n as [|k n]; [destruct N; congruence|]. rewrite lwsp_stop; auto.
  destruct r as [|e r]; auto. destruct (is_lwsp e) eqn:Y; auto. apply is_lwsp_LWSP in Y. tauto.
Qed.
Lemma no_equals w1 n w2 r l : Forall LWSP w1 -> tag_name n -> Forall LWSP w2 -> ends_name (w2 ++ r) ->
  match r with [] => True | c :: _ => ~ LWSP c /\ c <> EQUALS end -> ~ rendered_tags l (w1 ++ n ++ w2 ++ r).
Proof.
  intros W1 N W2 EN NE. apply no_tags. rewrite l_tags_tag; auto.
  - destruct r as [|e r]; auto. destruct NE as [_ NE]. rewrite (ceqb_false _ _ NE). reflexivity.
  - destruct r; tauto.
Qed.
(** A value with the white space around it. *)
Lemma value_around b : forallb is_valws b = true -> exists w3 v w4, b = w3 ++ v ++ w4 /\ Forall LWSP w3 /\ tag_value v /\ Forall LWSP w4.
Proof.
  intros F. destruct (span is_lwsp b) as [w3 y] eqn:E. pose proof (span_app _ _ _ _ E) as A. pose proof (span_all _ _ _ _ E) as W.
  pose proof (span_stop _ _ _ _ E) as SS. rewrite A in F. rewrite forallb_app' in F. apply andb_true_iff in F as [_ F].
  destruct (strip_split y F) as (w4 & E4 & W4 & V).
  { destruct y as [|c y]; [exact I|]. exact SS. }
  exists w3, (rstrip y), w4. split; [rewrite <- E4; exact A|]. split; [|auto].
  apply (forallb_Forall _ _ _ is_lwsp_LWSP). exact W.
Qed.
Lemma valws_lwsp b : forallb is_valws b = true -> forall r, match r with [] => True | c :: _ => is_valws c = false end ->
  exists w3 b', span is_lwsp (b ++ r) = (w3, b' ++ r) /\ b = w3 ++ b' /\ span is_valws (b' ++ r) = (b', r) /\ forallb is_valws b' = true.
Proof.
  intros F r NR. destruct (span is_lwsp b) as [w3 b'] eqn:E. pose proof (span_app _ _ _ _ E) as A.
  pose proof (span_all _ _ _ _ E) as W. pose proof (span_stop _ _ _ _ E) as SS.
  assert (F' : forallb is_valws b' = true).
  { rewrite A in F. rewrite forallb_app' in F. apply andb_true_iff in F. tauto. }
  exists w3, b'. split; [|split; [exact A|split; [|exact F']]].
  - rewrite A, <- app_assoc. apply span_intro; auto. destruct b' as [|c b']; [|exact SS].
    destruct r as [|c r]; cbn; auto. unfold is_valws in NR. apply orb_false_iff in NR. tauto.
  - apply span_intro; auto.
Qed.
Lemma EQ_facts : ~ LWSP EQUALS /\ ~ name_byte EQUALS.
Proof.
  split.
  - intros X. apply is_lwsp_LWSP in X. discriminate.
  - intros X. apply name_byte_b in X. discriminate.
Qed.
Lemma eq_ends w r : Forall LWSP w -> ends_name (w ++ EQUALS :: r).
Proof. intros W. apply lwsp_ends_name; auto. exact (proj2 EQ_facts). Qed.
Lemma no_value w1 n w2 b c u l : Forall LWSP w1 -> tag_name n -> Forall LWSP w2 -> forallb is_valws b = true -> is_valws c = false -> c <> SEMI ->
  ~ rendered_tags l (w1 ++ n ++ w2 ++ EQUALS :: b ++ c :: u).
Proof.
  intros W1 N W2 B NC NS. apply no_tags. rewrite l_tags_tag; auto using eq_ends; [|exact (proj1 EQ_facts)].
  rewrite ceqb_refl. destruct (valws_lwsp b B (c :: u) NC) as (w3 & b' & -> & _ & -> & _). cbv zeta.
  rewrite (ceqb_false _ _ NS). reflexivity.
Qed.
Lemma tag_cancel w1 n w2 b x l : Forall LWSP w1 -> tag_name n -> Forall LWSP w2 -> forallb is_valws b = true ->
  rendered_tags l (w1 ++ n ++ w2 ++ EQUALS :: b ++ SEMI :: x) -> exists v l', l = (n, v) :: l' /\ rendered_tags l' x.
Proof.
  intros W1 N W2 B R. destruct (l_tags_rendered _ _ R (S (length (w1 ++ n ++ w2 ++ EQUALS :: b ++ SEMI :: x))) 0 ltac:(lia)) as (e & X & <-).
  rewrite l_tags_tag in X; auto using eq_ends; [|exact (proj1 EQ_facts)]. rewrite ceqb_refl in X.
  destruct (valws_lwsp b B (SEMI :: x) valws_semi) as (w3 & b' & E1 & _ & E2 & _). rewrite E1, E2 in X. cbv zeta in X.
  rewrite ceqb_refl in X.
  match type of X with match l_tags ?f ?k x with _ => _ end = _ => destruct (l_tags f k x) as [e'|] eqn:Y; [|discriminate X] end.
  injection X as <-. cbn [nv map fst snd]. eexists _, _. split; [reflexivity|]. exact (l_tags_grammar _ _ _ _ Y).
Qed.
Lemma tag_more w1 n w2 b x l : Forall LWSP w1 -> tag_name n -> Forall LWSP w2 -> forallb is_valws b = true -> rendered_tags l x ->
  exists v, rendered_tags ((n, v) :: l) (w1 ++ n ++ w2 ++ EQUALS :: b ++ SEMI :: x).
Proof.
  intros W1 N W2 B R. destruct (value_around b B) as (w3 & v & w4 & -> & W3 & V & W4). exists v. rewrite <- !app_assoc. apply rt_more; auto.
Qed.

(** ** Behind a tag *)
Definition sync (names : list bytes) (q : bytes) (names' : list bytes) : Prop := forall x, tags_ok names (q ++ x) <-> tags_ok names' x.
Lemma tag_sync names w1 n w2 b names' : Forall LWSP w1 -> tag_name n -> Forall LWSP w2 -> forallb is_valws b = true -> ~ In n names ->
  (forall m, In m names' <-> In m names \/ m = n) -> sync names (w1 ++ n ++ w2 ++ EQUALS :: b ++ [SEMI]) names'.
Proof.
  intros W1 N W2 B NI K x. replace ((w1 ++ n ++ w2 ++ EQUALS :: b ++ [SEMI]) ++ x) with (w1 ++ n ++ w2 ++ EQUALS :: b ++ SEMI :: x)
    by (rewrite <- !app_assoc; cbn [app]; rewrite <- app_assoc; reflexivity).
  split; intros (l & R & ND & D).
  - destruct (tag_cancel _ _ _ _ _ _ W1 N W2 B R) as (v & l' & -> & R'). cbn [map fst] in *. inversion ND as [|? ? NM ND']; subst.
    exists l'. split; [exact R'|]. split; [exact ND'|]. intros m I J. apply K in J. destruct J as [J| ->]; [|tauto]. exact (D m (or_intror I) J).
  - destruct (tag_more _ _ _ _ _ _ W1 N W2 B R) as (v & R'). exists ((n, v) :: l). split; [exact R'|]. cbn [map fst]. split.
    + constructor; [|exact ND]. intros I. apply (D n I). apply K. auto.
    + intros m [<-|I] J; [tauto|]. apply (D m I). apply K. auto.
Qed.
Lemma sync_app names q names' q' names'' : sync names q names' -> sync names' q' names'' -> sync names (q ++ q') names''.
Proof. intros A B x. rewrite <- app_assoc. rewrite (A _). apply B. Qed.
Lemma sync_go_on names q names' x : sync names q names' -> can_go_on (tags_ok names) (q ++ x) <-> can_go_on (tags_ok names') x.
Proof. intros Y. unfold can_go_on. split; intros [z Z]; exists z; [rewrite <- app_assoc in Z; apply Y; exact Z|rewrite <- app_assoc; apply Y; exact Z]. Qed.
Lemma sync_breaks names q names' x c : sync names q names' -> can_go_on (tags_ok names') x -> (forall y l, ~ rendered_tags l (x ++ c :: y)) ->
  breaks (tags_ok names) (q ++ x) c.
Proof.
  intros Y G B. split; [apply (sync_go_on _ _ _ _ Y); exact G|]. rewrite <- app_assoc, (sync_go_on _ _ _ _ Y). intros [z (l & R & _)].
  rewrite <- app_assoc in R. exact (B _ _ R).
Qed.
Lemma last_app_cons (A : Type) (x : list A) c y d : last (x ++ c :: y) d = last (c :: y) d.
Proof. induction x as [|a x IH]; auto. cbn [app]. destruct (x ++ c :: y) as [|b z] eqn:E; [destruct x; discriminate E|]. exact IH. Qed.
Lemma last_In (A : Type) (x : list A) d : x <> [] -> In (last x d) x.
Proof.
  intros N. destruct (exists_last N) as (y & a & ->). rewrite last_last. apply in_or_app. right. left. reflexivity.
Qed.
Definition tags_end (q : bytes) : Prop := q = [] \/ exists q0, q = q0 ++ [SEMI].
Lemma LWSP_semi : ~ LWSP SEMI.
Proof. intros X. apply is_lwsp_LWSP in X. discriminate. Qed.
Lemma rendered_snoc l q : rendered_tags l q -> tags_end q -> forall m v t, rendered_tags [(m, v)] t -> rendered_tags (l ++ [(m, v)]) (q ++ t).
Proof.
  induction 1 as [w W|w1 n w2 w3 v w4 W1 N W2 W3 V W4|w1 n w2 w3 v w4 l t W1 N W2 W3 V W4 R IH]; intros E m u x X.
  - destruct E as [->|[q0 ->]]; [exact X|]. exfalso. apply Forall_app in W as [_ W]. inversion W; subst. apply LWSP_semi. auto.
  - exfalso. destruct E as [E|[q0 E]].
    { destruct w1; [destruct n; [destruct N; congruence|]|]; discriminate E. }
    assert (Z : ~ In SEMI (w3 ++ v ++ w4)).
    { intros I. rewrite !in_app_iff in I. destruct V as (FV & _). rewrite Forall_forall in W3, FV, W4.
      destruct I as [I|[I|I]]; [exact (LWSP_semi (W3 _ I))| |exact (LWSP_semi (W4 _ I))].
      destruct (FV _ I) as [[_ X1]|X1]; [congruence|exact (LWSP_semi X1)]. }
    assert (Y : In SEMI (EQUALS :: w3 ++ v ++ w4)).
    { assert (L : last (w1 ++ n ++ w2 ++ EQUALS :: w3 ++ v ++ w4) EQUALS = SEMI) by (rewrite E; apply last_last).
      replace (w1 ++ n ++ w2 ++ EQUALS :: w3 ++ v ++ w4) with ((w1 ++ n ++ w2) ++ EQUALS :: w3 ++ v ++ w4) in L by (rewrite <- !app_assoc; reflexivity).
      rewrite last_app_cons in L. rewrite <- L. apply last_In. discriminate. }
    destruct Y as [Y|Y]; [discriminate Y|tauto].
  - assert (E' : tags_end t).
    { destruct t as [|c t]; [left; reflexivity|right]. destruct E as [E|[q0 E]].
      { destruct w1; [destruct n; [destruct N; congruence|]|]; discriminate E. }
      exists (removelast (c :: t)). 
      assert (L : last (w1 ++ n ++ w2 ++ EQUALS :: w3 ++ v ++ w4 ++ SEMI :: c :: t) EQUALS = SEMI) by (rewrite E; apply last_last).
      replace (w1 ++ n ++ w2 ++ EQUALS :: w3 ++ v ++ w4 ++ SEMI :: c :: t) with ((w1 ++ n ++ w2 ++ EQUALS :: w3 ++ v ++ w4 ++ [SEMI]) ++ c :: t) in L
        by (repeat (rewrite <- !app_assoc; cbn [app]); reflexivity).
      rewrite last_app_cons in L. rewrite <- L at 1. apply app_removelast_last. discriminate. }
    cbn [app]. replace ((w1 ++ n ++ w2 ++ EQUALS :: w3 ++ v ++ w4 ++ SEMI :: t) ++ x) with (w1 ++ n ++ w2 ++ EQUALS :: w3 ++ v ++ w4 ++ SEMI :: (t ++ x))
      by (repeat (rewrite <- !app_assoc; cbn [app]); reflexivity).
    apply rt_more; auto.
Qed.

(** ** What the parser says *)
Lemma rt_plain names w1 n w2 b : Forall LWSP w1 -> tag_name n -> Forall LWSP w2 -> forallb is_valws b = true -> ~ In n names ->
  exists v, rendered_tags [(n, v)] (w1 ++ n ++ w2 ++ EQUALS :: b) /\ tags_ok names (w1 ++ n ++ w2 ++ EQUALS :: b).
Proof.
  intros W1 N W2 B NI. destruct (value_around b B) as (w3 & v & w4 & -> & W3 & V & W4). exists v.
  assert (R : rendered_tags [(n, v)] (w1 ++ n ++ w2 ++ EQUALS :: w3 ++ v ++ w4)) by (apply rt_last; auto).
  split; [exact R|]. exists [(n, v)]. split; [exact R|]. cbn [map fst]. split.
  - constructor; [intros []|constructor].
  - intros m [<-|[]]. exact NI.
Qed.
Lemma name_c_str n : tag_name n -> c_str n = n.
Proof.
  intros [_ F]. induction F as [|c n C F IH]; [reflexivity|]. cbn [c_str]. rewrite IH. destruct (code c =? 0)%N eqn:E; [|reflexivity].
  apply N.eqb_eq in E. apply name_byte_b in C. rewrite <- (chr_code c), E in C. discriminate.
Qed.
Lemma GetTag_In n tags : (exists e, GetTag n tags = Some e) <-> In n (keys tags).
Proof.
  split.
  - intros [e E]. destruct (in_dec (list_eq_dec ascii_dec) n (keys tags)) as [I|I]; auto. apply GetTag_None in I. congruence.
  - intros I. destruct (GetTag n tags) as [e|] eqn:E; [eauto|]. apply GetTag_None in E. tauto.
Qed.
Lemma NoDup_snoc {A} (l : list A) x : NoDup l -> ~ In x l -> NoDup (l ++ [x]).
Proof.
  intros N I. induction N as [|y l NI N IH]; cbn; [constructor; [intros []|constructor]|]. constructor.
  - rewrite in_app_iff. cbn. intros [K|[K|[]]]; [contradiction|subst; apply I; left; reflexivity].
  - apply IH. intros K. apply I. right. exact K.
Qed.
Theorem loop_tells f : forall s p r tags q names l m, St s p r -> length r < f -> p = rev q -> sync names q (keys tags) -> front names l q ->
  (forall n, In n (keys tags) <-> In n (map fst l ++ names)) ->
  tl_loop_says f s tags = Says m -> tags_say names (q ++ r) m.
Proof.
  induction f as [|f IH]; intros s p r tags q names l m H L P Y FR K X; [lia|]. pose proof FR as (E & R & ND & DJ). cbn [tl_loop_says] in X.
  rewrite (St_fuel _ _ _ H) in X. destruct (span is_lwsp r) as [w1 r1] eqn:E1.
  destruct (skip_loose_St (S (length r)) s p r w1 r1 H E1 ltac:(lia)) as (s1 & P1 & H1 & G1). rewrite P1 in X. cbn [quiet sbind] in X.
  pose proof (span_length _ _ _ _ E1) as L1. pose proof (span_app _ _ _ _ E1) as A1.
  pose proof (span_all _ _ _ _ E1) as W1. apply (forallb_Forall _ _ _ is_lwsp_LWSP) in W1. pose proof (span_stop _ _ _ _ E1) as S1.
  assert (LP : length p = length q) by (subst p; apply rev_length).
  destruct r1 as [|c1 r1]; [revert X; peek_at H1; discriminate|].
  revert X. peek_at H1. intros X. destruct (span is_namechar (c1 :: r1)) as [n r2] eqn:E2.
  destruct (tl_name_St s1 _ _ n r2 H1 E2) as (s3 & P3 & H3). rewrite P3 in X. cbn [quiet sbind] in X.
  pose proof (span_length _ _ _ _ E2) as L2. pose proof (span_app _ _ _ _ E2) as A2. pose proof (span_stop _ _ _ _ E2) as S2.
  assert (NL1 : ~ LWSP c1) by (intros Z; apply is_lwsp_LWSP in Z; congruence).
  destruct n as [|n0 n'].
  { injection X as <-. cbn [app] in A2. subst r2. rewrite A1. apply (ts_name names _ _ l q w1 c1 r1); [rewrite <- app_assoc; reflexivity|exact FR|exact W1|exact NL1|intros Z; apply name_byte_b in Z; congruence| |].
    - apply (sync_breaks _ _ _ _ _ Y).
      + exists []. rewrite app_nil_r. exists []. split; [apply rt_none, W1|]. split; [constructor|]. intros k [].
      + intros y k. apply no_name; auto. intros Z. apply name_byte_b in Z. congruence.
    - pose proof (place_at "Invalid tag name (empty), expecting name at position " _ _ _ _ H3) as B.
      cbn [rev app] in B. rewrite !app_length, !rev_length in *. replace (length q + length w1) with (length w1 + length p) by lia. exact B. }
  assert (N : tag_name (n0 :: n')).
  { split; [discriminate|]. apply (forallb_Forall _ _ _ name_byte_b). exact (span_all _ _ _ _ E2). }
  remember (n0 :: n') as n eqn:EN.
  destruct (GetTag n tags) as [e0|] eqn:GT.
  { injection X as <-. rewrite A1, A2. apply (ts_twice names _ _ l q w1 n r2); auto.
    - destruct r2 as [|k r2]; [exact I|]. cbn. intros Z. apply name_byte_b in Z. congruence.
    - apply K, GetTag_In. eauto.
    - rewrite name_c_str by exact N. reflexivity. }
  apply GetTag_None in GT.
  assert (BG : begun names l q w1 n).
  { split; [exact FR|]. split; [exact W1|]. split; [exact N|]. split; intros Z; apply GT, K; apply in_or_app; auto. }
  rewrite (St_fuel _ _ _ H3) in X. destruct (span is_lwsp r2) as [w2 r3] eqn:E3.
  destruct (skip_loose_St (S (length r2)) s3 _ r2 w2 r3 H3 E3 ltac:(lia)) as (s4 & P4 & H4 & G4). rewrite P4 in X. cbn [quiet sbind] in X.
  pose proof (span_length _ _ _ _ E3) as L3. pose proof (span_app _ _ _ _ E3) as A3.
  pose proof (span_all _ _ _ _ E3) as W2. apply (forallb_Forall _ _ _ is_lwsp_LWSP) in W2. pose proof (span_stop _ _ _ _ E3) as S3.
  assert (EN2 : ends_name r2).
  { destruct r2 as [|k r2]; [exact I|]. cbn. intros Z. apply name_byte_b in Z. congruence. }
  assert (GO : can_go_on (tags_ok (keys tags)) (w1 ++ n ++ w2)).
  { exists (EQUALS :: []). rewrite <- !app_assoc. cbn [app]. destruct (rt_plain (keys tags) w1 n w2 [] W1 N W2 eq_refl GT) as (v & _ & T). exact T. }
  assert (TX : r = w1 ++ n ++ w2 ++ r3) by (rewrite A1, A2, A3; reflexivity).
  destruct r3 as [|e r4].
  { revert X. peek_at H4. intros X. injection X as <-. rewrite (byte_place_end _ _ _ _ H0 G).
    rewrite app_nil_r in TX. apply (ts_end names _ _ l q w1 n w2); [rewrite TX; reflexivity|exact BG|exact W2| |reflexivity]. rewrite TX. split.
    - intros T. apply Y in T. destruct T as (k & RK & _). rewrite <- (app_nil_r (w1 ++ n ++ w2)), <- !app_assoc in RK. revert RK.
      apply no_equals; auto. rewrite <- A3. exact EN2.
    - apply (sync_go_on _ _ _ _ Y). exact GO. }
  revert X. peek_at H4. intros X. destruct (e =?c EQUALS) eqn:EQ.
  2:{ injection X as <-. apply ceqb_neq in EQ. rewrite TX. apply (ts_equals names _ _ l q w1 n w2 e r4); [rewrite <- !app_assoc; reflexivity|exact BG|exact W2|intros Z; apply is_lwsp_LWSP in Z; congruence|exact EQ|rewrite A3 in EN2; destruct w2; exact EN2| |].
      - apply (sync_breaks _ _ _ _ _ Y GO). intros y k. rewrite <- !app_assoc. apply no_equals; auto.
        + rewrite A3 in EN2. destruct w2; exact EN2.
        + split; [|exact EQ]. intros Z. apply is_lwsp_LWSP in Z. congruence.
      - pose proof (byte_place_at "Invalid tag list; unexpected 0x" ", expecting = at position " _ _ _ _ H4) as B.
        rewrite !app_length, !rev_length in *. replace (length q + (length w1 + (length n + length w2))) with (length w2 + (length n + (length w1 + length p))) by lia.
        exact B. }
  apply ceqb_eq in EQ. subst e. revert X. get_at H4. intros X. rewrite (St_fuel _ _ _ H0) in X. destruct (span is_lwsp r4) as [w3 r5] eqn:E5.
  destruct (skip_loose_St (S (length r4)) s0 _ r4 w3 r5 H0 E5 ltac:(lia)) as (s7 & P7 & H7 & G7). rewrite P7 in X. cbn [quiet sbind] in X.
  pose proof (span_length _ _ _ _ E5) as L5. pose proof (span_app _ _ _ _ E5) as A5. pose proof (span_all _ _ _ _ E5) as W3. cbn [length] in L1, L2, L3.
  destruct (span is_valws r5) as [b r6] eqn:E6.
  pose proof (span_length _ _ _ _ E6) as L6. pose proof (span_app _ _ _ _ E6) as A6. pose proof (span_all _ _ _ _ E6) as B6. pose proof (span_stop _ _ _ _ E6) as S6.
  set (p7 := rev w3 ++ EQUALS :: rev w2 ++ rev n ++ rev w1 ++ p) in *.
  assert (TG : exists s8, tellg s7 = (match r5 with [] => (-1)%Z | _ => Z.of_nat (length p7) end, s8) /\ St s8 p7 r5).
  { destruct r5 as [|c5 r5].
    - apply tellg_nil; auto.
    - exists s7. split; auto. apply (tellg_cons _ _ _ _ H7). }
  destruct TG as (s8 & PT & H8). rewrite PT in X. rewrite (St_fuel _ _ _ H8) in X.
  assert (B36 : forallb is_valws (w3 ++ b) = true).
  { rewrite forallb_app', B6, andb_true_r. rewrite forallb_forall in W3 |- *. intros k Z. unfold is_valws. rewrite (W3 k Z). apply orb_true_r. }
  assert (TX6 : r = w1 ++ n ++ w2 ++ EQUALS :: (w3 ++ b) ++ r6) by (rewrite TX, A5, A6, <- app_assoc; reflexivity).
  assert (LP7 : length p7 = length q + length w1 + length n + length w2 + 1 + length w3).
  { subst p7. repeat (rewrite app_length; cbn [length]). rewrite !rev_length. lia. }
  destruct r6 as [|x r7].
  { destruct (value_fine (S (length r5)) s8 p7 r5 b [] [] [] H8 E6 ltac:(lia) eq_refl I) as (s9 & P9 & H9). rewrite P9 in X. cbn [sbind] in X.
    revert X. get_at H9. discriminate. }
  destruct (x =?c SEMI) eqn:XS.
  - apply ceqb_eq in XS. subst x.
    destruct (value_fine (S (length r5)) s8 p7 r5 b (SEMI :: r7) [] [] H8 E6 ltac:(lia) eq_refl eq_refl) as (s9 & P9 & H9). rewrite P9 in X. cbn [sbind] in X.
    revert X. get_at H9. intros X.
    replace (q ++ r) with ((q ++ w1 ++ n ++ w2 ++ EQUALS :: (w3 ++ b) ++ [SEMI]) ++ r7)
      by (rewrite TX6; repeat (rewrite <- !app_assoc; cbn [app]); reflexivity).
    destruct (tag_more w1 n w2 (w3 ++ b) [] [] W1 N W2 B36 (rt_none _ (Forall_nil _))) as (v & RV).
    refine (IH _ _ _ _ _ _ (l ++ [(n, v)]) _ H2 _ _ _ _ _ X).
    + cbn [length] in *. lia.
    + subst p7 p. rewrite !rev_app_distr. cbn [rev]. rewrite !rev_app_distr. cbn [rev app]. repeat (rewrite <- !app_assoc; cbn [app]). reflexivity.
    + apply (sync_app _ _ _ _ _ Y). apply tag_sync; auto. intros k. unfold keys. rewrite map_app, in_app_iff. cbn [map fst In]. intuition congruence.
    + destruct BG as (_ & _ & _ & NI1 & NI2). split; [|split; [|split]].
      * right. exists (q ++ w1 ++ n ++ w2 ++ EQUALS :: (w3 ++ b)). repeat (rewrite <- !app_assoc; cbn [app]). reflexivity.
      * apply rendered_snoc; auto.
      * rewrite map_app. cbn [map fst]. apply NoDup_snoc; auto.
      * intros k. rewrite map_app, in_app_iff. cbn [map fst In]. intros [Z|[<-|[]]]; auto.
    + intros k. unfold keys in *. rewrite map_app, map_app, !in_app_iff, K, in_app_iff. cbn [map fst In]. tauto.
  - apply ceqb_neq in XS.
    assert (NVX : ~ value_byte x /\ ~ LWSP x) by (cbn in S6; split; intros Z; assert (is_valws x = true) by (apply valws_iff; auto); congruence).
    destruct (value_says (S (length r5)) s8 p7 r5 b x r7 [] [] H8 E6 ltac:(lia) XS) as (m' & P9 & B). rewrite P9 in X. cbn [sbind] in X. injection X as <-.
    rewrite TX6. apply (ts_value names _ _ l q w1 n w2 (w3 ++ b) x r7); [repeat (rewrite <- !app_assoc; cbn [app]); reflexivity|exact BG|exact W2|apply (forallb_Forall _ _ _ valws_iff); exact B36|apply NVX|apply NVX|exact XS| |].
    + apply (sync_breaks _ _ _ _ _ Y).
      * exists []. rewrite app_nil_r. destruct (rt_plain (keys tags) w1 n w2 (w3 ++ b) W1 N W2 B36 GT) as (v & _ & T). exact T.
      * intros y k. replace ((w1 ++ n ++ w2 ++ EQUALS :: w3 ++ b) ++ x :: y) with (w1 ++ n ++ w2 ++ EQUALS :: (w3 ++ b) ++ x :: y)
          by (repeat (rewrite <- !app_assoc; cbn [app]); reflexivity).
        apply no_value; auto.
    + repeat (rewrite !app_length; cbn [length]). replace (length q + (length w1 + (length n + (length w2 + S (length w3 + length b))))) with (length p7 + length b) by lia.
      exact B.
Qed.
Theorem tags_says tags t m : TagList_says tags t = Says m -> tags_say (keys tags) t m.
Proof.
  unfold TagList_says. intros X. rewrite (St_fuel _ _ _ (St_open t)) in X.
  refine (loop_tells _ _ _ _ _ [] (keys tags) [] m (St_open t) _ eq_refl _ _ _ X).
  - lia.
  - intros x. reflexivity.
  - split; [left; reflexivity|]. split; [apply rt_none; constructor|]. split; [constructor|intros n []].
  - intros n. cbn [map app]. tauto.
Qed.

(** ** One thing is said *)
Lemma last_no_end w1 n w2 w3 v w4 : tag_name n -> Forall LWSP w3 -> tag_value v -> Forall LWSP w4 -> ~ tags_end (w1 ++ n ++ w2 ++ EQUALS :: w3 ++ v ++ w4).
Proof.
  intros N W3 V W4 [E|[q0 E]].
  { destruct w1; [destruct n; [destruct N; congruence|]|]; discriminate E. }
  assert (Z : ~ In SEMI (w3 ++ v ++ w4)).
  { intros I. rewrite !in_app_iff in I. destruct V as (FV & _). rewrite Forall_forall in W3, FV, W4.
    destruct I as [I|[I|I]]; [exact (LWSP_semi (W3 _ I))| |exact (LWSP_semi (W4 _ I))].
    destruct (FV _ I) as [[_ X1]|X1]; [congruence|exact (LWSP_semi X1)]. }
  assert (Y : In SEMI (EQUALS :: w3 ++ v ++ w4)).
  { assert (L : last (w1 ++ n ++ w2 ++ EQUALS :: w3 ++ v ++ w4) EQUALS = SEMI) by (rewrite E; apply last_last).
    replace (w1 ++ n ++ w2 ++ EQUALS :: w3 ++ v ++ w4) with ((w1 ++ n ++ w2) ++ EQUALS :: w3 ++ v ++ w4) in L by (rewrite <- !app_assoc; reflexivity).
    rewrite last_app_cons in L. rewrite <- L. apply last_In. discriminate. }
  destruct Y as [Y|Y]; [discriminate Y|tauto].
Qed.
Lemma end_behind a t : tags_end (a ++ t) -> a <> [] -> tags_end t.
Proof.
  intros E N. destruct t as [|c t]; [left; reflexivity|right]. destruct E as [E|[q0 E]]; [destruct a; [congruence|discriminate E]|].
  exists (removelast (c :: t)). assert (L : last (a ++ c :: t) EQUALS = SEMI) by (rewrite E; apply last_last).
  rewrite last_app_cons in L. rewrite <- L at 1. apply app_removelast_last. discriminate.
Qed.
Inductive told : list bytes -> bytes -> nat -> bytes -> Prop :=
| to_name names w c u k m : Forall LWSP w -> ~ LWSP c -> ~ name_byte c ->
    at_place "Invalid tag name (empty), expecting name at position " m (k + length w) -> told names (w ++ c :: u) k m
| to_twice names w n u k m : Forall LWSP w -> tag_name n -> ends_name u -> In n names -> m = str "Duplicate tag name (" ++ n ++ str ")" ->
    told names (w ++ n ++ u) k m
| to_end names w n w2 k m : Forall LWSP w -> tag_name n -> Forall LWSP w2 -> ~ In n names ->
    m = str "Invalid tag list; unexpected 0xff, expecting = at position -1" -> told names (w ++ n ++ w2) k m
| to_equals names w n w2 c u k m : Forall LWSP w -> tag_name n -> Forall LWSP w2 -> ~ In n names -> ~ LWSP c -> c <> EQUALS ->
    ends_name (w2 ++ c :: u) -> byte_at "Invalid tag list; unexpected 0x" ", expecting = at position " m c (k + (length w + (length n + length w2))) ->
    told names (w ++ n ++ w2 ++ c :: u) k m
| to_value names w n w2 b c u k m : Forall LWSP w -> tag_name n -> Forall LWSP w2 -> ~ In n names -> forallb is_valws b = true -> is_valws c = false -> c <> SEMI ->
    byte_at "Invalid tag value (invalid data), unexpected 0x" " at position " m c (k + (length w + (length n + (length w2 + S (length b))))) ->
    told names (w ++ n ++ w2 ++ EQUALS :: b ++ c :: u) k m
| to_tag names names' w n w2 b x k m : Forall LWSP w -> tag_name n -> Forall LWSP w2 -> ~ In n names -> forallb is_valws b = true ->
    (forall y, In y names' <-> In y names \/ y = n) -> told names' x (k + (length w + (length n + (length w2 + (2 + length b))))) m ->
    told names (w ++ n ++ w2 ++ EQUALS :: b ++ SEMI :: x) k m.
Definition parted (names : list bytes) (t : bytes) (k : nat) (m : bytes) : Prop :=
  let '(w, r1) := span is_lwsp t in
  let '(n, r2) := span is_namechar r1 in
  let '(w2, r3) := span is_lwsp r2 in
  (n = [] /\ r1 <> [] /\ at_place "Invalid tag name (empty), expecting name at position " m (k + length w)) \/
  (n <> [] /\ In n names /\ m = str "Duplicate tag name (" ++ n ++ str ")") \/
  (n <> [] /\ ~ In n names /\
   match r3 with
   | [] => m = str "Invalid tag list; unexpected 0xff, expecting = at position -1"
   | c :: r4 =>
       if c =?c EQUALS then
         let '(b, r5) := span is_valws r4 in
         match r5 with
         | [] => False
         | d :: x =>
             if d =?c SEMI then exists names', (forall y, In y names' <-> In y names \/ y = n) /\ length x < length t /\
                                 told names' x (k + (length w + (length n + (length w2 + (2 + length b))))) m
             else byte_at "Invalid tag value (invalid data), unexpected 0x" " at position " m d (k + (length w + (length n + (length w2 + S (length b)))))
         end
       else byte_at "Invalid tag list; unexpected 0x" ", expecting = at position " m c (k + (length w + (length n + length w2)))
   end).
Lemma lwsp_no c : ~ LWSP c -> is_lwsp c = false.
Proof. intros N. destruct (is_lwsp c) eqn:X; auto. apply is_lwsp_LWSP in X. contradiction. Qed.
Lemma lead w n r : Forall LWSP w -> tag_name n -> ends_name r -> span is_lwsp (w ++ n ++ r) = (w, n ++ r) /\ span is_namechar (n ++ r) = (n, r) /\ n <> [].
Proof.
  intros W N E. split; [|split].
  - destruct (name_first n r N) as (c & n' & _ & X & ->). rewrite lwsp_stop; auto.
  - apply name_stop; auto. apply ends_name_b. exact E.
  - apply N.
Qed.
Lemma told_parted names t k m : told names t k m -> parted names t k m.
Proof.
  intros [N0 w c u k0 m0 W NL NN M|N0 w n u k0 m0 W N EN I M|N0 w n w2 k0 m0 W N W2 I M|N0 w n w2 c u k0 m0 W N W2 I NL NE EN M|N0 w n w2 b c u k0 m0 W N W2 I B NV NS M
    |N0 names' w n w2 b x k0 m0 W N W2 I B S T]; unfold parted.
  - rewrite lwsp_stop; auto using lwsp_no. cbn [span]. destruct (is_namechar c) eqn:X; [apply name_byte_b in X; contradiction|]. cbn [span]. rewrite (lwsp_no c NL). left. split; [reflexivity|]. split; [discriminate|exact M].
  - destruct (lead w n u W N EN) as (-> & -> & NE). destruct (span is_lwsp u) as [w2 r3]. auto.
  - destruct (lead w n w2 W N) as (-> & -> & NE). { rewrite <- (app_nil_r w2). apply lwsp_ends_name; [exact W2|exact Logic.I]. }
    assert (span is_lwsp w2 = (w2, [])) as -> by (rewrite <- (app_nil_r w2) at 1; apply lwsp_stop; auto). auto.
  - destruct (lead w n (w2 ++ c :: u) W N EN) as (-> & -> & NN). rewrite lwsp_stop by (auto using lwsp_no). right. right. rewrite (ceqb_false _ _ NE). auto.
  - destruct (lead w n (w2 ++ EQUALS :: b ++ c :: u) W N (eq_ends _ _ W2)) as (-> & -> & NN). rewrite lwsp_stop by auto. right. right. rewrite ceqb_refl.
    rewrite (span_intro is_valws b (c :: u)) by auto. rewrite (ceqb_false _ _ NS). auto.
  - destruct (lead w n (w2 ++ EQUALS :: b ++ SEMI :: x) W N (eq_ends _ _ W2)) as (-> & -> & NN). rewrite lwsp_stop by auto. right. right. rewrite ceqb_refl.
    rewrite (span_intro is_valws b (SEMI :: x)) by (auto using valws_semi). rewrite ceqb_refl. split; [exact NN|]. split; [exact I|]. exists names'. split; [exact S|]. split; [|exact T].
    repeat (rewrite app_length; cbn [length]). lia.
Qed.
Lemma told_fun L : forall t, length t < L -> forall names names' k m m', (forall y, In y names <-> In y names') -> told names t k m -> told names' t k m' -> m = m'.
Proof.
  induction L as [|L IH]; intros t LT names names' k m m' S A B; [lia|]. apply told_parted in A. apply told_parted in B. unfold parted in A, B.
  destruct (span is_lwsp t) as [w r1]. destruct (span is_namechar r1) as [n r2]. destruct (span is_lwsp r2) as [w2 r3].
  destruct A as [(N & _ & A)|[(N & I & A)|(N & I & A)]]; destruct B as [(N' & _ & B)|[(N' & I' & B)|(N' & I' & B)]]; try contradiction; try congruence;
    try (exfalso; apply S in I; contradiction); try (exfalso; apply S in I'; contradiction); try (eapply at_place_fun; eauto; fail).
  destruct r3 as [|c r4]; [congruence|]. destruct (c =?c EQUALS); [|eapply byte_at_fun; eauto]. destruct (span is_valws r4) as [b [|d x]]; [contradiction|].
  destruct (d =?c SEMI); [|eapply byte_at_fun; eauto]. destruct A as (n1 & S1 & L1 & A). destruct B as (n2 & S2 & _ & B).
  refine (IH x _ n1 n2 _ m m' _ A B); [lia|]. intros y. rewrite S1, S2, S. tauto.
Qed.
Lemma told_front l q : rendered_tags l q -> tags_end q -> forall names names' r k m, NoDup (map fst l) -> (forall n, In n (map fst l) -> ~ In n names) ->
  (forall y, In y names' <-> In y (map fst l) \/ In y names) -> told names' r (k + length q) m -> exists names0, (forall y, In y names0 <-> In y names) /\ told names0 (q ++ r) k m.
Proof.
  induction 1 as [w W|w1 n w2 w3 v w4 W1 N W2 W3 V W4|w1 n w2 w3 v w4 l t W1 N W2 W3 V W4 R IH]; intros E names names' r k m ND DJ SE T.
  - destruct E as [->|[q0 ->]]; [|exfalso; apply Forall_app in W as [_ W]; inversion W; subst; apply LWSP_semi; auto].
    exists names'. split; [intros y; rewrite SE; cbn; tauto|]. cbn [app length] in *. rewrite Nat.add_0_r in T. exact T.
  - exfalso. exact (last_no_end w1 n w2 w3 v w4 N W3 V W4 E).
  - cbn [map fst] in *. inversion ND as [|? ? NI ND']; subst.
    assert (E' : tags_end t).
    { apply (end_behind (w1 ++ n ++ w2 ++ EQUALS :: w3 ++ v ++ w4 ++ [SEMI])).
      - repeat (rewrite <- !app_assoc; cbn [app]). exact E.
      - destruct w1; [destruct n; [destruct N; congruence|]|]; discriminate. }
    destruct (IH E' (n :: names) names' r (k + (length w1 + (length n + (length w2 + (2 + length (w3 ++ v ++ w4)))))) m) as (n0 & S0 & T0); auto.
    + intros y I [->|J]; [contradiction|]. apply (DJ y (or_intror I) J).
    + intros y. rewrite SE. cbn [In]. tauto.
    + revert T. repeat (rewrite app_length; cbn [length]). intros T.
      replace (k + (length w1 + (length n + (length w2 + (2 + (length w3 + (length v + length w4)))))) + length t)
        with (k + (length w1 + (length n + (length w2 + S (length w3 + (length v + (length w4 + S (length t)))))))) by lia. exact T.
    + exists names. split; [tauto|].
      replace ((w1 ++ n ++ w2 ++ EQUALS :: w3 ++ v ++ w4 ++ SEMI :: t) ++ r) with (w1 ++ n ++ w2 ++ EQUALS :: (w3 ++ v ++ w4) ++ SEMI :: (t ++ r))
        by (repeat (rewrite <- !app_assoc; cbn [app]); reflexivity).
      apply (to_tag names n0); auto.
      * apply DJ. left. reflexivity.
      * apply (forallb_Forall _ _ _ valws_iff). rewrite !Forall_app. destruct V as (FV & _). split; [|split]; [|exact FV|]; eapply Forall_impl; [|exact W3| |exact W4]; cbn; tauto.
      * intros y. rewrite S0. cbn [In]. intuition congruence.
Qed.
Lemma tags_say_told names t m : tags_say names t m -> exists names0, (forall y, In y names0 <-> In y names) /\ told names0 t 0 m.
Proof.
  assert (FRONT : forall l q r names' , front names l q -> (forall y, In y names' <-> In y (map fst l) \/ In y names) -> told names' r (length q) m ->
    exists names0, (forall y, In y names0 <-> In y names) /\ told names0 (q ++ r) 0 m).
  { intros l q r names' (E & R & ND & DJ) S T. eapply (told_front l q R E names names' r 0 m); eauto. }
  assert (SET : forall l y, In y (map fst l ++ names) <-> In y (map (@fst bytes bytes) l) \/ In y names) by (intros; apply in_app_iff).
  intros [l q w c u -> F W NL NN B M|l q w n w2 c u -> (F & W & N & I1 & I2) W2 NL NE EN B M|l q w n w2 b c u -> (F & W & N & I1 & I2) W2 FB NV NL NS B M
         |l q w n u -> F W N EN I M|l q w n w2 -> (F & W & N & I1 & I2) W2 U M].
  - rewrite <- app_assoc. apply (FRONT l q _ _ F (SET l)). apply to_name; auto. rewrite app_length in M. exact M.
  - rewrite <- !app_assoc. cbn [app]. apply (FRONT l q _ _ F (SET l)). apply to_equals; auto.
    + rewrite in_app_iff. tauto.
    + destruct w2; exact EN.
    + rewrite !app_length in M. exact M.
  - repeat (rewrite <- !app_assoc; cbn [app]). apply (FRONT l q _ _ F (SET l)). apply to_value; auto.
    + rewrite in_app_iff. tauto.
    + apply (forallb_Forall _ _ _ valws_iff). exact FB.
    + destruct (is_valws c) eqn:X; auto. apply valws_iff in X. tauto.
    + revert M. repeat (rewrite app_length; cbn [length]). auto.
  - apply (FRONT l q _ _ F (SET l)). apply to_twice; auto.
  - apply (FRONT l q _ _ F (SET l)). apply to_end; auto. rewrite in_app_iff. tauto.
Qed.
Lemma tags_say_fun names t m m' : tags_say names t m -> tags_say names t m' -> m = m'.
Proof.
  intros A B. apply tags_say_told in A as (n1 & S1 & A). apply tags_say_told in B as (n2 & S2 & B).
  eapply (told_fun (S (length t)) t); [lia| |exact A|exact B]. intros y. rewrite S1, S2. tauto.
Qed.
(** What is said is said of no good text. *)
Lemma told_bad l t : rendered_tags l t -> forall names k m, NoDup (map fst l) -> (forall n, In n (map fst l) -> ~ In n names) -> told names t k m -> False.
Proof.
  assert (VB : forall w3 v w4, Forall LWSP w3 -> tag_value v -> Forall LWSP w4 -> forallb is_valws (w3 ++ v ++ w4) = true).
  { intros w3 v w4 W3 (FV & _) W4. apply (forallb_Forall _ _ _ valws_iff). rewrite !Forall_app. split; [|split]; [|exact FV|]; eapply Forall_impl; [|exact W3| |exact W4]; cbn; tauto. }
  induction 1 as [w W|w1 n w2 w3 v w4 W1 N W2 W3 V W4|w1 n w2 w3 v w4 l t W1 N W2 W3 V W4 R IH]; intros names k m ND DJ T; apply told_parted in T; unfold parted in T.
  - assert (span is_lwsp w = (w, [])) as X by (rewrite <- (app_nil_r w) at 1; apply lwsp_stop; auto). rewrite X in T. cbn [span] in T.
    destruct T as [(_ & H & _)|[(H & _)|(H & _)]]; congruence.
  - destruct (lead w1 n (w2 ++ EQUALS :: w3 ++ v ++ w4) W1 N (eq_ends _ _ W2)) as (X & X2 & NN). rewrite X, X2 in T. rewrite lwsp_stop in T by auto.
    destruct T as [(H & _)|[(_ & H & _)|(_ & _ & T)]]; [congruence|exact (DJ n (or_introl eq_refl) H)|]. rewrite ceqb_refl in T.
    rewrite <- (app_nil_r (w3 ++ v ++ w4)) in T. rewrite (span_intro is_valws (w3 ++ v ++ w4) []) in T; [exact T|auto|exact Logic.I].
  - destruct (lead w1 n (w2 ++ EQUALS :: w3 ++ v ++ w4 ++ SEMI :: t) W1 N (eq_ends _ _ W2)) as (X & X2 & NN). rewrite X, X2 in T. rewrite lwsp_stop in T by auto.
    destruct T as [(H & _)|[(_ & H & _)|(_ & _ & T)]]; [congruence|exact (DJ n (or_introl eq_refl) H)|]. rewrite ceqb_refl in T.
    replace (w3 ++ v ++ w4 ++ SEMI :: t) with ((w3 ++ v ++ w4) ++ SEMI :: t) in T by (rewrite <- !app_assoc; reflexivity).
    rewrite (span_intro is_valws (w3 ++ v ++ w4) (SEMI :: t)) in T by (auto using valws_semi). rewrite ceqb_refl in T. destruct T as (names' & S & _ & T).
    cbn [map fst] in *. inversion ND as [|? ? NI ND']; subst. eapply (IH names'); eauto. intros y I J. apply S in J as [J|J]; [|subst y; contradiction]. apply (DJ y (or_intror I) J).
Qed.
Lemma tags_say_bad names t m : tags_say names t m -> ~ tags_ok names t.
Proof.
  intros A (l & R & ND & DJ). apply tags_say_told in A as (n1 & S1 & A). refine (told_bad l t R n1 0 m ND _ A). intros n I J. apply S1 in J. exact (DJ n I J).
Qed.
