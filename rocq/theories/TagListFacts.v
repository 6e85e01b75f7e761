(** TagList::Parse: proofs. *)
From Verif Require Import Bytes Outcome Stream Tokenizer TagList BytesFacts StreamFacts
  TokenizerFacts SpecText SpecTags QPFacts ListFacts Base64Facts.

(** ** Classes *)
Lemma name_byte_b c : is_namechar c = true <-> name_byte c.
Proof.
  unfold is_namechar, is_alnum, is_upper, is_lower, is_digit, name_byte.
  rewrite !orb_true_iff, !in_range_between, ceqb_eq. tauto.
Qed.
Lemma value_byte_b c : is_valchar c = true <-> value_byte c.
Proof.
  unfold value_byte, printable.
  enough (Hb : forall c, Bool.eqb (is_valchar c) (in_range 33 126 c && negb (c =?c SEMI)) = true).
  { specialize (Hb c). apply Bool.eqb_prop in Hb. rewrite Hb, andb_true_iff, negb_true_iff, ceqb_neq, in_range_between. tauto. }
  apply byte_sweep. vm_compute. reflexivity.
Qed.
Lemma forallb_Forall (p : ascii -> bool) (P : ascii -> Prop) l :
  (forall c, p c = true <-> P c) -> (forallb p l = true <-> Forall P l).
Proof. intros H. rewrite forallb_forall, Forall_forall. split; intros K x I; apply H, K, I. Qed.

Lemma val_not_lwsp c : is_valchar c = true -> is_lwsp c = false.
Proof.
  intros V. destruct (is_lwsp c) eqn:L; auto.
  assert (X : negb (is_valchar c && is_lwsp c) = true).
  { revert c V L. enough (forall c, negb (is_valchar c && is_lwsp c) = true) by auto. apply byte_sweep. reflexivity. }
  rewrite V, L in X. discriminate.
Qed.

(** ** Removing whitespace at the end *)
Definition rstrip (x : bytes) : bytes := rev (snd (span is_lwsp (rev x))).

Lemma span_app_stop p (a b : bytes) c : forallb p a = true -> p c = false -> span p (a ++ c :: b) = (a, c :: b).
Proof. intros. apply span_intro; auto. Qed.
Lemma span_forall p (a : bytes) : forallb p a = true -> span p a = (a, []).
Proof. intros H. rewrite <- (app_nil_r a) at 1. apply span_intro; auto. Qed.

Lemma rstrip_all x : forallb is_lwsp x = true -> rstrip x = [].
Proof.
  intros H. unfold rstrip. rewrite span_forall; auto.
  rewrite forallb_forall in *. intros y I. apply H. apply in_rev. auto.
Qed.
Lemma rstrip_cons a c b : is_lwsp c = false -> rstrip (a ++ c :: b) = a ++ c :: rstrip b.
Proof.
  intros N. unfold rstrip. rewrite rev_app_distr. cbn [rev]. rewrite <- app_assoc. cbn [app].
  destruct (span is_lwsp (rev b)) as [x y] eqn:E.
  pose proof (span_app _ _ _ _ E) as EA. pose proof (span_all _ _ _ _ E) as AL. pose proof (span_stop _ _ _ _ E) as ST.
  destruct y as [|d y].
  - rewrite app_nil_r in EA. rewrite EA, span_app_stop; auto. cbn [snd rev].
    rewrite rev_involutive. reflexivity.
  - rewrite EA, <- app_assoc. cbn [app]. rewrite span_app_stop; auto. cbn [snd].
    replace (d :: y ++ c :: rev a) with ((d :: y) ++ c :: rev a) by reflexivity.
    rewrite rev_app_distr. cbn [rev]. rewrite rev_involutive, <- !app_assoc. reflexivity.
Qed.

(** ** The readers on lists *)
Lemma skip_loose_St f : forall s p r w r', St s p r -> span is_lwsp r = (w, r') -> length r < f ->
  exists s', skip_loose f s = Ok s' /\ St s' (rev w ++ p) r' /\ (r' = [] -> good s' = false).
Proof.
  induction f as [|f IH]; intros s p r w r' H E L; [lia|]. cbn [skip_loose].
  destruct r as [|c r].
  - injection E as <- <-. destruct (read_loose_no s p [] H I) as (s' & P & H' & G). rewrite P. eauto.
  - cbn [span] in E. destruct (is_lwsp c) eqn:W.
    + destruct (span is_lwsp r) as [w1 r1] eqn:E1. injection E as <- <-.
      destruct (read_loose_yes s p c r H W) as (s' & P & H'). rewrite P. cbn [length] in L.
      destruct (IH s' _ r w1 r1 H' E1 ltac:(lia)) as (s2 & P2 & H2 & G2). exists s2. split; auto. split; auto.
      cbn [rev]. rewrite <- app_assoc. exact H2.
    + injection E as <- <-. destruct (read_loose_no s p (c :: r) H W) as (s' & P & H' & G). rewrite P. eauto.
Qed.

Lemma tl_name_rest_St f : forall s p r n r' name, St s p r -> span is_namechar r = (n, r') -> length r < f ->
  exists s', tl_name_rest f s name = Ok (name ++ n, s') /\ St s' (rev n ++ p) r'.
Proof.
  induction f as [|f IH]; intros s p r n r' name H E L; [lia|]. cbn [tl_name_rest].
  destruct r as [|c r].
  - injection E as <- <-. peek_at H. rewrite app_nil_r. eauto.
  - cbn [span] in E. peek_at H. destruct (is_namechar c) eqn:W.
    + destruct (span is_namechar r) as [w1 r1] eqn:E1. injection E as <- <-. get_at H. cbn [as_char length] in *.
      destruct (IH s0 _ r w1 r1 (name ++ [c]) H0 E1 ltac:(lia)) as (s2 & P2 & H2). exists s2.
      rewrite P2, <- app_assoc. split; auto. cbn [rev]. rewrite <- app_assoc. exact H2.
    + injection E as <- <-. rewrite app_nil_r. eauto.
Qed.

Lemma tl_name_St s p r n r' : St s p r -> span is_namechar r = (n, r') ->
  exists s', tl_name s = Ok (n, s') /\ St s' (rev n ++ p) r'.
Proof.
  intros H E. unfold tl_name. destruct r as [|c r].
  - injection E as <- <-. peek_at H. rewrite (St_fuel _ _ _ H0).
    destruct (tl_name_rest_St (S (length (@nil ascii))) s0 p [] [] [] [] H0 eq_refl ltac:(cbn; lia)) as (s' & P & H'). rewrite P. eauto.
  - peek_at H. destruct (is_alnum c) eqn:W.
    + cbn [span] in E. assert (NC : is_namechar c = true) by (unfold is_namechar; rewrite W; reflexivity).
      rewrite NC in E. destruct (span is_namechar r) as [n1 r1] eqn:E1. injection E as <- <-.
      get_at H. rewrite (St_fuel _ _ _ H0). cbn [as_char].
      destruct (tl_name_rest_St (S (length r)) s0 _ r n1 r1 [c] H0 E1 ltac:(lia)) as (s' & P & H'). rewrite P.
      exists s'. split; auto. cbn [rev]. rewrite <- app_assoc. exact H'.
    + rewrite (St_fuel _ _ _ H).
      destruct (tl_name_rest_St (S (length (c :: r))) s p (c :: r) n r' [] H E ltac:(lia)) as (s' & P & H'). rewrite P. eauto.
Qed.

Definition is_valws (c : ascii) : bool := is_valchar c || is_lwsp c.

Lemma valws_semi : is_valws SEMI = false. Proof. reflexivity. Qed.

Definition ends_value (r : bytes) : Prop := match r with [] => True | c :: _ => c = SEMI end.

Lemma tl_value_St f : forall s p r b r' value vbuf, St s p r -> span is_valws r = (b, r') -> length r < f ->
  forallb is_lwsp vbuf = true ->
  (ends_value r' /\ exists s', tl_value f s value vbuf = Ok (value ++ rstrip (vbuf ++ b), s') /\ St s' (rev b ++ p) r') \/
  (~ ends_value r' /\ tl_value f s value vbuf = perm).
Proof.
  induction f as [|f IH]; intros s p r b r' value vbuf H E L V; [lia|]. cbn [tl_value].
  destruct r as [|c r].
  - injection E as <- <-. peek_at H. left. split; [exact I|]. rewrite app_nil_r, rstrip_all, app_nil_r by auto. eauto.
  - peek_at H. cbn [span] in E. destruct (c =?c SEMI) eqn:C.
    { apply ceqb_eq in C. subst c. rewrite valws_semi in E. injection E as <- <-.
      left. split; [reflexivity|]. rewrite app_nil_r, rstrip_all, app_nil_r by auto. eauto. }
    unfold is_valws in E at 1. destruct (is_valchar c) eqn:VC; cbn [orb] in E.
    + destruct (span is_valws r) as [b1 r1] eqn:E1. injection E as <- <-. get_at H. cbn [as_char length] in *.
      destruct (IH s0 _ r b1 r1 (value ++ vbuf ++ [c]) [] H0 E1 ltac:(lia) eq_refl) as [(EV & s' & P & H')|(EV & P)].
      * left. split; auto. exists s'. rewrite P. split.
        -- f_equal. f_equal. rewrite rstrip_cons by (apply val_not_lwsp; auto). cbn [app]. rewrite <- !app_assoc. reflexivity.
        -- cbn [rev]. rewrite <- app_assoc. exact H'.
      * right. auto.
    + destruct (is_lwsp c) eqn:W.
      * destruct (span is_valws r) as [b1 r1] eqn:E1. injection E as <- <-.
        destruct (read_loose_yes s p c r H W) as (s' & P & H'). rewrite P. cbn [length] in L.
        destruct (IH s' _ r b1 r1 value (vbuf ++ [c]) H' E1 ltac:(lia)) as [(EV & s2 & P2 & H2)|(EV & P2)].
        { rewrite forallb_app', V. cbn. rewrite W. reflexivity. }
        -- left. split; auto. exists s2. rewrite P2. split.
           ++ rewrite <- app_assoc. reflexivity.
           ++ cbn [rev]. rewrite <- app_assoc. exact H2.
        -- right. auto.
      * injection E as <- <-. destruct (read_loose_no s p (c :: r) H W) as (s' & P & H' & G). rewrite P.
        right. split; auto. cbn. apply ceqb_neq. auto.
Qed.

(** ** The whole parser on a list, without the check for duplicates *)
Definition entry_at (pos : nat) (r5 b : bytes) : tag_entry :=
  mkEntry (rstrip b) (match r5 with [] => (-1)%Z | _ => Z.of_nat pos end).

Fixpoint l_tags (f pos : nat) (r : bytes) : option taglist :=
  match f with
  | O => None
  | S f =>
      let '(w1, r1) := span is_lwsp r in
      match r1 with
      | [] => Some []
      | _ =>
          let '(n, r2) := span is_namechar r1 in
          match n with
          | [] => None
          | _ =>
              let '(w2, r3) := span is_lwsp r2 in
              match r3 with
              | e :: r4 =>
                  if e =?c EQUALS then
                    let '(w3, r5) := span is_lwsp r4 in
                    let '(b, r6) := span is_valws r5 in
                    let pos' := pos + length w1 + length n + length w2 + 1 + length w3 in
                    let entry := entry_at pos' r5 b in
                    match r6 with
                    | [] => Some [(n, entry)]
                    | x :: r7 =>
                        if x =?c SEMI then
                          match l_tags f (pos' + length b + 1) r7 with
                          | Some l => Some ((n, entry) :: l)
                          | None => None
                          end
                        else None
                    end
                  else None
              | [] => None
              end
          end
      end
  end.

Definition keys {A} (l : list (bytes * A)) : list bytes := map fst l.

Lemma GetTag_None n t : GetTag n t = None <-> ~ In n (keys t).
Proof.
  induction t as [|[m e] t IH]; cbn [GetTag keys map fst]; [cbn; tauto|].
  destruct (beqb_spec m n) as [->|N]; cbn.
  - split; [discriminate|tauto].
  - fold (keys t). rewrite IH. tauto.
Qed.
Lemma GetTag_In n t e : NoDup (keys t) -> (GetTag n t = Some e <-> In (n, e) t).
Proof.
  induction t as [|[m e'] t IH]; cbn [GetTag keys map fst]; [cbn; intuition discriminate|].
  intros ND. inversion ND as [|? ? NI ND']; subst. fold (keys t) in *.
  destruct (beqb_spec m n) as [->|N]; cbn.
  - split; [intros [= ->]; auto|]. intros [[= ->]|I]; auto. exfalso. apply NI. apply in_map_iff. exists (n, e). auto.
  - rewrite IH by auto. split; auto. intros [[= -> ->]|I]; auto. congruence.
Qed.

Lemma span_length p (s a b : bytes) : span p s = (a, b) -> length s = length a + length b.
Proof. intros E. rewrite (span_app _ _ _ _ E). apply app_length. Qed.

Lemma tellg_nil s p : St s p [] -> good s = false -> exists s', tellg s = ((-1)%Z, s') /\ St s' p [].
Proof.
  intros (P1 & P2 & P3) G. unfold tellg. rewrite G. eexists. split; [reflexivity|]. repeat split; auto.
Qed.

(** The loop is the list parser plus the check for duplicates. *)
Ltac refused := eexists; reflexivity.
Lemma tl_loop_list f : forall s p r tags, St s p r -> length r < f ->
  match l_tags f (length p) r with
  | Some l => (NoDup (keys l) /\ (forall n, In n (keys l) -> ~ In n (keys tags)) /\
               tl_loop f s tags = (tags ++ l, Ok tt)) \/
              (~ (NoDup (keys l) /\ (forall n, In n (keys l) -> ~ In n (keys tags))) /\
               exists tags', tl_loop f s tags = (tags', perm))
  | None => exists tags', tl_loop f s tags = (tags', perm)
  end.
Proof.
  induction f as [|f IH]; intros s p r tags H L; [lia|]. cbn [tl_loop l_tags].
  rewrite (St_fuel _ _ _ H). destruct (span is_lwsp r) as [w1 r1] eqn:E1.
  destruct (skip_loose_St (S (length r)) s p r w1 r1 H E1 ltac:(lia)) as (s1 & P1 & H1 & G1). rewrite P1.
  pose proof (span_length _ _ _ _ E1) as L1.
  destruct r1 as [|c1 r1].
  { peek_at H1. left. rewrite app_nil_r. split; [constructor|]. split; auto. }
  peek_at H1. destruct (span is_namechar (c1 :: r1)) as [n r2] eqn:E2.
  destruct (tl_name_St s1 _ _ n r2 H1 E2) as (s3 & P3 & H3). rewrite P3. cbn [obind].
  pose proof (span_length _ _ _ _ E2) as L2.
  destruct n as [|n0 n']; [refused|]. remember (n0 :: n') as n eqn:EN.
  (* whatever follows: a name that is already there is refused *)
  destruct (GetTag n tags) as [e0|] eqn:GT.
  { assert (NI : In n (keys tags)).
    { destruct (in_dec (list_eq_dec ascii_dec) n (keys tags)) as [I|I]; auto. apply GetTag_None in I. congruence. }
    destruct (span is_lwsp r2) as [w2 r3]. destruct r3 as [|e r4]; [refused|].
    destruct (e =?c EQUALS); [|refused]. destruct (span is_lwsp r4) as [w3 r5].
    destruct (span is_valws r5) as [b r6]. cbv zeta.
    destruct r6 as [|x r7].
    - right. split; [|refused]. intros [_ D]. apply (D n); cbn; auto.
    - destruct (x =?c SEMI); [|refused]. destruct (l_tags f _ r7) as [l|]; [|refused].
      right. split; [|refused]. intros [_ D]. apply (D n); cbn; auto. }
  apply GetTag_None in GT.
  rewrite (St_fuel _ _ _ H3). destruct (span is_lwsp r2) as [w2 r3] eqn:E3.
  destruct (skip_loose_St (S (length r2)) s3 _ r2 w2 r3 H3 E3 ltac:(lia)) as (s4 & P4 & H4 & G4). rewrite P4. cbn [obind].
  pose proof (span_length _ _ _ _ E3) as L3.
  destruct r3 as [|e r4]; [peek_at H4; refused|]. peek_at H4.
  destruct (e =?c EQUALS) eqn:EQ; [|refused].
  get_at H4. rewrite (St_fuel _ _ _ H0). destruct (span is_lwsp r4) as [w3 r5] eqn:E5.
  destruct (skip_loose_St (S (length r4)) s0 _ r4 w3 r5 H0 E5 ltac:(lia)) as (s7 & P7 & H7 & G7). rewrite P7. cbn [obind].
  pose proof (span_length _ _ _ _ E5) as L5. cbn [length] in L1, L2, L3.
  destruct (span is_valws r5) as [b r6] eqn:E6. cbv zeta.
  pose proof (span_length _ _ _ _ E6) as L6.
  set (p7 := rev w3 ++ e :: rev w2 ++ rev n ++ rev w1 ++ p) in *.
  assert (LP : length p + length w1 + length n + length w2 + 1 + length w3 = length p7).
  { subst p7. repeat (rewrite app_length; cbn [length]). rewrite !rev_length. lia. }
  rewrite LP.
  assert (TG : exists s8, tellg s7 = (match r5 with [] => (-1)%Z | _ => Z.of_nat (length p7) end, s8) /\ St s8 p7 r5).
  { destruct r5 as [|c5 r5].
    - apply tellg_nil; auto.
    - exists s7. split; auto. apply (tellg_cons _ _ _ _ H7). }
  destruct TG as (s8 & PT & H8). rewrite PT. rewrite (St_fuel _ _ _ H8).
  destruct (tl_value_St (S (length r5)) s8 p7 r5 b r6 [] [] H8 E6 ltac:(lia) eq_refl) as [(EV & s9 & P9 & H9)|(EV & P9)].
  2:{ rewrite P9. cbn [obind]. destruct r6 as [|x r7]; [destruct EV; exact I|]. cbn in EV.
      rewrite (ceqb_false _ _ EV). refused. }
  rewrite P9. cbn [obind app]. fold (entry_at (length p7) r5 b).
  destruct r6 as [|x r7].
  - get_at H9. left. split. { constructor; [cbn; tauto|constructor]. }
    split; auto. cbn. intros m [<-|[]]. auto.
  - cbn in EV. subst x. rewrite ceqb_refl. get_at H9. cbn [length] in L6.
    set (tags' := tags ++ [(n, entry_at (length p7) r5 b)]).
    specialize (IH s2 _ r7 tags' H2 ltac:(lia)).
    replace (length (SEMI :: rev b ++ p7)) with (length p7 + length b + 1) in IH
      by (cbn [length]; rewrite app_length, rev_length; lia).
    destruct (l_tags f (length p7 + length b + 1) r7) as [l|]; [|exact IH].
    assert (KT : forall m, In m (keys tags') <-> In m (keys tags) \/ m = n).
    { intros m. unfold tags', keys. rewrite map_app, in_app_iff. cbn. intuition. }
    destruct IH as [(ND & DJ & P)|(NN & P)].
    + left. change (tl_loop f s2 (tags ++ [(n, entry_at (length p7) r5 b)])) with (tl_loop f s2 tags'). rewrite P. split.
      { cbn. constructor; auto. intros I. apply (DJ n I). apply KT. auto. }
      split. { cbn. intros m [<-|I]; auto. intros K. apply (DJ m I). apply KT. auto. }
      unfold tags'. rewrite <- app_assoc. reflexivity.
    + right. split; [|exact P]. intros [ND DJ]. apply NN. cbn in ND. inversion ND as [|? ? NI ND']; subst.
      split; auto. intros m I. rewrite KT. intros [K|K].
      * apply (DJ m); cbn; auto.
      * subst. auto.
Qed.

(** ** The list parser and the grammar *)
Definition nv (l : taglist) : list (bytes * bytes) := map (fun x => (fst x, te_value (snd x))) l.
Lemma keys_nv l : keys (nv l) = keys l.
Proof. unfold keys, nv. rewrite map_map. reflexivity. Qed.

Lemma LWSP_b w : Forall LWSP w -> forallb is_lwsp w = true.
Proof. apply forallb_Forall. apply is_lwsp_LWSP. Qed.

Lemma name_stop n r : tag_name n -> match r with [] => True | c :: _ => is_namechar c = false end ->
  span is_namechar (n ++ r) = (n, r).
Proof. intros [N F] S. apply span_intro; auto. apply (forallb_Forall _ _ _ name_byte_b). auto. Qed.
Lemma lwsp_stop w r : Forall LWSP w -> match r with [] => True | c :: _ => is_lwsp c = false end ->
  span is_lwsp (w ++ r) = (w, r).
Proof. intros F S. apply span_intro; auto. apply LWSP_b; auto. Qed.

Lemma name_not_lwsp c : is_namechar c = true -> is_lwsp c = false.
Proof.
  intros V. destruct (is_lwsp c) eqn:L; auto.
  assert (X : forall c, negb (is_namechar c && is_lwsp c) = true) by (apply byte_sweep; reflexivity).
  specialize (X c). rewrite V, L in X. discriminate.
Qed.
Lemma lwsp_not_name c : is_lwsp c = true -> is_namechar c = false.
Proof. intros V. destruct (is_namechar c) eqn:L; auto. rewrite (name_not_lwsp c L) in V. discriminate. Qed.

Lemma name_first n r : tag_name n -> exists c n', n = c :: n' /\ is_lwsp c = false /\ n ++ r = c :: n' ++ r.
Proof.
  intros [N F]. destruct n as [|c n']; [congruence|]. exists c, n'. inversion F; subst.
  split; auto. split; auto. apply name_not_lwsp, name_byte_b; auto.
Qed.

Lemma value_valws v w : tag_value v -> Forall LWSP w -> forallb is_valws (v ++ w) = true.
Proof.
  intros (F & _) W. rewrite forallb_app'. apply andb_true_iff. split.
  - apply (forallb_Forall is_valws (fun c => value_byte c \/ LWSP c)); auto.
    intros c. unfold is_valws. rewrite orb_true_iff, value_byte_b, is_lwsp_LWSP. tauto.
  - rewrite forallb_forall. apply LWSP_b in W. rewrite forallb_forall in W. intros x I.
    unfold is_valws. rewrite (W x I). apply orb_true_r.
Qed.

Lemma rstrip_value v w : tag_value v -> Forall LWSP w -> rstrip (v ++ w) = v.
Proof.
  intros (F & _ & LO) W. apply LWSP_b in W.
  destruct v as [|c v]; [apply rstrip_all; auto|].
  unfold last_ok in LO.
  destruct (rev (c :: v)) as [|x l] eqn:E.
  { apply (f_equal (@rev _)) in E. rewrite rev_involutive in E. discriminate. }
  cbn in LO. apply (f_equal (@rev _)) in E. rewrite rev_involutive in E. rewrite E. cbn [rev].
  rewrite <- app_assoc. cbn [app]. rewrite rstrip_cons.
  - rewrite rstrip_all by auto. reflexivity.
  - apply val_not_lwsp, value_byte_b; auto.
Qed.

(** Splitting off the part before a value. *)
Lemma value_split v w r : tag_value v -> Forall LWSP w -> ends_value r -> forall w3, Forall LWSP w3 ->
  exists x y, span is_lwsp (w3 ++ v ++ w ++ r) = (x, y) /\ exists b, span is_valws y = (b, r) /\ rstrip b = v.
Proof.
  intros V W ER w3 W3.
  assert (VS : match r with [] => True | c :: _ => is_valws c = false end).
  { destruct r as [|c r]; auto. cbn in ER. subst. reflexivity. }
  assert (LS : match r with [] => True | c :: _ => is_lwsp c = false end).
  { destruct r as [|c r]; auto. cbn in ER. subst. reflexivity. }
  pose proof (rstrip_value v w V W) as RS. pose proof (value_valws v w V W) as FV.
  destruct v as [|c v].
  - exists (w3 ++ w), r. split.
    + cbn [app]. rewrite app_assoc. apply lwsp_stop; auto. apply Forall_app. auto.
    + exists []. split; [apply (span_intro is_valws [] r); auto|reflexivity].
  - exists w3, ((c :: v) ++ w ++ r). split.
    + apply lwsp_stop; auto. cbn. destruct V as (_ & FO & _). cbn in FO. apply val_not_lwsp, value_byte_b; auto.
    + exists ((c :: v) ++ w). split; auto. rewrite app_assoc. apply span_intro; auto.
Qed.

Lemma l_tags_rendered l t : rendered_tags l t -> forall f pos, length t < f ->
  exists ents, l_tags f pos t = Some ents /\ nv ents = l.
Proof.
  induction 1 as [w W|w1 n w2 w3 v w4 W1 N W2 W3 V W4|w1 n w2 w3 v w4 l t W1 N W2 W3 V W4 R IH];
    intros f pos L; (destruct f as [|f]; [lia|]); cbn [l_tags].
  - rewrite (span_forall _ w (LWSP_b w W)). exists []. auto.
  - destruct (name_first n (w2 ++ EQUALS :: w3 ++ v ++ w4) N) as (c & n' & EN & NL & EA).
    rewrite lwsp_stop; auto; [|rewrite EA; auto]. rewrite EA. rewrite <- EA.
    rewrite name_stop; auto.
    2:{ destruct w2 as [|x w2]; [reflexivity|]. cbn. apply lwsp_not_name. inversion W2; subst. apply is_lwsp_LWSP. auto. }
    subst n. rewrite lwsp_stop by (auto; reflexivity). rewrite ceqb_refl.
    destruct (value_split v w4 [] V W4 I w3 W3) as (x & y & E1 & b & E2 & E3). rewrite app_nil_r in E1.
    rewrite E1, E2. eexists. split; [reflexivity|]. cbn. rewrite E3. reflexivity.
  - destruct (name_first n (w2 ++ EQUALS :: w3 ++ v ++ w4 ++ SEMI :: t) N) as (c & n' & EN & NL & EA).
    rewrite lwsp_stop; auto; [|rewrite EA; auto]. rewrite EA. rewrite <- EA.
    rewrite name_stop; auto.
    2:{ destruct w2 as [|x w2]; [reflexivity|]. cbn. apply lwsp_not_name. inversion W2; subst. apply is_lwsp_LWSP. auto. }
    subst n. rewrite lwsp_stop by (auto; reflexivity). rewrite ceqb_refl.
    destruct (value_split v w4 (SEMI :: t) V W4 eq_refl w3 W3) as (x & y & E1 & b & E2 & E3).
    rewrite E1, E2. rewrite ceqb_refl. cbv zeta.
    edestruct (IH f) as (ents & P & NV).
    { repeat (rewrite app_length in L; cbn [length] in L). lia. }
    rewrite P. eexists. split; [reflexivity|]. cbn. rewrite E3. f_equal. exact NV.
Qed.

(** A span of value bytes, decomposed. *)
Lemma strip_split b : forallb is_valws b = true -> first_ok (fun c => is_lwsp c = false) b ->
  exists w, b = rstrip b ++ w /\ Forall LWSP w /\ tag_value (rstrip b).
Proof.
  intros F FO. unfold rstrip. destruct (span is_lwsp (rev b)) as [x y] eqn:E. cbn [snd].
  pose proof (span_app _ _ _ _ E) as EA. pose proof (span_all _ _ _ _ E) as AL. pose proof (span_stop _ _ _ _ E) as ST.
  apply (f_equal (@rev _)) in EA. rewrite rev_involutive, rev_app_distr in EA.
  exists (rev x). split; auto. split.
  { apply Forall_rev. apply (forallb_Forall _ _ _ is_lwsp_LWSP). auto. }
  rewrite EA, forallb_app' in F. apply andb_true_iff in F as [F1 F2].
  assert (VB : forall c, is_valws c = true -> is_lwsp c = false -> value_byte c).
  { intros c. unfold is_valws. rewrite orb_true_iff. intros [V|V] NL; [apply value_byte_b; auto|congruence]. }
  split; [|split].
  - apply (forallb_Forall is_valws); auto.
    intros c. unfold is_valws. rewrite orb_true_iff, value_byte_b, is_lwsp_LWSP. tauto.
  - destruct (rev y) as [|c l]; [exact I|]. cbn. rewrite EA in FO. cbn in FO. cbn in F1.
    apply andb_true_iff in F1 as [F1 _]. auto.
  - unfold last_ok. rewrite rev_involutive. destruct y as [|d y]; [exact I|]. cbn. apply VB; auto.
    rewrite forallb_forall in F1. apply F1. cbn. apply in_or_app. right. left. reflexivity.
Qed.

Lemma l_tags_grammar f : forall pos r ents, l_tags f pos r = Some ents -> rendered_tags (nv ents) r.
Proof.
  induction f as [|f IH]; intros pos r ents E; [discriminate|]. cbn [l_tags] in E.
  destruct (span is_lwsp r) as [w1 r1] eqn:E1.
  pose proof (span_app _ _ _ _ E1) as A1. pose proof (span_all _ _ _ _ E1) as F1. apply (forallb_Forall _ _ _ is_lwsp_LWSP) in F1.
  destruct r1 as [|c1 r1].
  { injection E as <-. rewrite app_nil_r in A1. subst. constructor. auto. }
  destruct (span is_namechar (c1 :: r1)) as [n r2] eqn:E2.
  pose proof (span_app _ _ _ _ E2) as A2. pose proof (span_all _ _ _ _ E2) as F2. apply (forallb_Forall _ _ _ name_byte_b) in F2.
  destruct n as [|n0 n']; [discriminate|]. remember (n0 :: n') as n eqn:EN.
  assert (TN : tag_name n) by (split; [subst; discriminate|auto]).
  destruct (span is_lwsp r2) as [w2 r3] eqn:E3.
  pose proof (span_app _ _ _ _ E3) as A3. pose proof (span_all _ _ _ _ E3) as F3. apply (forallb_Forall _ _ _ is_lwsp_LWSP) in F3.
  destruct r3 as [|e r4]; [discriminate|]. destruct (e =?c EQUALS) eqn:EQ; [|discriminate]. apply ceqb_eq in EQ. subst e.
  destruct (span is_lwsp r4) as [w3 r5] eqn:E5.
  pose proof (span_app _ _ _ _ E5) as A5. pose proof (span_all _ _ _ _ E5) as F5. apply (forallb_Forall _ _ _ is_lwsp_LWSP) in F5.
  pose proof (span_stop _ _ _ _ E5) as S5.
  destruct (span is_valws r5) as [b r6] eqn:E6. cbv zeta in E.
  pose proof (span_app _ _ _ _ E6) as A6. pose proof (span_all _ _ _ _ E6) as F6.
  destruct (strip_split b F6) as (w4 & EB & W4 & TV).
  { rewrite A6 in S5. destruct b as [|x b]; [exact I|]. exact S5. }
  destruct r6 as [|x r7].
  - injection E as <-. cbn. rewrite app_nil_r in A6. rewrite A1, A2, A3, A5, A6. rewrite EB at 2.
    apply rt_last; auto.
  - destruct (x =?c SEMI) eqn:X; [|discriminate]. apply ceqb_eq in X. subst x.
    destruct (l_tags f _ r7) as [l|] eqn:EL; [|discriminate]. injection E as <-. apply IH in EL. cbn.
    rewrite A1, A2, A3, A5, A6. rewrite EB at 2. rewrite <- app_assoc. cbn [app]. apply rt_more; auto.
Qed.

(** ** Offsets *)
Definition entry_ok (input : bytes) (x : bytes * tag_entry) : Prop :=
  te_value (snd x) = [] \/
  exists pre post, tag_at (fst x) input pre (te_value (snd x)) post /\ te_offset (snd x) = Z.of_nat (length pre).

Lemma l_tags_offsets f : forall before r ents, (before = [] \/ exists u, before = u ++ [SEMI]) ->
  l_tags f (length before) r = Some ents -> Forall (entry_ok (before ++ r)) ents.
Proof.
  induction f as [|f IH]; intros before r ents BE E; [discriminate|]. cbn [l_tags] in E.
  destruct (span is_lwsp r) as [w1 r1] eqn:E1. pose proof (span_app _ _ _ _ E1) as A1.
  pose proof (span_all _ _ _ _ E1) as F1. apply (forallb_Forall _ _ _ is_lwsp_LWSP) in F1.
  destruct r1 as [|c1 r1]; [injection E as <-; constructor|].
  destruct (span is_namechar (c1 :: r1)) as [n r2] eqn:E2. pose proof (span_app _ _ _ _ E2) as A2.
  destruct n as [|n0 n']; [discriminate|]. remember (n0 :: n') as n eqn:EN.
  destruct (span is_lwsp r2) as [w2 r3] eqn:E3. pose proof (span_app _ _ _ _ E3) as A3.
  pose proof (span_all _ _ _ _ E3) as F3. apply (forallb_Forall _ _ _ is_lwsp_LWSP) in F3.
  destruct r3 as [|e r4]; [discriminate|]. destruct (e =?c EQUALS) eqn:EQ; [|discriminate]. apply ceqb_eq in EQ. subst e.
  destruct (span is_lwsp r4) as [w3 r5] eqn:E5. pose proof (span_app _ _ _ _ E5) as A5. pose proof (span_stop _ _ _ _ E5) as S5.
  pose proof (span_all _ _ _ _ E5) as F5. apply (forallb_Forall _ _ _ is_lwsp_LWSP) in F5.
  destruct (span is_valws r5) as [b r6] eqn:E6. cbv zeta in E.
  pose proof (span_app _ _ _ _ E6) as A6. pose proof (span_all _ _ _ _ E6) as F6.
  destruct (strip_split b F6) as (w4 & EB & W4 & TV).
  { rewrite A6 in S5. destruct b as [|x b]; [exact I|]. exact S5. }
  set (before' := before ++ w1 ++ n ++ w2 ++ [EQUALS] ++ w3).
  assert (EI : before ++ r = before' ++ rstrip b ++ w4 ++ r6).
  { subst before'. rewrite A1, A2, A3, A5, A6. rewrite EB at 1. rewrite <- !app_assoc. reflexivity. }
  assert (LB : length before + length w1 + length n + length w2 + 1 + length w3 = length before').
  { subst before'. repeat (rewrite app_length; cbn [length]). lia. }
  assert (EO : (r6 = [] \/ exists u, r6 = SEMI :: u) -> entry_ok (before ++ r) (n, entry_at (length before') r5 b)).
  { intros R6. unfold entry_ok, entry_at. cbn [fst snd te_value te_offset]. destruct (rstrip b) as [|v0 v] eqn:ER; [left; auto|right].
    exists before', (w4 ++ r6). split.
    - split; auto. split; auto. split; [|exists w4, r6; auto].
      exists before, w1, w2, w3. split; [reflexivity|]. auto.
    - destruct r5 as [|c5 r5]; auto. destruct b; discriminate. }
  rewrite LB in E.
  destruct r6 as [|x r7].
  - injection E as <-. constructor; [apply EO; auto|constructor].
  - destruct (x =?c SEMI) eqn:X; [|discriminate]. apply ceqb_eq in X. subst x.
    destruct (l_tags f _ r7) as [l|] eqn:EL; [|discriminate]. injection E as <-. constructor; [apply EO; eauto|].
    specialize (IH (before' ++ rstrip b ++ w4 ++ [SEMI]) r7 l).
    assert (LL : length before' + length b + 1 = length (before' ++ rstrip b ++ w4 ++ [SEMI])).
    { rewrite EB at 1. repeat (rewrite app_length; cbn [length]). lia. }
    rewrite LL in EL. specialize (fun B => IH B EL).
    replace ((before' ++ rstrip b ++ w4 ++ [SEMI]) ++ r7) with (before ++ r) in IH.
    + apply IH. right. exists (before' ++ rstrip b ++ w4). rewrite <- !app_assoc. reflexivity.
    + rewrite EI, <- !app_assoc. reflexivity.
Qed.

(** ** The properties *)

Lemma l_tags_total f : forall pos r, l_tags f pos r = None \/ exists l, l_tags f pos r = Some l.
Proof. intros. destruct (l_tags f pos r); eauto. Qed.

(** Names already present and new names. *)
Definition fresh_names (tags : taglist) (l : list (bytes * bytes)) : Prop :=
  NoDup (keys l) /\ (forall n, In n (keys l) -> ~ In n (keys tags)).

Lemma TagList_Parse_cases tags input :
  (exists ents, TagList_Parse tags input = (tags ++ ents, Ok tt) /\ rendered_tags (nv ents) input /\
     fresh_names tags (nv ents) /\ Forall (entry_ok input) ents) \/
  ((exists tags', TagList_Parse tags input = (tags', perm)) /\
   forall l, rendered_tags l input -> ~ fresh_names tags l).
Proof.
  unfold TagList_Parse. rewrite (St_fuel _ _ _ (St_open input)).
  pose proof (tl_loop_list (S (length input)) _ _ _ tags (St_open input) ltac:(lia)) as T. cbn [length] in T.
  destruct (l_tags (S (length input)) 0 input) as [ents|] eqn:E.
  - destruct T as [(ND & DJ & P)|(NN & P)].
    + left. exists ents. split; auto. split; [eapply l_tags_grammar; eauto|].
      split. { unfold fresh_names. rewrite keys_nv. auto. }
      apply (l_tags_offsets (S (length input)) [] input ents); auto.
    + right. split; auto. intros l R [ND DJ].
      destruct (l_tags_rendered l input R (S (length input)) 0 ltac:(lia)) as (e2 & E2 & NV). rewrite E in E2.
      injection E2 as <-. apply NN. rewrite <- NV, keys_nv in ND, DJ. auto.
  - right. split; auto. intros l R _.
    destruct (l_tags_rendered l input R (S (length input)) 0 ltac:(lia)) as (e2 & E2 & NV). congruence.
Qed.

Lemma rendered_unique l l' t : rendered_tags l t -> rendered_tags l' t -> l = l'.
Proof.
  intros R R'. destruct (l_tags_rendered l t R (S (length t)) 0 ltac:(lia)) as (e & E & <-).
  destruct (l_tags_rendered l' t R' (S (length t)) 0 ltac:(lia)) as (e' & E' & <-). congruence.
Qed.

Lemma TagList_rendered l input : rendered_tags l input -> NoDup (keys l) ->
  exists tags, TagList_Parse [] input = (tags, Ok tt) /\
    (forall n v, In (n, v) l -> exists e, GetTag n tags = Some e /\ te_value e = v) /\
    (forall n, ~ In n (keys l) -> GetTag n tags = None).
Proof.
  intros R ND. destruct (TagList_Parse_cases [] input) as [(ents & P & G & [ND' _] & _)|(_ & N)].
  - exists ents. split; auto. pose proof (rendered_unique _ _ _ R G) as ->. rewrite keys_nv in ND. split.
    + intros n v I. unfold nv in I. apply in_map_iff in I as ((m & e) & [= <- <-] & I). exists e. split; auto.
      apply GetTag_In; auto.
    + intros n NI. apply GetTag_None. rewrite keys_nv in NI. auto.
  - exfalso. apply (N l R). split; auto.
Qed.

Lemma TagList_positions tags input tags' n e : TagList_Parse tags input = (tags', Ok tt) ->
  GetTag n tags = None -> GetTag n tags' = Some e -> te_value e <> [] ->
  exists pre post, tag_at n input pre (te_value e) post /\ te_offset e = Z.of_nat (length pre).
Proof.
  intros P GN GS NE. destruct (TagList_Parse_cases tags input) as [(ents & P' & G & FR & OK)|((tags2 & P') & _)].
  2:{ rewrite P' in P. discriminate. }
  rewrite P' in P. injection P as <-.
  assert (I : In (n, e) ents).
  { clear - GN GS. revert GN GS. induction tags as [|[m e'] t IH]; cbn [GetTag app].
    - intros _. induction ents as [|[m e'] t IH]; cbn [GetTag]; [discriminate|].
      destruct (beqb_spec m n) as [->|N]; [intros [= <-]; cbn; auto|]. intros H. right. auto.
    - destruct (beqb m n); [discriminate|]. auto. }
  rewrite Forall_forall in OK. destruct (OK _ I) as [Z|X]; [cbn in Z; congruence|]. exact X.
Qed.
Lemma TagList_offsets tags input tags' n e : TagList_Parse tags input = (tags', Ok tt) ->
  GetTag n tags = None -> GetTag n tags' = Some e -> te_value e <> [] ->
  tag_value (te_value e) /\ (0 <= te_offset e)%Z /\
  firstn (length (te_value e)) (skipn (Z.to_nat (te_offset e)) input) = te_value e.
Proof.
  intros P GN GS NE. destruct (TagList_positions _ _ _ _ _ P GN GS NE) as (pre & post & (EI & TV & _) & EO).
  split; auto. rewrite EO. split; [lia|]. rewrite Nat2Z.id, EI, skipn_app_exact, firstn_app_exact. reflexivity.
Qed.

Lemma TagList_refused tags input l : rendered_tags l input ->
  (~ NoDup (keys l) \/ exists n, In n (keys l) /\ In n (keys tags)) ->
  exists tags', TagList_Parse tags input = (tags', perm).
Proof.
  intros R B. destruct (TagList_Parse_cases tags input) as [(ents & P & G & FR & _)|(E & _)]; auto.
  exfalso. pose proof (rendered_unique _ _ _ R G) as ->. destruct FR as [ND DJ]. destruct B as [B|(n & I & J)]; auto.
  eapply DJ; eauto.
Qed.

Lemma TagList_accepts_iff tags input :
  (exists tags', TagList_Parse tags input = (tags', Ok tt)) <->
  (exists l, rendered_tags l input /\ NoDup (keys l) /\ (forall n, In n (keys l) -> ~ In n (keys tags))).
Proof.
  destruct (TagList_Parse_cases tags input) as [(ents & P & G & FR & _)|((tags2 & P) & N)]; split.
  - intros _. exists (nv ents). split; auto.
  - intros _. eauto.
  - intros (t & P'). rewrite P in P'. discriminate.
  - intros (l & R & FR). exfalso. eapply N; eauto.
Qed.

Lemma TagList_total tags input : exists tags',
  TagList_Parse tags input = (tags', Ok tt) \/ TagList_Parse tags input = (tags', perm).
Proof.
  destruct (TagList_Parse_cases tags input) as [(ents & P & _)|((tags2 & P) & N)]; eauto.
Qed.

(** A rendering, for the example beside C12. *)
Lemma rendered_tags_example : rendered_tags [(str "a", str "x  y"); (str "A", [])]
  ([SP] ++ str "a" ++ [CR; LF] ++ EQUALS :: [HT] ++ str "x  y" ++ [SP] ++ SEMI ::
   ([] ++ str "A" ++ [SP] ++ EQUALS :: [] ++ [] ++ [LF] ++ SEMI :: [SP; SP])).
Proof.
  assert (NA : tag_name (str "a")).
  { split; [discriminate|]. apply (forallb_Forall _ _ _ name_byte_b). reflexivity. }
  assert (NB : tag_name (str "A")).
  { split; [discriminate|]. apply (forallb_Forall _ _ _ name_byte_b). reflexivity. }
  assert (W : forall w, forallb is_lwsp w = true -> Forall LWSP w).
  { intros w. apply (forallb_Forall _ _ _ is_lwsp_LWSP). }
  apply rt_more; try (apply W; reflexivity); auto.
  - change (str "x  y") with (rstrip (str "x  y")).
    destruct (strip_split (str "x  y")) as (_ & _ & _ & T); [reflexivity|reflexivity|exact T].
  - apply rt_more; try (apply W; reflexivity); auto.
    + repeat split. constructor.
    + apply rt_none. apply W. reflexivity.
Qed.
