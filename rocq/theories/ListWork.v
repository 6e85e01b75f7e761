(** The work of reading a list: linear without stray CRLFs, quadratic at worst. *)
From Verif Require Import Bytes Outcome Stream Tokenizer MailParser BytesFacts StreamFacts TokenizerFacts SpecText QPFacts ListFacts AddressClean ListExact ListWide Work TagList SpecTags TagListFacts KeyExact.

Lemma wsps_work_St f : forall s p r w r', St s p r -> span is_wsp r = (w, r') -> length r < f -> wsps_work f s = 1 + 2 * length w.
Proof.
  induction f as [|f IH]; intros s p r w r' H E L; [lia|]. cbn [wsps_work]. destruct r as [|c r].
  - injection E as <- <-. destruct (read_wsp_no s p [] H Logic.I) as (s' & -> & _). reflexivity.
  - cbn [span] in E. destruct (is_wsp c) eqn:W.
    + destruct (span is_wsp r) as [w1 r1] eqn:E1. injection E as <- <-. destruct (read_wsp_yes s p c r H W) as (s' & -> & H'). cbn [length] in *.
      rewrite (IH s' _ r w1 r1 H' E1) by lia. lia.
    + injection E as <- <-. destruct (read_wsp_no s p (c :: r) H W) as (s' & -> & _). reflexivity.
Qed.
Lemma span_length p r w r' : span p r = (w, r') -> length r = length w + length r'.
Proof. intros E. apply span_app in E. subst. apply app_length. Qed.

(** A call that finds whitespace or none; a call that puts everything back; a call that throws. *)
Lemma fws_work_St s p r : St s p r ->
  match l_fws r with
  | Some (w, _) => fws_work s <= 9 + 2 * length w \/
      exists u r2, w = [] /\ r = u ++ CRLF ++ r2 /\ Forall WSP u /\ no_wsp r2 /\ 3 * length u <= fws_work s <= 8 + 3 * length u
  | None => fws_work s <= 4 + 2 * length r
  end.
Proof.
  intros H. unfold l_fws, fws_work. rewrite (St_fuel _ _ _ H). destruct (span is_wsp r) as [w r1] eqn:E1.
  destruct (read_wsps_St (S (length r)) s p r [] w r1 H E1 ltac:(lia)) as (s1 & R1 & H1). rewrite R1. cbn [app].
  rewrite (wsps_work_St (S (length r)) s p r w r1 H E1 ltac:(lia)). pose proof (span_app _ _ _ _ E1) as A1. pose proof (span_length _ _ _ _ E1) as L1.
  pose proof (span_all _ _ _ _ E1) as AL. apply forallb_WSP in AL.
  destruct r1 as [|c r2].
  - destruct (read_crlf_no s1 _ _ H1 Logic.I) as (s2 & -> & _). left. lia.
  - destruct (c =?c CR) eqn:C.
    2:{ apply ceqb_neq in C. destruct (read_crlf_no s1 _ (c :: r2) H1 C) as (s2 & -> & _). left. lia. }
    apply ceqb_eq in C. subst c. destruct r2 as [|d r3]; [rewrite (read_crlf_throw s1 _ _ H1 Logic.I); cbn [length] in *; unfold perm; lia|].
    destruct (d =?c LF) eqn:D.
    2:{ apply ceqb_neq in D. rewrite (read_crlf_throw s1 _ _ H1 D). cbn [length] in *. unfold perm. lia. }
    apply ceqb_eq in D. subst d. destruct (read_crlf_yes s1 _ _ H1) as (s2 & -> & H2). destruct (span is_wsp r3) as [w2 r4] eqn:E2.
    unfold CRLF. cbv iota beta.
    destruct r3 as [|c r3]; [|cbn [span] in E2; destruct (is_wsp c) eqn:W].
    + injection E2 as <- <-. destruct (read_wsp_no s2 _ _ H2 Logic.I) as (s3 & -> & _). right. exists w, []. rewrite (app_length w [CR; LF]). cbn [length].
      repeat split; auto; lia.
    + destruct (span is_wsp r3) as [w3 r5] eqn:E3. injection E2 as <- <-. destruct (read_wsp_yes s2 _ _ _ H2 W) as (s3 & -> & H3). left.
      rewrite (St_fuel _ _ _ H3), (wsps_work_St (S (length r3)) s3 _ r3 w3 r5 H3 E3 ltac:(lia)). rewrite !app_length. cbn [length]. lia.
    + injection E2 as <- <-. destruct (read_wsp_no s2 _ (c :: r3) H2 W) as (s3 & -> & _). right. exists w, (c :: r3). rewrite (app_length w [CR; LF]). cbn [length].
      repeat split; auto; try lia. cbn. intros X. apply WSP_b in X. congruence.
Qed.

Section Bound.
  (** [Q]: a call that finds [w] costs at most [Q] more than for the bytes of [w]; [Z]: a call that throws. *)
  Variables (t : bytes) (Q Z : nat).
  Definition inside (r : bytes) : Prop := exists a, t = a ++ r.
  Hypothesis cost : forall s p r, St s p r -> inside r -> fws_work s <= match l_fws r with Some (w, _) => Q + 2 * length w | None => Z end.
  Lemma inside_skip a r : inside (a ++ r) -> inside r.
  Proof. intros (b & E). exists (b ++ a). rewrite <- app_assoc. exact E. Qed.

  Lemma skip_bound f : forall s p r, St s p r -> inside r -> length r < f ->
    match skip_fws f s with
    | Ok s' => exists p' r', St s' p' r' /\ inside r' /\ length r' <= length r /\ skip_work f s <= (Q + 2) * (length r - length r') + Q
    | Throw _ => skip_work f s <= (Q + 2) * length r + Z
    | _ => False
    end.
  Proof.
    induction f as [|f IH]; intros s p r H I L; [lia|]. cbn [skip_fws skip_work].
    pose proof (read_fws_St _ _ _ H) as R. pose proof (cost _ _ _ H I) as K. destruct (l_fws r) as [[w r']|] eqn:E.
    2:{ rewrite R in *. cbn [obind perm]. lia. }
    destruct R as (s' & -> & H'). cbn [obind]. apply l_fws_app in E. subst r. rewrite app_length in *. destruct w as [|c w].
    - exists p, r'. cbn [app length rev] in *. split; [exact H'|]. split; [exact I|]. split; [lia|]. replace (length r' - length r') with 0 by lia. lia.
    - specialize (IH s' _ r' H' (inside_skip _ _ I)). cbn [length] in *. specialize (IH ltac:(lia)). destruct (skip_fws f s') as [s2| | |]; auto.
      + destruct IH as (p2 & r2 & H2 & I2 & L2 & W2). exists p2, r2. split; auto. split; auto. split; [lia|].
        replace (S (length w) + length r' - length r2) with (S (length w) + (length r' - length r2)) by lia. nia.
      + nia.
  Qed.

  Lemma value_bound f : forall s p r value vbuf, St s p r -> inside r -> length r < f ->
    match vl_value f s value vbuf with
    | Ok (v, s') => exists p' r', St s' p' r' /\ inside r' /\ length r' <= length r /\ length v <= length value + length vbuf + (length r - length r') /\
        value_work f s <= (Q + 2) * (length r - length r') + Q + 1
    | Throw _ => value_work f s <= (Q + 2) * length r + Z
    | _ => False
    end.
  Proof.
    induction f as [|f IH]; intros s p r value vbuf H I L; [lia|]. cbn [vl_value value_work].
    pose proof (read_fws_St _ _ _ H) as R. pose proof (cost _ _ _ H I) as K. destruct (l_fws r) as [[w r']|] eqn:E.
    2:{ rewrite R in *. cbn [obind perm]. lia. }
    destruct R as (s' & -> & H'). cbn [obind]. apply l_fws_app in E. subst r. rewrite app_length in *. destruct w as [|c w].
    - cbn [app length rev] in *.
      assert (HERE : forall s2, St s2 p r' -> exists p' r2, St s2 p' r2 /\ inside r2 /\ length r2 <= length r' /\ length value <= length value + length vbuf + (length r' - length r2) /\
        fws_work s + 1 <= (Q + 2) * (length r' - length r2) + Q + 1).
      { intros s2 H2. exists p, r'. split; auto. split; auto. split; [lia|]. split; [lia|]. replace (length r' - length r') with 0 by lia. lia. }
      destruct r' as [|c r].
      + peek_at H'. rewrite Nat.add_0_r. auto.
      + peek_at H'. destruct (c =?c COLON); [rewrite Nat.add_0_r; auto|]. destruct (get_cons _ _ _ _ H') as (s1 & -> & H3).
        specialize (IH s1 _ r (value ++ vbuf ++ [c]) [] H3 (inside_skip [c] _ I)). cbn [length as_char] in *. specialize (IH ltac:(lia)).
        destruct (vl_value f s1 _ _) as [[v s2]| | |]; auto.
        * destruct IH as (p2 & r2 & H2 & I2 & L2 & L3 & W2). exists p2, r2. rewrite !app_length in L3. cbn [length] in L3. split; auto. split; auto. split; [lia|]. split; [lia|].
          replace (S (length r) - length r2) with (S (length r - length r2)) by lia. nia.
        * nia.
    - specialize (IH s' _ r' value (vbuf ++ c :: w) H' (inside_skip _ _ I)). cbn [length] in *. specialize (IH ltac:(lia)).
      destruct (vl_value f s' _ _) as [[v s2]| | |]; auto.
      + destruct IH as (p2 & r2 & H2 & I2 & L2 & L3 & W2). exists p2, r2. rewrite app_length in L3. cbn [length] in L3. split; auto. split; auto. split; [lia|]. split; [lia|].
        replace (S (length w) + length r' - length r2) with (S (length w) + (length r' - length r2)) by lia. nia.
      + nia.
  Qed.

  Lemma items_bound f : forall s p r vs, St s p r -> inside r -> length r < f ->
    items_work f s <= (3 * Q + 5) * length r + 2 * Q + 3 + Z /\ (forall k, vl_loop f s vs <> UB k) /\ vl_loop f s vs <> Diverge.
  Proof.
    induction f as [|f IH]; intros s p r vs H I L; [lia|]. cbn [items_work vl_loop]. rewrite (St_fuel _ _ _ H).
    pose proof (skip_bound (S (length r)) s p r H I ltac:(lia)) as SK. destruct (skip_fws (S (length r)) s) as [s1|e| |]; try (destruct SK; fail); cbn [obind].
    2:{ split; [nia|]. split; discriminate. }
    destruct SK as (p1 & r1 & H1 & I1 & L1 & W1). destruct r1 as [|c r1].
    - peek_at H1. split; [|split; discriminate]. cbn [length] in *. nia.
    - peek_at H1. rewrite (St_fuel _ _ _ H1). pose proof (value_bound (S (length (c :: r1))) s1 p1 (c :: r1) [] [] H1 I1 ltac:(lia)) as V.
      destruct (vl_value _ s1 [] []) as [[v s2]|e| |]; try (destruct V; fail); cbn [obind]; [|split; [|split; discriminate]; cbn [length] in *; nia].
      destruct V as (p2 & r2 & H2 & I2 & L2 & L3 & W2). destruct v as [|x v]; [split; [|split; discriminate]; cbn [length] in *; nia|].
      destruct r2 as [|y r2].
      + get_at H2. split; [|split; discriminate]. cbn [length] in *. nia.
      + destruct (get_cons _ _ _ _ H2) as (s3 & -> & H3). specialize (IH s3 _ r2 (vs ++ [x :: v]) H3 (inside_skip [y] _ I2)). cbn [length] in *. destruct (IH ltac:(lia)) as (B & C & D). split; [nia|]. split; auto.
  Qed.
End Bound.

Lemma inside_length t r : inside t r -> length r <= length t.
Proof. intros (a & ->). rewrite app_length. lia. Qed.
Lemma list_quadratic t : list_work t <= 25 + 40 * length t + 9 * (length t * length t).
Proof.
  unfold list_work. destruct (items_bound t (9 + 3 * length t) (4 + 2 * length t)) with (f := fuel_of (open_str t)) (s := open_str t) (p := @nil ascii) (r := t) (vs := @nil bytes)
    as [B _].
  - intros s p r H I. pose proof (inside_length _ _ I) as L. pose proof (fws_work_St _ _ _ H) as K. destruct (l_fws r) as [[w r']|]; [|lia].
    destruct K as [K|(u & r2 & -> & -> & _ & _ & K)]; [lia|]. rewrite app_length in L. cbn [length]. lia.
  - apply St_open.
  - exists []. reflexivity.
  - unfold fuel_of. cbn [open_str s_rest]. lia.
  - nia.
Qed.
Lemma list_linear t : folds_only t -> list_work t <= 25 + 34 * length t.
Proof.
  intros F. unfold list_work. destruct (items_bound t 9 (4 + 2 * length t)) with (f := fuel_of (open_str t)) (s := open_str t) (p := @nil ascii) (r := t) (vs := @nil bytes)
    as [B _].
  - intros s p r H I. pose proof (inside_length _ _ I) as L. pose proof (fws_work_St _ _ _ H) as K. destruct (l_fws r) as [[w r']|]; [|lia].
    destruct K as [K|(u & r2 & -> & -> & _ & N & K)]; [lia|]. destruct I as (a & E). rewrite app_assoc in E. pose proof (F _ _ E) as X. destruct r2; [destruct X|destruct (N X)].
  - apply St_open.
  - exists []. reflexivity.
  - unfold fuel_of. cbn [open_str s_rest]. lia.
  - lia.
Qed.

(** A stray CRLF behind [n] blanks. *)
Definition stray (n : nat) : bytes := repeat SP n ++ CRLF ++ [chr 88].
Lemma SPs n : Forall WSP (repeat SP n).
Proof. induction n; constructor; auto. left. reflexivity. Qed.
Lemma stray_read n : l_fws (stray n) = Some ([], stray n).
Proof. apply l_fws_stray; [apply SPs|]. cbn. intros [X|X]; discriminate. Qed.
Lemma stray_fws n s p : St s p (stray n) -> 3 * n <= fws_work s + 9.
Proof.
  intros H. unfold fws_work. rewrite (St_fuel _ _ _ H). unfold stray in H. assert (E1 : span is_wsp (repeat SP n ++ CRLF ++ [chr 88]) = (repeat SP n, CRLF ++ [chr 88])).
  { apply span_wsps; [apply SPs|apply CR_no_wsp]. }
  destruct (read_wsps_St (S (length (stray n))) s p _ [] _ _ H E1 ltac:(unfold stray; lia)) as (s1 & R1 & H1). rewrite R1. cbn [app].
  rewrite (wsps_work_St (S (length (stray n))) s p _ _ _ H E1 ltac:(unfold stray; lia)). destruct (read_crlf_yes s1 _ _ H1) as (s2 & -> & H2).
  unfold CRLF. cbv iota beta. destruct (read_wsp_no s2 _ [chr 88] H2 eq_refl) as (s3 & -> & _). rewrite app_length, repeat_length. lia.
Qed.
Lemma stray_value n : forall f s p, St s p (stray n) -> length (stray n) < f -> n * n <= value_work f s + 9 * n.
Proof.
  induction n as [|n IH]; intros f s p H L; [lia|]. destruct f as [|f]; [lia|]. cbn [value_work]. pose proof (stray_fws _ _ _ H) as K.
  pose proof (read_fws_St _ _ _ H) as R. rewrite stray_read in R. destruct R as (s1 & -> & H1). cbn [rev app] in H1.
  change (stray (S n)) with (SP :: stray n) in *. rewrite (peek_cons _ _ _ _ H1). change (SP =?c COLON) with false. cbv iota.
  destruct (get_cons _ _ _ _ H1) as (s3 & -> & H3). cbn [length] in L. specialize (IH f s3 _ H3 ltac:(lia)). nia.
Qed.
Lemma stray_length n : length (chr 97 :: stray n) = n + 4.
Proof. unfold stray. cbn [length]. rewrite app_length, repeat_length. change (length (CRLF ++ [chr 88])) with 3. lia. Qed.
Lemma stray_work n : n * n <= list_work (chr 97 :: stray n) + 9 * n.
Proof.
  unfold list_work, fuel_of. cbn [open_str s_rest]. cbn [items_work].
  pose proof (St_open (chr 97 :: stray n)) as H. rewrite (St_fuel _ _ _ H). cbn [skip_fws].
  assert (E : l_fws (chr 97 :: stray n) = Some ([], chr 97 :: stray n)) by reflexivity.
  pose proof (read_fws_St _ _ _ H) as R. rewrite E in R. destruct R as (s1 & -> & H1). cbn [rev app obind] in *.
  rewrite (peek_cons _ _ _ _ H1). rewrite (St_fuel _ _ _ H1). remember (S (length (chr 97 :: stray n))) as f eqn:Hf. destruct f as [|f]; [discriminate|]. cbn [length] in Hf.
  cbn [value_work]. pose proof (read_fws_St _ _ _ H1) as R. rewrite E in R. destruct R as (s2 & -> & H2). cbn [rev app obind] in *.
  rewrite (peek_cons _ _ _ _ H2). change (chr 97 =?c COLON) with false. cbv iota. destruct (get_cons _ _ _ _ H2) as (s3 & -> & H3).
  pose proof (stray_value n f s3 _ H3 ltac:(lia)) as V. lia.
Qed.
Lemma no_linear_list k : exists t, k * length t < list_work t.
Proof. exists (chr 97 :: stray (4 * k + 20)). rewrite stray_length. pose proof (stray_work (4 * k + 20)). nia. Qed.

(** The text is the value of a tag. *)
Lemma stray_tag n : exists tags e, TagList_Parse [] (str "h=" ++ chr 97 :: stray n) = (tags, Ok tt) /\
  GetTag (str "h") tags = Some e /\ te_value e = chr 97 :: stray n.
Proof.
  assert (R : rendered_tags [(str "h", chr 97 :: stray n)] (str "h=" ++ chr 97 :: stray n)).
  { pose proof (rt_last [] (str "h") [] [] (chr 97 :: stray n) []) as X. cbn [app] in X. rewrite app_nil_r in X. apply X; try constructor; try discriminate.
    - constructor; [|constructor]. apply name_byte_b. reflexivity.
    - constructor; [left; apply value_byte_b; reflexivity|]. unfold stray. apply Forall_app. split; [apply Forall_forall; intros c I; apply repeat_spec in I; subst c; right; left; reflexivity|].
      unfold CRLF. cbn [app]. apply Forall_cons; [right; unfold LWSP; tauto|]. apply Forall_cons; [right; unfold LWSP; tauto|]. apply Forall_cons; [|constructor]. left. apply value_byte_b. reflexivity.
    - split; [apply value_byte_b; reflexivity|]. unfold stray. change (chr 97 :: repeat SP n ++ CRLF ++ [chr 88]) with ((chr 97 :: repeat SP n) ++ CRLF ++ [chr 88]). rewrite app_assoc. unfold last_ok. rewrite rev_unit. apply value_byte_b. reflexivity. }
  destruct (TagList_rendered _ _ R) as (tags & P & I & _); [repeat constructor; intros []|]. destruct (I _ _ (or_introl eq_refl)) as (e & G & V). eauto.
Qed.

(** In a message it cannot. *)
Lemma message_list t m s h a v b : parse_all new_message (open_str t) = Ok (m, s) -> In h (m_headers m) -> h_text h = a ++ v ++ b -> tag_value v ->
  list_work v <= 25 + 34 * length v.
Proof. intros P I E V. apply list_linear. exact (folds_part _ _ _ _ (message_folds _ _ _ _ P I) V E). Qed.
Lemma work_case : folds_only (str "a : b") /\ list_work (str "a : b") = 30.
Proof.
  split; [|reflexivity]. intros a b E. assert (I : In CR (str "a : b")) by (rewrite E; apply in_or_app; right; left; reflexivity).
  repeat (destruct I as [I|I]; [discriminate|]). destruct I.
Qed.
