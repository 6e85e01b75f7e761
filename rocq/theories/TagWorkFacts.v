(** Bounds for the work of reading tag lists and relaxed header fields (for C109). *)
From Verif Require Import Bytes Outcome Stream Tokenizer MailParser Canonicalization BytesFacts StreamFacts TokenizerFacts SpecText SpecMail SpecTags MailFacts QPFacts ListFacts AddressClean ListExact ListWide Work TagList
  SpecTags TagListFacts KeyExact WorkFacts ListWork TagWork.

Lemma loose_bound f : forall s p r, St s p r -> length r < f ->
  exists s' p' r', skip_loose f s = Ok s' /\ St s' p' r' /\ length r' <= length r /\ loose_work f s = 2 * (length r - length r') + 1.
Proof.
  induction f as [|f IH]; intros s p r H L; [lia|]. cbn [skip_loose loose_work]. unfold read_wsp_loose. destruct r as [|c r].
  - peek_at H. do 3 eexists. split; [reflexivity|]. split; [eassumption|]. split; [lia|]. cbn [length]. lia.
  - peek_at H. destruct (is_lwsp c) eqn:W.
    + destruct (get_cons _ _ _ _ H) as (s1 & E & H1). rewrite E. cbn [length] in *. destruct (IH s1 _ r H1 ltac:(lia)) as (s' & p' & r' & E' & H' & L' & W').
      exists s', p', r'. split; [exact E'|]. split; [exact H'|]. split; [lia|]. rewrite W'. lia.
    + do 3 eexists. split; [reflexivity|]. split; [exact H|]. split; [lia|]. lia.
Qed.
Lemma name_rest_bound f : forall s p r n, St s p r -> length r < f ->
  exists n' s' p' r', tl_name_rest f s n = Ok (n', s') /\ St s' p' r' /\ length r' <= length r /\ name_rest_work f s = 2 * (length r - length r') + 1 /\
    length n' = length n + (length r - length r').
Proof.
  induction f as [|f IH]; intros s p r n H L; [lia|]. cbn [tl_name_rest name_rest_work]. destruct r as [|c r].
  - peek_at H. do 4 eexists. split; [reflexivity|]. split; [eassumption|]. split; [lia|]. cbn [length]. lia.
  - peek_at H. destruct (is_namechar c) eqn:W.
    + destruct (get_cons _ _ _ _ H) as (s1 & E & H1). rewrite E. cbn [length] in *. destruct (IH s1 _ r (n ++ [as_char (Some c)]) H1 ltac:(lia)) as (n' & s' & p' & r' & E' & H' & L' & W' & N').
      exists n', s', p', r'. split; [exact E'|]. split; [exact H'|]. split; [lia|]. split; [rewrite W'; lia|]. rewrite N', app_length. cbn [length]. lia.
    + do 4 eexists. split; [reflexivity|]. split; [exact H|]. split; [lia|]. lia.
Qed.
Lemma name_bound s p r : St s p r ->
  exists n s' p' r', tl_name s = Ok (n, s') /\ St s' p' r' /\ length r' <= length r /\ name_work s <= 2 * (length r - length r') + 2 /\ length n = length r - length r'.
Proof.
  intros H. unfold tl_name, name_work. destruct r as [|c r].
  - peek_at H. rewrite (St_fuel _ _ _ H0). destruct (name_rest_bound (S (length (@nil ascii))) s0 p [] [] H0 ltac:(lia)) as (n & s' & p' & r' & E' & H' & L' & W' & N').
    exists n, s', p', r'. split; [exact E'|]. split; [exact H'|]. split; [exact L'|]. split; [rewrite W'; lia|]. rewrite N'. cbn [length]. lia.
  - peek_at H. destruct (is_alnum c) eqn:W.
    + destruct (get_cons _ _ _ _ H) as (s1 & E & H1). rewrite E, (St_fuel _ _ _ H1). cbn [length] in *.
      destruct (name_rest_bound (S (length r)) s1 _ r [as_char (Some c)] H1 ltac:(lia)) as (n & s' & p' & r' & E' & H' & L' & W' & N').
      exists n, s', p', r'. split; [exact E'|]. split; [exact H'|]. split; [lia|]. split; [rewrite W'; lia|]. rewrite N'. cbn [length]. lia.
    + rewrite (St_fuel _ _ _ H). destruct (name_rest_bound (S (length (c :: r))) s _ (c :: r) [] H ltac:(lia)) as (n & s' & p' & r' & E' & H' & L' & W' & N').
      exists n, s', p', r'. split; [exact E'|]. split; [exact H'|]. split; [lia|]. split; [rewrite W'; lia|]. rewrite N'. cbn [length] in *. lia.
Qed.
Lemma tag_value_bound f : forall s p r v b, St s p r -> length r < f ->
  match tl_value f s v b with
  | Ok (_, s') => exists p' r', St s' p' r' /\ length r' <= length r /\ tag_value_work f s <= 3 * (length r - length r') + 1
  | Throw _ => tag_value_work f s <= 3 * length r + 3
  | _ => False
  end.
Proof.
  induction f as [|f IH]; intros s p r v b H L; [lia|]. cbn [tl_value tag_value_work]. destruct r as [|c r].
  - peek_at H. do 2 eexists. split; [eassumption|]. cbn [length]. lia.
  - peek_at H. destruct (c =?c SEMI); [do 2 eexists; split; [exact H|lia]|]. destruct (is_valchar c).
    + destruct (get_cons _ _ _ _ H) as (s1 & E & H1). rewrite E. cbn [length] in *. specialize (IH s1 _ r (v ++ b ++ [as_char (Some c)]) [] H1 ltac:(lia)).
      destruct (tl_value f s1 _ _) as [[v' s']| | |]; auto; [|lia]. destruct IH as (p' & r' & H' & L' & W'). exists p', r'. split; [exact H'|]. lia.
    + unfold read_wsp_loose. rewrite (peek_cons _ _ _ _ H). destruct (is_lwsp c).
      * destruct (get_cons _ _ _ _ H) as (s1 & E & H1). rewrite E. cbn [length as_char] in *. specialize (IH s1 _ r v (b ++ [c]) H1 ltac:(lia)).
        destruct (tl_value f s1 _ _) as [[v' s']| | |]; auto; [|lia]. destruct IH as (p' & r' & H' & L' & W'). exists p', r'. split; [exact H'|]. lia.
      * unfold perm. cbn [length]. lia.
Qed.
Lemma tellg_St s p r : St s p r -> exists off s', tellg s = (off, s') /\ St s' p r.
Proof.
  intros (A & B & G). unfold tellg. destruct (good s) eqn:E.
  - do 2 eexists. split; [reflexivity|]. split; auto.
  - do 2 eexists. split; [reflexivity|]. destruct G as [G|G]; [discriminate|]. unfold set_fail. split; [exact A|]. split; [exact B|]. right. exact G.
Qed.
Lemma tags_bound f : forall s p r tags, St s p r -> length r < f -> tags_work f s tags <= 6 * length r + 14.
Proof.
  induction f as [|f IH]; intros s p r tags H L; [lia|]. cbn [tags_work]. rewrite (St_fuel _ _ _ H).
  destruct (loose_bound (S (length r)) s p r H ltac:(lia)) as (s1 & p1 & r1 & E1 & H1 & L1 & W1). rewrite E1, W1. destruct r1 as [|c r1].
  { peek_at H1. lia. }
  peek_at H1. destruct (name_bound s1 p1 (c :: r1) H1) as (n & s3 & p3 & r3 & E3 & H3 & L3 & W3 & N3). rewrite E3. destruct n as [|x n]; [cbn [length] in *; lia|].
  destruct (GetTag (x :: n) tags); [cbn [length] in *; lia|]. rewrite (St_fuel _ _ _ H3).
  destruct (loose_bound (S (length r3)) s3 p3 r3 H3 ltac:(lia)) as (s4 & p4 & r4 & E4 & H4 & L4 & W4). rewrite E4, W4. destruct r4 as [|e r4].
  { peek_at H4. cbn [length] in *. lia. }
  peek_at H4. destruct (e =?c EQUALS); [|cbn [length] in *; lia]. destruct (get_cons _ _ _ _ H4) as (s6 & E6 & H6). rewrite E6, (St_fuel _ _ _ H6).
  destruct (loose_bound (S (length r4)) s6 _ r4 H6 ltac:(lia)) as (s7 & p7 & r7 & E7 & H7 & L7 & W7). rewrite E7, W7.
  destruct (tellg_St _ _ _ H7) as (off & s8 & E8 & H8). rewrite E8, (St_fuel _ _ _ H8). pose proof (tag_value_bound (S (length r7)) s8 _ r7 [] [] H8 ltac:(lia)) as V.
  destruct (tl_value (S (length r7)) s8 [] []) as [[v s9]| | |]; try contradiction; [|cbn [length] in *; lia]. destruct V as (p9 & r9 & H9 & L9 & W9).
  destruct r9 as [|d r9].
  { get_at H9. cbn [length] in *. lia. }
  destruct (get_cons _ _ _ _ H9) as (s10 & E10 & H10). rewrite E10. cbn [length] in *.
  assert (LT : length r9 < f) by lia. match goal with |- context [tags_work f s10 ?x] => pose proof (IH s10 _ r9 x H10 LT) as B end. clear IH. lia.
Qed.
Lemma taglist_linear t : taglist_work t <= 14 + 6 * length t.
Proof. unfold taglist_work, fuel_of. cbn [open_str s_rest]. pose proof (tags_bound (S (length t)) (open_str t) [] t [] (St_open t) ltac:(lia)). lia. Qed.

(** ** The relaxed form *)
Section Unfolding.
  Variables (t : bytes) (Q Z : nat).
  Hypothesis cost : forall s p r, St s p r -> inside t r -> fws_work s <= match l_fws r with Some (w, _) => Q + 2 * length w | None => Z end.
  Lemma unfold_bound f : forall s p r x, St s p r -> inside t r -> length r < f ->
    unfold_work f s <= (2 * Q + 4) * length r + 2 * Q + 1 + Z /\ (forall x', fh_loop f s x = Ok x' -> length x' <= length x + length r).
  Proof using cost.
    induction f as [|f IH]; intros s p r x H I L; [lia|]. cbn [fh_loop unfold_work].
    pose proof (read_fws_St _ _ _ H) as R. pose proof (cost _ _ _ H I) as K. destruct (l_fws r) as [[w r']|] eqn:E.
    2:{ rewrite R in *. cbn [obind perm]. split; [nia|discriminate]. }
    destruct R as (s1 & -> & H1). cbn [obind]. apply l_fws_app in E. subst r. rewrite app_length in *.
    assert (SK : match (match w with [] => Ok s1 | _ => skip_fws (fuel_of s1) s1 end) with
                 | Ok s2 => exists p2 r2, St s2 p2 r2 /\ inside t r2 /\ length r2 <= length r' /\
                     (match w with [] => 0 | _ => skip_work (fuel_of s1) s1 end) <= (Q + 2) * (length r' - length r2) + Q
                 | Throw _ => (match w with [] => 0 | _ => skip_work (fuel_of s1) s1 end) <= (Q + 2) * length r' + Z
                 | _ => False
                 end).
    { destruct w as [|c w].
      - exists p, r'. split; [exact H1|]. split; [exact I|]. split; [lia|]. nia.
      - rewrite (St_fuel _ _ _ H1). exact (skip_bound t Q Z cost (S (length r')) s1 _ r' H1 (inside_skip t _ _ I) ltac:(lia)). }
    remember (match w with [] => 0 | _ => skip_work (fuel_of s1) s1 end) as W eqn:EW. clear EW.
    destruct (match w with [] => Ok s1 | _ => skip_fws (fuel_of s1) s1 end) as [s2| | |]; try contradiction; cbn [obind].
    2:{ split; [nia|discriminate]. }
    destruct SK as (p2 & r2 & H2 & I2 & L2 & W2). destruct r2 as [|c r2].
    - peek_at H2. split; [cbn [length] in *; nia|]. intros x' [= <-]. lia.
    - peek_at H2. destruct (get_cons _ _ _ _ H2) as (s4 & E4 & H4). rewrite E4. cbn [length as_char] in *.
      destruct (IH s4 _ r2 (x ++ (if match w with [] => false | _ => true end then [SP] else []) ++ [c]) H4 (inside_skip t [c] _ I2) ltac:(lia)) as [B1 B2]. split; [nia|]. intros x' EX. apply B2 in EX. rewrite !app_length in EX. destruct w; cbn [length] in *; lia.
  Qed.
End Unfolding.
Lemma lower_same c : (tolower c = CR -> c = CR) /\ (tolower c = LF -> c = LF) /\ (WSP c -> WSP (tolower c)).
Proof.
  assert (A : forall c, implb (tolower c =?c CR) (c =?c CR) = true) by (apply byte_sweep; vm_compute; reflexivity).
  assert (B : forall c, implb (tolower c =?c LF) (c =?c LF) = true) by (apply byte_sweep; vm_compute; reflexivity).
  specialize (A c). specialize (B c). split; [|split].
  - intros E. rewrite E in A. cbn in A. apply ceqb_eq. exact A.
  - intros E. rewrite E in B. cbn in B. apply ceqb_eq. exact B.
  - intros [->| ->]; [left|right]; reflexivity.
Qed.
Lemma folds_lower n r : folds_only (n ++ r) -> folds_only (lower n ++ r).
Proof.
  intros F a b E.
  assert (X : exists a' b', n ++ r = a' ++ CRLF ++ b' /\ match b' with [] => b = [] | c :: _ => exists d, (d = c \/ d = tolower c) /\ exists y, b = d :: y end).
  { clear F. revert a E. induction n as [|x n IH]; intros a E; cbn [lower map app] in E.
    - exists a, b. split; [exact E|]. destruct b as [|c b]; [reflexivity|]. exists c. split; [left; reflexivity|eauto].
    - destruct a as [|y a]; cbn [app] in E.
      + unfold CRLF in E. cbn [app] in E. injection E as E1 E2. destruct (lower_same x) as (LX & _). apply LX in E1. subst x. destruct n as [|z n]; cbn [lower map app] in E2.
        * destruct r as [|z r]; [discriminate|]. injection E2 as -> ->. exists [], b. split; [reflexivity|]. destruct b as [|c b]; [reflexivity|]. exists c. split; [left; reflexivity|eauto].
        * injection E2 as E2 E3. destruct (lower_same z) as (_ & LZ & _). apply LZ in E2. subst z. exists [], (n ++ r). split; [reflexivity|]. rewrite <- E3.
          destruct n as [|c n]; cbn [app lower map]; [destruct r as [|c r]; [reflexivity|exists c; split; [left; reflexivity|eauto]]|]. exists (tolower c). split; [right; reflexivity|eauto].
      + injection E as E1 E2. destruct (IH a E2) as (a' & b' & E' & M). exists (x :: a'), b'. split; [cbn [app]; rewrite E'; reflexivity|exact M]. }
  destruct X as (a' & b' & E' & M). pose proof (F a' b' E') as W. destruct b' as [|c b']; [destruct W|]. destruct M as (d & D & y & ->).
  destruct D as [->| ->]; [exact W|]. apply lower_same. exact W.
Qed.
Lemma filter_linear strict x : folds_only x -> filter_work strict x <= 29 + 36 * length x.
Proof.
  intros F. unfold filter_work. destruct (find_char COLON x) as [colon|] eqn:FC; [|lia].
  assert (LC : colon < length x) by (apply WorkFacts.find_bound in FC; exact FC).
  destruct (lower_str strict (firstn colon x)) as [name| | |] eqn:LS; try lia.
  assert (EN : name = lower (firstn colon x)) by (unfold lower_str in LS; destruct (strict && existsb is_8bit (firstn colon x)); [discriminate|]; injection LS as <-; reflexivity). subst name.
  remember (lower (firstn colon x) ++ skipn colon x) as out eqn:EO.
  assert (LO : length out = length x). { rewrite EO. unfold lower. rewrite app_length, map_length, <- app_length, firstn_skipn. reflexivity. }
  assert (FO : folds_only out). { rewrite EO. apply folds_lower. rewrite firstn_skipn. exact F. }
  destruct (unfold_bound out 9 (4 + 2 * length out)) with (f := fuel_of (open_str out)) (s := open_str out) (p := @nil ascii) (r := out) (x := @nil ascii) as [B1 B2].
  - intros s p r H I. pose proof (inside_length _ _ I) as L. pose proof (fws_work_St _ _ _ H) as K. destruct (l_fws r) as [[w r']|]; [|lia].
    destruct K as [K|(u & r2 & -> & -> & _ & N & K)]; [lia|]. destruct I as (a & E). rewrite app_assoc in E. pose proof (FO _ _ E) as X. destruct r2; [destruct X|destruct (N X)].
  - apply St_open.
  - exists []. reflexivity.
  - unfold fuel_of. cbn [open_str s_rest]. lia.
  - destruct (fh_loop _ _ []) as [y| | |]; [specialize (B2 y eq_refl); cbn [length] in B2|..]; lia.
Qed.
Lemma relaxed_linear strict t m s h : parse_all new_message (open_str t) = Ok (m, s) -> In h (m_headers m) -> filter_work strict (h_text h) <= 29 + 36 * length (h_text h).
Proof. intros P I. apply filter_linear. exact (message_folds _ _ _ _ P I). Qed.

(** The signature field itself, without the value of b=. *)
Definition lf_after_cr (t : bytes) : Prop := forall a b, t = a ++ LF :: b -> exists a', a = a' ++ [CR].
Lemma joined_lf g : Forall (fun l => ~ In LF l) g -> lf_after_cr (joined g).
Proof.
  induction g as [|l g IH]; intros F a b E; [destruct a; discriminate|]. inversion F as [|? ? N F']; subst. destruct g as [|k g].
  - exfalso. apply N. cbn [joined] in E. rewrite E. apply in_or_app. right. left. reflexivity.
  - change (joined (l :: k :: g)) with (l ++ CRLF ++ joined (k :: g)) in E. unfold CRLF in E. cbn [app] in E.
    change (l ++ CR :: LF :: joined (k :: g)) with (l ++ [CR] ++ LF :: joined (k :: g)) in E. rewrite app_assoc in E.
    apply app_eq_app in E as (u & [[E1 E2]|[E1 E2]]).
    + destruct u as [|c u]; [rewrite app_nil_r in E1; subst a; eauto|]. exfalso. cbn [app] in E2. injection E2 as <- _.
      assert (I : In LF (l ++ [CR])) by (rewrite E1; apply in_or_app; right; left; reflexivity). apply in_app_or in I as [I|[I|[]]]; [exact (N I)|discriminate].
    + destruct u as [|c u]; [rewrite app_nil_r in E1; subst a; eauto|]. cbn [app] in E2. injection E2 as <- E2. destruct (IH F' u b E2) as (a' & ->). exists ((l ++ [CR]) ++ LF :: a').
      rewrite E1, <- !app_assoc. reflexivity.
Qed.
Lemma message_lf t m s' h : parse_all new_message (open_str t) = Ok (m, s') -> In h (m_headers m) -> lf_after_cr (h_text h).
Proof.
  intros P I. destruct (message_fields' t) as (ls & hd & rest & m' & s2 & HB & ET & P' & _ & gs & F2 & FL & _ & G).
  rewrite P in P'. apply Ok_inj in P'. injection P' as <- _.
  assert (NL : Forall (fun l => ~ In LF l) (concat gs)).
  { apply block_no_lf in HB. destruct G as [[_ ->]|(_ & l & [N [->|[-> _]]] & ->)]; auto; apply Forall_app; (split; [exact HB|]);
      destruct l as [|c l]; constructor; auto. intros X. apply N. apply in_or_app. left. exact X. }
  clear - I F2 FL NL. revert I. induction F2 as [|f g fs gs [E _] F2 IH]; intros I; [destruct I|].
  inversion FL; subst. cbn [concat] in NL. apply Forall_app in NL as [N1 N2]. destruct I as [<-|I]; auto.
  rewrite E. apply joined_lf; auto.
Qed.
Lemma value_no_ws c : value_byte c -> c <> CR /\ c <> LF /\ ~ WSP c.
Proof. intros V. repeat split; [intros ->|intros ->|intros [->| ->]]; apply value_byte_b in V; vm_compute in V; discriminate. Qed.
Lemma folds_without a v b : folds_only (a ++ v ++ b) -> lf_after_cr (a ++ v ++ b) -> tag_value v -> folds_only (a ++ b).
Proof.
  intros F N (_ & V1 & V2). destruct v as [|c v]; [exact F|]. cbn in V1. destruct (value_no_ws _ V1) as (C1 & C2 & C3).
  assert (NL : forall b', b = LF :: b' -> False).
  { intros b' ->. rewrite app_assoc in N. destruct (N _ _ eq_refl) as (x & E). unfold last_ok in V2.
    assert (X : last (a ++ c :: v) LF = CR) by (rewrite E; apply last_last).
    assert (Y : exists w d, c :: v = w ++ [d] /\ value_byte d).
    { destruct (rev (c :: v)) as [|d w] eqn:R; [apply (f_equal (@length ascii)) in R; rewrite rev_length in R; discriminate|]. cbn in V2. exists (rev w), d. split; [|exact V2].
      apply (f_equal (@rev ascii)) in R. rewrite rev_involutive in R. exact R. }
    destruct Y as (w & d & EV & VD). rewrite EV, app_assoc, last_last in X. subst d. destruct (value_no_ws _ VD) as (Z & _). apply Z. reflexivity. }
  intros x y E. unfold CRLF in E. cbn [app] in E. apply app_eq_app in E as (u & [[E1 E2]|[E1 E2]]).
  - destruct u as [|d u]; cbn [app] in E2.
    + rewrite app_nil_r in E1. subst x b. specialize (F (a ++ c :: v) y). apply F. unfold CRLF. rewrite <- !app_assoc. reflexivity.
    + injection E2 as <- E2. destruct u as [|e u]; cbn [app] in E2; [exfalso; eapply NL; symmetry; exact E2|]. injection E2 as <- E2. subst a.
      specialize (F x (u ++ (c :: v) ++ b)). unfold CRLF in F. rewrite <- !app_assoc in F. cbn [app] in F. specialize (F eq_refl). destruct u as [|z u]; cbn [app] in F; [destruct (C3 F)|].
      cbn [app] in E2. subst y. exact F.
  - subst x b. specialize (F (a ++ (c :: v) ++ u) y). apply F. unfold CRLF. rewrite <- !app_assoc. reflexivity.
Qed.
Lemma stripped_linear strict t m s h a v b : parse_all new_message (open_str t) = Ok (m, s) -> In h (m_headers m) -> h_text h = a ++ v ++ b -> tag_value v ->
  filter_work strict (a ++ b) <= 29 + 36 * length (h_text h).
Proof.
  intros P I E V. pose proof (message_folds _ _ _ _ P I) as F. pose proof (message_lf _ _ _ _ P I) as N. rewrite E in *.
  pose proof (filter_linear strict (a ++ b) (folds_without _ _ _ F N V)) as B. rewrite !app_length in *. lia.
Qed.

(** Other texts: a stray CRLF behind blanks. *)
Lemma stray_unfold n : forall f s p, St s p (stray n) -> length (stray n) < f -> n * n <= unfold_work f s + 9 * n.
Proof.
  induction n as [|n IH]; intros f s p H L; [lia|]. destruct f as [|f]; [lia|]. cbn [unfold_work]. pose proof (stray_fws _ _ _ H) as K.
  pose proof (read_fws_St _ _ _ H) as R. rewrite stray_read in R. destruct R as (s1 & -> & H1). cbn [rev app] in H1.
  change (stray (S n)) with (SP :: stray n) in *. rewrite (peek_cons _ _ _ _ H1). cbv iota.
  destruct (get_cons _ _ _ _ H1) as (s3 & -> & H3). cbn [length] in L. specialize (IH f s3 _ H3 ltac:(lia)). nia.
Qed.
Lemma stray_filter strict n : n * n <= filter_work strict (COLON :: stray n) + 9 * n.
Proof.
  unfold filter_work. change (find_char COLON (COLON :: stray n)) with (Some 0). cbn [firstn skipn].
  assert (LS : lower_str strict [] = Ok []) by (unfold lower_str; destruct strict; reflexivity). rewrite LS. cbn [app].
  pose proof (St_open (COLON :: stray n)) as H. rewrite (St_fuel _ _ _ H). cbn [unfold_work].
  assert (E : l_fws (COLON :: stray n) = Some ([], COLON :: stray n)) by reflexivity.
  pose proof (read_fws_St _ _ _ H) as R. rewrite E in R. destruct R as (s1 & -> & H1). cbn [rev app] in H1.
  rewrite (peek_cons _ _ _ _ H1). destruct (get_cons _ _ _ _ H1) as (s3 & -> & H3).
  pose proof (stray_unfold n (length (COLON :: stray n)) s3 _ H3 ltac:(cbn [length]; lia)) as V. lia.
Qed.
Lemma work_cases : taglist_work (str "v=1; b= x") = 32 /\ filter_work true (str "Ab : c") = 89.
Proof. split; vm_compute; reflexivity. Qed.
Definition small : bytes := str "A: v=1;" ++ CRLF ++ str " b=xy" ++ CRLF ++ CRLF.
Definition small_text : bytes := str "A: v=1;" ++ CRLF ++ str " b=xy".
Lemma small_case : exists m s h, parse_all new_message (open_str small) = Ok (m, s) /\ In h (m_headers m) /\ h_text h = small_text /\
  small_text = (str "A: v=1;" ++ CRLF ++ str " b=") ++ str "xy" ++ [] /\ tag_value (str "xy") /\
  filter_work true small_text = 171 /\ filter_work true ((str "A: v=1;" ++ CRLF ++ str " b=") ++ []) = 145.
Proof.
  do 3 eexists. split; [vm_compute; reflexivity|]. split; [left; reflexivity|]. split; [vm_compute; reflexivity|]. split; [vm_compute; reflexivity|].
  split; [|split; vm_compute; reflexivity]. split; [|split; [|]].
  - unfold str. cbn. apply Forall_cons; [left; apply value_byte_b; reflexivity|]. apply Forall_cons; [left; apply value_byte_b; reflexivity|constructor].
  - cbn. apply value_byte_b. reflexivity.
  - unfold last_ok. cbn. apply value_byte_b. reflexivity.
Qed.
