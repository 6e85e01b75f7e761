(** Exactly what Resolver::GetTXT reads from any packet. *)
From Verif Require Import Bytes Outcome Resolver BytesFacts SpecDns ResolverFacts ResolverCut.

Lemma split_at {A} n (l : list A) : n <= length l -> exists a b, l = a ++ b /\ length a = n.
Proof. intros L. exists (firstn n l), (skipn n l). rewrite firstn_skipn. split; [reflexivity|]. rewrite firstn_length. lia. Qed.
Lemma app_same {A} (a b c d : list A) : a ++ b = c ++ d -> length a = length c -> a = c /\ b = d.
Proof.
  revert c. induction a as [|x a IH]; intros [|y c] E L; cbn in *; try discriminate; auto.
  injection E as -> E. injection L as L. destruct (IH _ E L) as [-> ->]. auto.
Qed.
Lemma behind_fun lax d r : behind lax d r -> forall r', behind lax d r' -> r = r'.
Proof.
  induction 1 as [r|a b r A|a l d r A L H IH|LX]; intros r' H'.
  - inversion H'; subst; auto; exfalso; change (code (chr 0)) with 0%N in *; lia.
  - inversion H'; subst; auto; exfalso; try lia. change (code (chr 0)) with 0%N in *. lia.
  - inversion H' as [r0 E|a0 b0 r0 A0 E|a0 l0 d0 r0 A0 L0 H0 E|LX0 E].
    + subst a. change (code (chr 0)) with 0%N in *. lia.
    + subst a0. lia.
    + subst. match goal with E : _ ++ _ = _ ++ _ |- _ => apply app_same in E as [-> ->]; [|lia] end. auto.
  - inversion H'; auto.
Qed.
(** dn_skipname finds the end of the name that is there. *)
Lemma skip_reads lax f : forall pre d, fits (pre ++ d) -> length d < f ->
  (exists n r, d = n ++ r /\ behind lax d r /\ skip_name lax f (pre ++ d) (N.of_nat (length (pre ++ d))) (N.of_nat (length pre)) = Ok (Some (N.of_nat (length (pre ++ n))))) \/
  ((forall r, ~ behind lax d r) /\ skip_name lax f (pre ++ d) (N.of_nat (length (pre ++ d))) (N.of_nat (length pre)) = Ok None).
Proof.
  induction f as [|f IH]; intros pre d F L; [lia|]. destruct d as [|a d].
  { cbn [skip_name]. rewrite app_nil_r. rewrite N.ltb_irrefl, N.eqb_refl. destruct lax; cbn [andb].
    - left. exists [], []. split; [reflexivity|]. split; [apply bh_end; reflexivity|rewrite app_nil_r; reflexivity].
    - right. split; [|reflexivity]. intros r H. inversion H. discriminate. }
  cbn [skip_name]. rewrite (proj2 (N.ltb_lt _ _)) by (lens; lia). rewrite rd_at by (lens; lia). cbn [obind].
  destruct (N.eqb_spec (code a) 0) as [Z|NZ].
  { assert (a = chr 0) as -> by (apply code_inj; exact Z). left. exists [chr 0], d. split; [reflexivity|]. split; [constructor|]. do 2 f_equal. lens. lia. }
  destruct (N.ltb_spec (code a) 64) as [LT|GE].
  - destruct (Nat.le_gt_cases (N.to_nat (code a)) (length d)) as [LE|GT].
    + destruct (split_at _ _ LE) as (l & d' & -> & LL).
      assert (PE : (pre ++ a :: l ++ d') = (pre ++ a :: l) ++ d') by (rewrite <- app_assoc; reflexivity).
      replace (N.of_nat (length pre) + 1 + code a)%N with (N.of_nat (length (pre ++ a :: l))) by (lens; lia). rewrite PE.
      destruct (IH (pre ++ a :: l) d') as [(n & r & -> & B & E)|[NB E]]; [rewrite <- PE; exact F|lens; lia| |].
      * left. exists (a :: l ++ n), r. split; [cbn [app]; rewrite <- app_assoc; reflexivity|]. split; [apply bh_label; [lia|exact LL|exact B]|].
        rewrite E. do 3 f_equal. lens. lia.
      * right. split; [|exact E]. intros r H. inversion H as [r0 E0|a0 b0 r0 A0 E0|a0 l0 d0 r0 A0 L0 H0 E0|LX0 E0].
        -- subst a. apply NZ. reflexivity.
        -- subst. lia.
        -- subst. match goal with E : _ ++ _ = _ ++ _ |- _ => apply app_same in E as [-> ->]; [|lia] end. exact (NB _ H0).
    + right. split.
      * intros r H. inversion H as [r0 E0|a0 b0 r0 A0 E0|a0 l0 d0 r0 A0 L0 H0 E0|LX0 E0].
        -- subst a. apply NZ. reflexivity.
        -- subst. lia.
        -- subst. lens. lia.
      * destruct f as [|f]; [lens; lia|]. cbn [skip_name]. rewrite (proj2 (N.ltb_ge _ _)) by (lens; lia).
        rewrite (proj2 (N.eqb_neq _ _)) by (lens; lia). rewrite andb_false_r. reflexivity.
  - destruct (N.leb_spec 192 (code a)) as [PT|NP].
    + destruct d as [|b d].
      * rewrite (proj2 (N.leb_gt _ _)) by (lens; lia). right. split; [|reflexivity]. intros r H.
        inversion H; subst; try lia; apply NZ; reflexivity.
      * rewrite (proj2 (N.leb_le _ _)) by (lens; lia). left. exists [a; b], d. split; [reflexivity|]. split; [constructor; exact PT|]. do 2 f_equal. lens. lia.
    + right. split; [|reflexivity]. intros r H. inversion H; subst; try lia; apply NZ; reflexivity.
Qed.
Lemma name_reads lax pre d : fits (pre ++ d) ->
  (exists n r, d = n ++ r /\ behind lax d r /\ dn_skipname lax (pre ++ d) (N.of_nat (length pre)) = Ok (Some (N.of_nat (length (pre ++ n))))) \/
  ((forall r, ~ behind lax d r) /\ dn_skipname lax (pre ++ d) (N.of_nat (length pre)) = Ok None).
Proof. intros F. unfold dn_skipname. apply skip_reads; [exact F|]. lens. lia. Qed.
Lemma name_far lax pkt p : (N.of_nat (length pkt) < p)%N -> dn_skipname lax pkt p = Ok None.
Proof.
  intros L. unfold dn_skipname. cbn [skip_name]. rewrite (proj2 (N.ltb_ge _ _)) by lia. rewrite (proj2 (N.eqb_neq _ _)) by lia. rewrite andb_false_r. reflexivity.
Qed.

(** The questions. *)
Lemma questions_reads lax q : forall pre d, fits (pre ++ d) ->
  (exists n r, d = n ++ r /\ questions_read lax q d (Some r) /\ skip_questions lax (pre ++ d) q (N.of_nat (length pre)) = Ok (Some (N.of_nat (length (pre ++ n))))) \/
  (questions_read lax q d None /\ (skip_questions lax (pre ++ d) q (N.of_nat (length pre)) = Ok None \/
     exists p, skip_questions lax (pre ++ d) q (N.of_nat (length pre)) = Ok (Some p) /\ (N.of_nat (length (pre ++ d)) < p)%N)).
Proof.
  induction q as [|q IH]; intros pre d F; cbn [skip_questions].
  { destruct (dn_skipname_ok lax (pre ++ d) (N.of_nat (length pre)) F) as (s & -> & _). cbn [obind]. left. exists [], d.
    rewrite app_nil_r. split; [reflexivity|]. split; [constructor|reflexivity]. }
  destruct (name_reads lax pre d F) as [(n & r & -> & B & ->)|[NB ->]]; cbn [obind].
  2:{ right. split; [|left; reflexivity]. apply qr_lost. intros f r H. destruct (NB _ H). }
  destruct (Nat.le_gt_cases 4 (length r)) as [LE|GT].
  - destruct (split_at _ _ LE) as (f & r' & -> & L4).
    assert (PE : pre ++ n ++ f ++ r' = (pre ++ n ++ f) ++ r') by (rewrite <- !app_assoc; reflexivity).
    replace (N.of_nat (length (pre ++ n)) + 4)%N with (N.of_nat (length (pre ++ n ++ f))) by (lens; lia). rewrite PE.
    destruct (IH (pre ++ n ++ f) r') as [(m & r2 & -> & Q & E)|(Q & E)]; [rewrite <- PE; exact F| |].
    + left. exists (n ++ f ++ m), r2. split; [rewrite <- !app_assoc; reflexivity|]. split; [eapply qr_one; eauto|]. rewrite E. do 3 f_equal. lens. lia.
    + right. split; [eapply qr_one; eauto|exact E].
  - right. split; [apply qr_lost; intros f r' H; pose proof (behind_fun _ _ _ B _ H) as ->; lens; lia|].
    assert (FAR : (N.of_nat (length (pre ++ n ++ r)) < N.of_nat (length (pre ++ n)) + 4)%N) by (lens; lia).
    destruct q as [|q]; cbn [skip_questions]; rewrite name_far by exact FAR; cbn [obind]; [right; eauto|left; reflexivity].
Qed.

(** The texts. *)
Lemma text_reads f : forall pre rd more result, fits (pre ++ rd ++ more) -> length rd < f ->
  exists x, text_of rd x /\ txt_loop f (pre ++ rd ++ more) (N.of_nat (length pre)) (N.of_nat (length rd)) result = Ok (result ++ x).
Proof.
  induction f as [|f IH]; intros pre rd more result F L; [lia|]. cbn [txt_loop]. destruct rd as [|a rd].
  { exists []. split; [apply (to_all [] []); constructor|]. rewrite app_nil_r. reflexivity. }
  rewrite (proj2 (N.ltb_lt _ _)) by (cbn [length]; lia). cbn [app]. rewrite rd_at by (lens; lia). cbn [obind].
  destruct (N.leb_spec (N.of_nat (length (a :: rd))) (code a)) as [OV|FIT].
  { exists []. split; [apply (to_some [] [] a rd); [constructor|cbn [length] in OV; lia]|]. rewrite app_nil_r. reflexivity. }
  destruct (split_at (N.to_nat (code a)) rd) as (s & rd' & -> & LS); [cbn [length] in FIT; lia|].
  assert (PE : pre ++ a :: (s ++ rd') ++ more = (pre ++ a :: s) ++ rd' ++ more) by (rewrite <- !app_assoc; reflexivity).
  assert (RN : rd_n (pre ++ a :: (s ++ rd') ++ more) (N.of_nat (length pre) + 1)%N (N.to_nat (code a)) = Ok s).
  { rewrite <- LS. replace (N.of_nat (length pre) + 1)%N with (N.of_nat (length (pre ++ [a]))) by (lens; lia).
    replace (pre ++ a :: (s ++ rd') ++ more) with ((pre ++ [a]) ++ s ++ rd' ++ more) by (rewrite <- !app_assoc; reflexivity).
    apply rd_n_at. cbn [app] in F. revert F. lens. lia. }
  rewrite RN. cbn [obind].
  replace (N.of_nat (length pre) + code a + 1)%N with (N.of_nat (length (pre ++ a :: s))) by (lens; lia).
  replace (N.of_nat (length (a :: s ++ rd')) - (code a + 1))%N with (N.of_nat (length rd')) by (lens; lia). rewrite PE.
  destruct (IH (pre ++ a :: s) rd' more (result ++ s)) as (x & T & E); [rewrite <- PE; exact F|lens; lia|].
  exists (s ++ x). split; [|rewrite E, <- app_assoc; reflexivity]. destruct T as [ss d ST|ss d b s' ST LB].
  - apply (to_all (s :: ss)). constructor; [exact LS|exact ST].
  - replace (a :: s ++ d ++ b :: s') with ((a :: s ++ d) ++ b :: s') by (cbn [app]; rewrite <- app_assoc; reflexivity).
    apply (to_some (s :: ss)); [constructor; [exact LS|exact ST]|exact LB].
Qed.
Lemma two_bytes_of a b : two_bytes (256 * code a + code b) [a; b]. Proof. constructor. Qed.
Lemma answers_reads lax c : forall pre d result, fits (pre ++ d) ->
  exists ok x, answers_read lax c d ok x /\ answers lax (pre ++ d) c (N.of_nat (length pre)) result = Ok (ok, result ++ x).
Proof.
  induction c as [|c IH]; intros pre d result F; cbn [answers].
  { exists true, []. rewrite app_nil_r. split; [constructor|reflexivity]. }
  destruct (name_reads lax pre d F) as [(n & r & -> & B & ->)|[NB ->]]; cbn [obind].
  2:{ exists true, []. rewrite app_nil_r. split; [apply ar_no_name; exact NB|reflexivity]. }
  destruct (N.ltb_spec (N.of_nat (length (pre ++ n ++ r))) (N.of_nat (length (pre ++ n)) + 10)) as [SH|LG].
  { exists false, []. rewrite app_nil_r. split; [|reflexivity]. eapply ar_cut; [exact B|]. intros t rd more (ty & cls & len & -> & T1 & L6 & T2).
    destruct T1. inversion T2. subst. lens. lia. }
  destruct (split_at 2 r) as (ty & r1 & -> & L2); [lens; lia|]. destruct (split_at 6 r1) as (cls & r2 & -> & L6); [lens; lia|].
  destruct (split_at 2 r2) as (len & r3 & -> & L2'); [lens; lia|].
  destruct ty as [|ta [|tb [|? ?]]]; try discriminate. destruct len as [|la [|lb [|? ?]]]; try discriminate.
  pose proof (two_bytes_of ta tb) as T1. pose proof (two_bytes_of la lb) as T2. set (t := (256 * code ta + code tb)%N) in *. set (m := (256 * code la + code lb)%N) in *.
  set (ty := [ta; tb]) in *. set (len := [la; lb]) in *.
  assert (E1 : rd16 (pre ++ n ++ ty ++ cls ++ len ++ r3) (N.of_nat (length (pre ++ n))) = Ok t).
  { replace (pre ++ n ++ ty ++ cls ++ len ++ r3) with ((pre ++ n) ++ ty ++ cls ++ len ++ r3) by (rewrite <- app_assoc; reflexivity).
    apply rd16_at; [rewrite <- app_assoc; exact F|exact T1]. }
  assert (E2 : rd16 (pre ++ n ++ ty ++ cls ++ len ++ r3) (N.of_nat (length (pre ++ n)) + 8)%N = Ok m).
  { replace (N.of_nat (length (pre ++ n)) + 8)%N with (N.of_nat (length (pre ++ n ++ ty ++ cls))) by (lens; lia).
    replace (pre ++ n ++ ty ++ cls ++ len ++ r3) with ((pre ++ n ++ ty ++ cls) ++ len ++ r3) by (rewrite <- !app_assoc; reflexivity).
    apply rd16_at; [rewrite <- !app_assoc; exact F|exact T2]. }
  rewrite E1, E2. cbn [obind]. clear E1 E2.
  destruct (N.ltb_spec (N.of_nat (length (pre ++ n ++ ty ++ cls ++ len ++ r3))) (N.of_nat (length (pre ++ n)) + 10 + m)) as [CUT|ALL].
  { exists false, []. rewrite app_nil_r. split; [|reflexivity]. eapply ar_cut; [exact B|]. intros t' rd more (ty' & cls' & len' & E & T1' & L6' & T2').
    inversion T1' as [x y X1 X2]. inversion T2' as [z w Z1 Z2]. subst ty' len'.
    apply app_same in E as [_ E]; [|reflexivity]. apply app_same in E as [_ E]; [|lia]. injection E as E3 E4 E5. 
    assert (M : m = N.of_nat (length rd)) by (rewrite <- E3, <- E4 in Z1; exact Z1). clear Z1 T2' E3 E4. clearbody ty len m. subst r3. lens. lia. }
  destruct (split_at (N.to_nat m) r3) as (rd & more & -> & LR); [lens; lia|].
  assert (FL : rr_fields (ty ++ cls ++ len ++ rd ++ more) t rd more).
  { exists ty, cls, len. split; [reflexivity|]. split; [exact T1|]. split; [exact L6|]. replace (N.of_nat (length rd)) with m by lia. exact T2. }
  assert (P2 : (N.of_nat (length (pre ++ n)) + 10)%N = N.of_nat (length (pre ++ n ++ ty ++ cls ++ len))) by (lens; lia).
  assert (P3 : (N.of_nat (length (pre ++ n)) + 10 + m)%N = N.of_nat (length (pre ++ n ++ ty ++ cls ++ len ++ rd))) by (lens; lia).
  assert (PK : pre ++ n ++ ty ++ cls ++ len ++ rd ++ more = (pre ++ n ++ ty ++ cls ++ len) ++ rd ++ more) by (rewrite <- !app_assoc; reflexivity).
  assert (PK2 : pre ++ n ++ ty ++ cls ++ len ++ rd ++ more = (pre ++ n ++ ty ++ cls ++ len ++ rd) ++ more) by (rewrite <- !app_assoc; reflexivity).
  assert (F2 : fits ((pre ++ n ++ ty ++ cls ++ len ++ rd) ++ more)) by (rewrite <- PK2; exact F).
  rewrite P3, P2. destruct (N.eqb_spec t 16) as [T16|NT].
  - destruct (text_reads (S (N.to_nat m)) (pre ++ n ++ ty ++ cls ++ len) rd more result) as (x & TX & E); [rewrite <- PK; exact F|lia|].
    rewrite <- PK in E. replace (N.of_nat (length rd)) with m in E by lia. rewrite E. cbn [obind]. rewrite PK2.
    destruct (IH (pre ++ n ++ ty ++ cls ++ len ++ rd) more (result ++ x) F2) as (ok & y & A & E3).
    exists ok, (x ++ y). split; [rewrite T16 in FL; eapply ar_txt; eauto|]. rewrite E3, <- app_assoc. reflexivity.
  - rewrite PK2. destruct (IH (pre ++ n ++ ty ++ cls ++ len ++ rd) more result F2) as (ok & y & A & E3).
    exists ok, y. split; [eapply ar_other; eauto|exact E3].
Qed.
Lemma packet_reads lax d : fits d -> exists ok t, packet_read lax d ok t /\ GetTXT lax (QAnswer d) = Ok (ok, t).
Proof.
  intros F. cbn [GetTXT]. rewrite (proj2 (N.ltb_ge _ _)) by exact F. destruct (Nat.lt_ge_cases (length d) 12) as [SH|LG].
  - exists true, []. split; [constructor; exact SH|]. destruct (rd16_ok d 4) as (qc & ->); [unfold BUFSZ; lia|]. cbn [obind].
    assert (FAR : forall l p, (12 <= p)%N -> dn_skipname l d p = Ok None) by (intros; apply name_far; lia).
    destruct (N.to_nat qc) as [|q]; cbn [skip_questions]; rewrite FAR by lia; cbn [obind]; [|reflexivity].
    destruct (rd16_ok d 6) as (cc & ->); [unfold BUFSZ; lia|]. cbn [obind]. destruct (N.to_nat cc) as [|c]; cbn [answers]; [reflexivity|].
    rewrite FAR by lia. reflexivity.
  - destruct (split_at 4 d) as (id & d1 & -> & L1); [lia|]. destruct (split_at 2 d1) as (qd & d2 & -> & L2); [lens; lia|].
    destruct (split_at 2 d2) as (an & d3 & -> & L3); [lens; lia|]. destruct (split_at 4 d3) as (rest & d4 & -> & L4); [lens; lia|].
    destruct qd as [|qa [|qb [|? ?]]]; try discriminate. destruct an as [|aa [|ab [|? ?]]]; try discriminate.
    pose proof (two_bytes_of qa qb) as T1. pose proof (two_bytes_of aa ab) as T2. set (q := (256 * code qa + code qb)%N) in *. set (c := (256 * code aa + code ab)%N) in *.
    set (qd := [qa; qb]) in *. set (an := [aa; ab]) in *.
    assert (E1 : rd16 (id ++ qd ++ an ++ rest ++ d4) 4 = Ok q) by (replace 4%N with (N.of_nat (length id)) by lia; apply rd16_at; [exact F|exact T1]).
    assert (E2 : rd16 (id ++ qd ++ an ++ rest ++ d4) 6 = Ok c).
    { replace 6%N with (N.of_nat (length (id ++ qd))) by (lens; lia). replace (id ++ qd ++ an ++ rest ++ d4) with ((id ++ qd) ++ an ++ rest ++ d4) by (rewrite <- !app_assoc; reflexivity).
      apply rd16_at; [rewrite <- !app_assoc; exact F|exact T2]. }
    rewrite E1. cbn [obind].
    assert (PK : id ++ qd ++ an ++ rest ++ d4 = (id ++ qd ++ an ++ rest) ++ d4) by (rewrite <- !app_assoc; reflexivity).
    assert (P12 : 12%N = N.of_nat (length (id ++ qd ++ an ++ rest))) by (lens; lia).
    assert (F2 : fits ((id ++ qd ++ an ++ rest) ++ d4)) by (rewrite <- PK; exact F).
    destruct (questions_reads lax (N.to_nat q) (id ++ qd ++ an ++ rest) d4 F2) as [(m & r & -> & Q & E)|(Q & E)]; rewrite <- P12, <- PK in E.
    + rewrite E. cbn [obind]. rewrite E2. cbn [obind].
      assert (PK2 : id ++ qd ++ an ++ rest ++ m ++ r = ((id ++ qd ++ an ++ rest) ++ m) ++ r) by (rewrite <- !app_assoc; reflexivity).
      destruct (answers_reads lax (N.to_nat c) ((id ++ qd ++ an ++ rest) ++ m) r []) as (ok & x & A & E3); [rewrite <- PK2; exact F|].
      exists ok, x. split; [eapply pr_read; eauto|]. rewrite PK2. exact E3.
    + exists true, []. split; [eapply pr_lost; eauto|]. destruct E as [E|(p & E & FAR)]; rewrite E; cbn [obind]; [reflexivity|].
      rewrite E2. cbn [obind]. destruct (N.to_nat c) as [|k]; cbn [answers]; [reflexivity|]. rewrite name_far by exact FAR. reflexivity.
Qed.

(** The relation is a function. *)
Lemma strings_fun ss d : strings ss d -> forall ss', strings ss' d -> ss = ss'.
Proof.
  induction 1 as [|a s ss d L H IH]; intros ss' H'; inversion H'; subst; auto. match goal with E : _ ++ _ = _ ++ _ |- _ => apply app_same in E as [-> ->]; [|lia] end. f_equal. auto.
Qed.
Lemma strings_over ss d : strings ss d -> forall ss' d' a s, strings ss' d' -> length s < N.to_nat (code a) -> d <> d' ++ a :: s.
Proof.
  induction 1 as [|b t ss d L H IH]; intros ss' d' a s H' LA E; [destruct d'; discriminate|].
  destruct H' as [|b' t' ss' d' L' H'].
  - injection E as -> <-. rewrite app_length in LA. lia.
  - cbn [app] in E. injection E as <- E. rewrite <- app_assoc in E. apply app_same in E as [-> E]; [|lia]. eapply IH; eauto.
Qed.
Lemma strings_over_fun ss d : strings ss d -> forall a s ss' d' a' s', length s < N.to_nat (code a) -> strings ss' d' -> length s' < N.to_nat (code a') ->
  d ++ a :: s = d' ++ a' :: s' -> ss = ss'.
Proof.
  induction 1 as [|b t ss d L H IH]; intros a s ss' d' a' s' LA H' LA' E; destruct H' as [|b' t' ss' d' L' H']; [reflexivity| | |].
  - cbn [app] in E. injection E as -> ->. rewrite !app_length in LA. lia.
  - cbn [app] in E. injection E as -> <-. rewrite !app_length in LA'. lia.
  - cbn [app] in E. injection E as <- E. rewrite <- !app_assoc in E. apply app_same in E as [-> E]; [|lia]. f_equal. exact (IH _ _ _ _ _ _ LA H' LA' E).
Qed.
Lemma text_of_fun d x : text_of d x -> forall y, text_of d y -> x = y.
Proof.
  intros [ss d' H|ss d' a s H L] y K.
  - inversion K as [ss2 d2 H2 E E2|ss2 d2 a2 s2 H2 L2 E E2]; subst.
    + rewrite (strings_fun _ _ H _ H2). reflexivity.
    + destruct (strings_over _ _ H _ _ _ _ H2 L2 eq_refl).
  - inversion K as [ss2 d2 H2 E E2|ss2 d2 a2 s2 H2 L2 E E2]; subst.
    + destruct (strings_over _ _ H2 _ _ _ _ H L eq_refl).
    + rewrite (strings_over_fun _ _ H _ _ _ _ _ _ L H2 L2 (eq_sym E)). reflexivity.
Qed.
Lemma rr_fields_fun d t rd more t' rd' more' : rr_fields d t rd more -> rr_fields d t' rd' more' -> t = t' /\ rd = rd' /\ more = more'.
Proof.
  intros (ty & cls & len & -> & T1 & L6 & T2) (ty' & cls' & len' & E & T1' & L6' & T2').
  destruct T1 as [a b], T1' as [a' b']. inversion T2 as [x y X1 X2]. inversion T2' as [z w Z1 Z2]. subst len len'.
  injection E as <- <- E. apply app_same in E as [_ E]; [|lia]. injection E as <- <- E. apply app_same in E as [-> ->]; [auto|lia].
Qed.
Lemma answers_fun lax n d ok x : answers_read lax n d ok x -> forall ok' x', answers_read lax n d ok' x' -> ok = ok' /\ x = x'.
Proof.
  induction 1 as [d|n d NB|n d r B NF|n d r rd more x ok y B FL TX A IH|n d r t rd more ok y B FL NT A IH]; intros ok' x' H;
    inversion H as [d0|n0 d0 NB0|n0 d0 r0 B0 NF0|n0 d0 r0 rd0 more0 x0 ok0 y0 B0 FL0 TX0 A0|n0 d0 r0 t0 rd0 more0 ok0 y0 B0 FL0 NT0 A0]; subst; auto;
    try (match goal with NB : forall r, ~ behind _ _ r, B : behind _ _ _ |- _ => destruct (NB _ B) end);
    try (pose proof (behind_fun _ _ _ B _ B0); subst r0);
    try (match goal with NF : forall t rd more, ~ rr_fields _ t rd more, FL : rr_fields _ _ _ _ |- _ => destruct (NF _ _ _ FL) end);
    destruct (rr_fields_fun _ _ _ _ _ _ _ FL FL0) as (E1 & E2 & E3); subst.
  - destruct (IH _ _ A0) as [-> ->]. rewrite (text_of_fun _ _ TX _ TX0). auto.
  - congruence.
  - congruence.
  - exact (IH _ _ A0).
Qed.
Lemma questions_fun lax n d x : questions_read lax n d x -> forall y, questions_read lax n d y -> x = y.
Proof.
  induction 1 as [d|n d f r x B L4 Q IH|n d N]; intros y H; inversion H as [d0|n0 d0 f0 r0 x0 B0 L0 Q0|n0 d0 N0]; subst; auto.
  - pose proof (behind_fun _ _ _ B _ B0) as E. apply app_same in E as [-> ->]; [auto|lia].
  - destruct (N0 _ _ B L4).
  - destruct (N _ _ B0 L0).
Qed.
Lemma packet_fun lax d ok x : packet_read lax d ok x -> forall ok' x', packet_read lax d ok' x' -> ok = ok' /\ x = x'.
Proof.
  assert (TWO : forall n b, two_bytes n b -> length b = 2) by (intros n b []; reflexivity).
  assert (TWF : forall n m b, two_bytes n b -> two_bytes m b -> n = m) by (intros n m b [] H; inversion H; reflexivity).
  intros H ok' x' H'. destruct H as [d SH|id q qd an rest d L1 T1 L2 L4 Q|id q qd n an rest d r ok t L1 T1 T2 L4 Q A].
  - inversion H' as [d0|id0 q0 qd0 an0 rest0 d0 L10 T10 L20 L40 Q0|id0 q0 qd0 n0 an0 rest0 d0 r0 ok0 t0 L10 T10 T20 L40 Q0 A0]; subst; auto;
      exfalso; revert SH; rewrite !app_length; try rewrite (TWO _ _ T10); try rewrite (TWO _ _ T20); lia.
  - inversion H' as [d0|id0 q0 qd0 an0 rest0 d0 L10 T10 L20 L40 Q0 E|id0 q0 qd0 n0 an0 rest0 d0 r0 ok0 t0 L10 T10 T20 L40 Q0 A0 E]; subst; auto.
    apply app_same in E as [<- E]; [|lia]. pose proof (TWO _ _ T1). pose proof (TWO _ _ T10). pose proof (TWO _ _ T20).
    apply app_same in E as [<- E]; [|lia]. apply app_same in E as [<- E]; [|lia]. apply app_same in E as [<- <-]; [|lia].
    pose proof (TWF _ _ _ T1 T10). subst q0. pose proof (questions_fun _ _ _ _ Q _ Q0). discriminate.
  - inversion H' as [d0 SH|id0 q0 qd0 an0 rest0 d0 L10 T10 L20 L40 Q0 E|id0 q0 qd0 n0 an0 rest0 d0 r0 ok0 t0 L10 T10 T20 L40 Q0 A0 E]; subst.
    + exfalso. revert SH. rewrite !app_length, (TWO _ _ T1), (TWO _ _ T2). lia.
    + apply app_same in E as [<- E]; [|lia]. pose proof (TWO _ _ T1). pose proof (TWO _ _ T10). pose proof (TWO _ _ T2).
      apply app_same in E as [<- E]; [|lia]. apply app_same in E as [<- E]; [|lia]. apply app_same in E as [<- <-]; [|lia].
      pose proof (TWF _ _ _ T1 T10). subst q0. pose proof (questions_fun _ _ _ _ Q _ Q0). discriminate.
    + apply app_same in E as [<- E]; [|lia]. pose proof (TWO _ _ T1). pose proof (TWO _ _ T10). pose proof (TWO _ _ T2). pose proof (TWO _ _ T20).
      apply app_same in E as [<- E]; [|lia]. apply app_same in E as [<- E]; [|lia]. apply app_same in E as [<- <-]; [|lia].
      pose proof (TWF _ _ _ T1 T10). pose proof (TWF _ _ _ T2 T20). subst q0 n0. pose proof (questions_fun _ _ _ _ Q _ Q0) as E. injection E as <-.
      exact (answers_fun _ _ _ _ _ A _ _ A0).
Qed.
Lemma GetTXT_exact lax d ok t : fits d -> GetTXT lax (QAnswer d) = Ok (ok, t) <-> packet_read lax d ok t.
Proof.
  intros F. destruct (packet_reads lax d F) as (ok1 & t1 & P & E). rewrite E. split.
  - intros [= <- <-]. exact P.
  - intros H. destruct (packet_fun _ _ _ _ P _ _ H) as [-> ->]. reflexivity.
Qed.
