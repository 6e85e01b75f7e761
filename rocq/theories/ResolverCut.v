(** Responses that are cut off (for C64). *)
From Verif Require Import Bytes Outcome AddressClean Resolver SpecDns ResolverFacts.

Lemma name_beyond lax f pkt p : (N.of_nat (length pkt) <= p)%N ->
  skip_name lax (S f) pkt (N.of_nat (length pkt)) p = Ok None \/ (p = N.of_nat (length pkt) /\ skip_name lax (S f) pkt (N.of_nat (length pkt)) p = Ok (Some p)).
Proof.
  intros L. cbn [skip_name]. destruct (N.ltb_spec p (N.of_nat (length pkt))); [lia|].
  destruct lax; cbn [andb]; [|auto]. destruct (N.eqb_spec p (N.of_nat (length pkt))); auto.
Qed.
Definition at_end (pkt : bytes) (o : outcome (option N)) : Prop := o = Ok None \/ o = Ok (Some (N.of_nat (length pkt))).
Lemma beyond_end lax f pkt p : (N.of_nat (length pkt) <= p)%N -> at_end pkt (skip_name lax (S f) pkt (N.of_nat (length pkt)) p).
Proof. intros L. destruct (name_beyond lax f pkt p L) as [->|[-> ->]]; [left|right]; reflexivity. Qed.

Lemma name_cut lax n : dns_name n -> forall f pre a b, n = a ++ b -> b <> [] -> fits (pre ++ a) -> length a < f ->
  at_end (pre ++ a) (skip_name lax f (pre ++ a) (N.of_nat (length (pre ++ a))) (N.of_nat (length pre))).
Proof.
  induction 1 as [|x y A|x l m A L D IH]; intros f pre a b E NB F LF; (destruct f as [|f]; [lia|]);
    (destruct a as [|c a]; [rewrite app_nil_r in *; apply beyond_end; lia|]).
  - injection E as <- E. symmetry in E. apply app_eq_nil in E as [_ ->]. congruence.
  - injection E as <- E. destruct a as [|d a].
    + cbn [skip_name]. destruct (N.ltb_spec (N.of_nat (length pre)) (N.of_nat (length (pre ++ [x])))); [|lens; lia].
      rewrite rd_at by (lens; lia). cbn [obind]. destruct (N.eqb_spec (code x) 0); [lia|]. destruct (N.ltb_spec (code x) 64); [lia|].
      destruct (N.leb_spec 192 (code x)); [|lia].
      destruct (N.leb_spec (N.of_nat (length pre) + 2) (N.of_nat (length (pre ++ [x])))); [lens; lia|]. left. reflexivity.
    + injection E as <- E. symmetry in E. apply app_eq_nil in E as [_ ->]. congruence.
  - injection E as <- E. cbn [skip_name].
    destruct (N.ltb_spec (N.of_nat (length pre)) (N.of_nat (length (pre ++ x :: a)))); [|lens; lia].
    rewrite rd_at by (lens; lia). cbn [obind]. destruct (N.eqb_spec (code x) 0); [lia|]. destruct (N.ltb_spec (code x) 64); [|lia].
    cbn [length] in LF. destruct (app_eq_app _ _ _ _ E) as (k & [[E1 E2]|[E1 E2]]).
    + (* cut inside the label *)
      destruct f as [|f]; [lia|]. apply beyond_end. subst l. lens. lia.
    + subst a. assert (EP : pre ++ x :: l ++ k = (pre ++ x :: l) ++ k) by (rewrite <- app_assoc; reflexivity).
      rewrite EP in *. replace (N.of_nat (length pre) + 1 + code x)%N with (N.of_nat (length (pre ++ x :: l))) by (lens; lia).
      apply (IH f _ _ b); auto. lens. lia.
Qed.
Lemma skipname_cut lax n pre a b : dns_name n -> n = a ++ b -> b <> [] -> fits (pre ++ a) ->
  at_end (pre ++ a) (dn_skipname lax (pre ++ a) (N.of_nat (length pre))).
Proof. intros D E NB F. unfold dn_skipname. apply (name_cut lax n D _ _ _ b); auto. rewrite app_length. lia. Qed.
Lemma skipname_beyond lax pkt p : (N.of_nat (length pkt) <= p)%N -> at_end pkt (dn_skipname lax pkt p).
Proof. intros L. apply beyond_end. auto. Qed.

(** No answer is read from the end of the packet on. *)
Lemma answers_end lax pkt c p result : at_end pkt (dn_skipname lax pkt p) -> exists ok, answers lax pkt c p result = Ok (ok, result).
Proof.
  intros [E|E]; (destruct c as [|c]; [exists true; reflexivity|]); cbn [answers]; rewrite E; cbn [obind]; eauto.
  destruct (N.ltb_spec (N.of_nat (length pkt)) (N.of_nat (length pkt) + 10)); [eauto|lia].
Qed.

Lemma record_cut lax n ty t cls rdlen rd pre a b c result : dns_name n -> two_bytes t ty -> length cls = 6 ->
  two_bytes (N.of_nat (length rd)) rdlen -> n ++ ty ++ cls ++ rdlen ++ rd = a ++ b -> b <> [] -> fits (pre ++ a) ->
  exists ok, answers lax (pre ++ a) (S c) (N.of_nat (length pre)) result = Ok (ok, result) /\
    (length n <= length a -> ok = false).
Proof.
  intros D T L6 R E NB F. assert (LT : length ty = 2) by (destruct T; reflexivity). assert (LR : length rdlen = 2) by (destruct R; reflexivity).
  destruct (app_eq_app _ _ _ _ E) as (k & [[E1 E2]|[E1 E2]]).
  - destruct k as [|x k].
    { rewrite app_nil_r in E1. subst a. cbn [app] in E2. exists false. split; [|reflexivity].
      assert (S1 := dn_skipname_at lax n pre [] D). rewrite app_nil_r in S1. cbn [answers]. rewrite S1 by auto. cbn [obind].
      destruct (N.ltb_spec (N.of_nat (length (pre ++ n))) (N.of_nat (length (pre ++ n)) + 10)); [reflexivity|lia]. }
    destruct (answers_end lax (pre ++ a) (S c) (N.of_nat (length pre)) result) as (ok & EA).
    { apply (skipname_cut lax n pre a (x :: k)); auto. discriminate. }
    exists ok. split; auto. intros L. subst n. rewrite app_length in L. cbn [length] in L. lia.
  - subst a. exists false. split; [|reflexivity]. cbn [answers].
    rewrite dn_skipname_at by auto. cbn [obind]. set (pkt := pre ++ n ++ k) in *.
    destruct (N.ltb_spec (N.of_nat (length pkt)) (N.of_nat (length (pre ++ n)) + 10)) as [|G]; [reflexivity|].
    assert (LP : length pkt = length pre + length n + length k) by (unfold pkt; rewrite !app_length; lia). rewrite app_length in G.
    assert (LK : 10 <= length k) by lia.
    destruct (app_eq_app (ty ++ cls ++ rdlen) rd k b) as (x & [[E3 E4]|[E3 E4]]); [rewrite <- !app_assoc; auto| |].
    + assert (length (ty ++ cls ++ rdlen) = 10) by (rewrite !app_length; lia).
      destruct x as [|? ?]; [|rewrite E3, app_length in H; cbn [length] in H; lia].
      rewrite app_nil_r in E3. subst k. cbn [app] in E4. subst b.
      assert (P2 : pkt = (pre ++ n) ++ ty ++ (cls ++ rdlen)) by (unfold pkt; rewrite <- !app_assoc; reflexivity).
      assert (P3 : pkt = (pre ++ n ++ ty ++ cls) ++ rdlen ++ []) by (unfold pkt; rewrite app_nil_r, <- !app_assoc; reflexivity).
      assert (S2 : rd16 pkt (N.of_nat (length (pre ++ n))) = Ok t) by (rewrite P2; apply rd16_at; auto; rewrite <- P2; auto).
      assert (S3 : rd16 pkt (N.of_nat (length (pre ++ n)) + 8)%N = Ok (N.of_nat (length rd))).
      { replace (N.of_nat (length (pre ++ n)) + 8)%N with (N.of_nat (length (pre ++ n ++ ty ++ cls))) by (rewrite !app_length; lia).
        rewrite P3. apply rd16_at; auto. rewrite <- P3. auto. }
      rewrite S2, S3. cbn [obind].
      destruct (N.ltb_spec (N.of_nat (length pkt)) (N.of_nat (length (pre ++ n)) + 10 + N.of_nat (length rd))) as [|G2]; [reflexivity|].
      destruct rd; [congruence|]. cbn [length] in G2. rewrite app_length in G2. lia.
    + assert (length (ty ++ cls ++ rdlen) = 10) by (rewrite !app_length; lia). subst k.
      assert (P2 : pkt = (pre ++ n) ++ ty ++ (cls ++ rdlen ++ x)) by (unfold pkt; rewrite <- !app_assoc; reflexivity).
      assert (P3 : pkt = (pre ++ n ++ ty ++ cls) ++ rdlen ++ x) by (unfold pkt; rewrite <- !app_assoc; reflexivity).
      assert (S2 : rd16 pkt (N.of_nat (length (pre ++ n))) = Ok t) by (rewrite P2; apply rd16_at; auto; rewrite <- P2; auto).
      assert (S3 : rd16 pkt (N.of_nat (length (pre ++ n)) + 8)%N = Ok (N.of_nat (length rd))).
      { replace (N.of_nat (length (pre ++ n)) + 8)%N with (N.of_nat (length (pre ++ n ++ ty ++ cls))) by (rewrite !app_length; lia).
        rewrite P3. apply rd16_at; auto. rewrite <- P3. auto. }
      rewrite S2, S3. cbn [obind].
      destruct (N.ltb_spec (N.of_nat (length pkt)) (N.of_nat (length (pre ++ n)) + 10 + N.of_nat (length rd))) as [|G2]; [reflexivity|].
      exfalso. rewrite app_length in G2. rewrite app_length in LP. subst rd. rewrite app_length in G2.
      destruct b; [congruence|]. cbn [length] in G2. lia.
Qed.

Lemma answers_cut lax txts rrs : Forall2 record txts rrs -> forall pre a b result, concat rrs = a ++ b -> fits (pre ++ a) ->
  exists ok k, answers lax (pre ++ a) (length rrs) (N.of_nat (length pre)) result = Ok (ok, result ++ concat (firstn k txts)).
Proof.
  induction 1 as [|x d txts rrs R F2 IH]; intros pre a b result E F; cbn [length].
  - cbn [answers]. exists true, 0. cbn [firstn concat]. rewrite app_nil_r. reflexivity.
  - cbn [concat] in E. destruct (app_eq_app _ _ _ _ E) as (k & [[E1 E2]|[E1 E2]]).
    + destruct k as [|y k].
      * rewrite app_nil_r in E1. subst a. cbn [app] in E2. subst b.
        assert (E0 : concat rrs = [] ++ concat rrs) by reflexivity.
        assert (F0 : fits ((pre ++ d) ++ [])) by (rewrite app_nil_r; auto).
        destruct R as [n cls rdlen rd ss D L6 RL SS|n ty t cls rdlen rd D T NT L6 RL].
        { assert (EP : forall r, pre ++ n ++ r = pre ++ (n ++ r)) by reflexivity.
          assert (ST := answers_step lax (length rrs) pre n [chr 0; chr 16] 16 cls rdlen rd [] result D (tb_intro (chr 0) (chr 16)) L6 RL).
          rewrite app_nil_r in ST. rewrite ST by auto. cbn [N.eqb Pos.eqb].
          assert (EQ : pre ++ n ++ [chr 0; chr 16] ++ cls ++ rdlen ++ rd = (pre ++ n ++ [chr 0; chr 16] ++ cls ++ rdlen) ++ rd ++ []).
          { rewrite app_nil_r, <- !app_assoc. reflexivity. }
          assert (TL := txt_loop_at ss rd SS (S (length rd)) (pre ++ n ++ [chr 0; chr 16] ++ cls ++ rdlen) [] result).
          rewrite <- EQ in TL. rewrite TL by (auto; lia). cbn [obind].
          destruct (IH (pre ++ n ++ [chr 0; chr 16] ++ cls ++ rdlen ++ rd) [] _ (result ++ concat ss) E0 F0) as (ok & k & EA).
          rewrite app_nil_r in EA. exists ok, (S k). rewrite EA. cbn [firstn concat]. rewrite app_assoc. reflexivity. }
        { assert (ST := answers_step lax (length rrs) pre n ty t cls rdlen rd [] result D T L6 RL).
          rewrite app_nil_r in ST. rewrite ST by auto. destruct (N.eqb_spec t 16); [congruence|]. cbn [obind].
          destruct (IH (pre ++ n ++ ty ++ cls ++ rdlen ++ rd) [] _ result E0 F0) as (ok & k & EA).
          rewrite app_nil_r in EA. exists ok, (S k). rewrite EA. cbn [firstn concat app]. reflexivity. }
      * assert (NB : y :: k <> []) by discriminate.
        destruct R as [n cls rdlen rd ss D L6 RL SS|n ty t cls rdlen rd D T NT L6 RL].
        { destruct (record_cut lax n [chr 0; chr 16] 16 cls rdlen rd pre a (y :: k) (length rrs) result D (tb_intro (chr 0) (chr 16)) L6 RL E1 NB F) as (ok & EA & _).
          exists ok, 0. rewrite EA. cbn [firstn concat]. rewrite app_nil_r. reflexivity. }
        { destruct (record_cut lax n ty t cls rdlen rd pre a (y :: k) (length rrs) result D T L6 RL E1 NB F) as (ok & EA & _).
          exists ok, 0. rewrite EA. cbn [firstn concat]. rewrite app_nil_r. reflexivity. }
    + subst a. assert (F0 : fits ((pre ++ d) ++ k)) by (rewrite <- app_assoc; auto).
      destruct R as [n cls rdlen rd ss D L6 RL SS|n ty t cls rdlen rd D T NT L6 RL].
      * rewrite (answers_step lax (length rrs) pre n [chr 0; chr 16] 16 cls rdlen rd k result); auto; [|apply (tb_intro (chr 0) (chr 16))].
        cbn [N.eqb Pos.eqb].
        assert (EQ : pre ++ (n ++ [chr 0; chr 16] ++ cls ++ rdlen ++ rd) ++ k = (pre ++ n ++ [chr 0; chr 16] ++ cls ++ rdlen) ++ rd ++ k).
        { rewrite <- !app_assoc. reflexivity. }
        assert (TL := txt_loop_at ss rd SS (S (length rd)) (pre ++ n ++ [chr 0; chr 16] ++ cls ++ rdlen) k result).
        rewrite <- EQ in TL. rewrite TL by (auto; lia). cbn [obind].
        destruct (IH _ k b (result ++ concat ss) E2 F0) as (ok & j & EA). rewrite <- app_assoc in EA.
        exists ok, (S j). rewrite EA. cbn [firstn concat]. rewrite app_assoc. reflexivity.
      * rewrite (answers_step lax (length rrs) pre n ty t cls rdlen rd k result); auto.
        destruct (N.eqb_spec t 16); [congruence|]. cbn [obind].
        destruct (IH _ k b result E2 F0) as (ok & j & EA). rewrite <- app_assoc in EA.
        exists ok, (S j). rewrite EA. cbn [firstn concat app]. reflexivity.
Qed.

(** Questions from the end of the packet on. *)
Definition past (pkt : bytes) (o : outcome (option N)) : Prop :=
  o = Ok None \/ exists p, o = Ok (Some p) /\ (N.of_nat (length pkt) <= p)%N.
Lemma questions_beyond lax pkt c : fits pkt -> forall p, (N.of_nat (length pkt) <= p)%N -> past pkt (skip_questions lax pkt c p).
Proof.
  intros F. induction c as [|c IH]; intros p L; cbn [skip_questions];
    destruct (skipname_beyond lax pkt p L) as [->| ->]; cbn [obind]; try (right; eauto; fail); try (left; reflexivity).
  apply IH. lia.
Qed.
Lemma questions_cut lax qs : Forall question qs -> forall pre a b, concat qs = a ++ b -> b <> [] -> fits (pre ++ a) ->
  past (pre ++ a) (skip_questions lax (pre ++ a) (length qs) (N.of_nat (length pre))).
Proof.
  induction 1 as [|q qs Q FQ IH]; intros pre a b E NB F; cbn [skip_questions length].
  - cbn [concat] in E. symmetry in E. apply app_eq_nil in E as [_ E]. congruence.
  - destruct Q as [n f D L4]. cbn [concat] in E. rewrite <- app_assoc in E.
    destruct (app_eq_app _ _ _ _ E) as (k & [[E1 E2]|[E1 E2]]).
    + destruct k as [|y k].
      * rewrite app_nil_r in E1. subst a. assert (S1 := dn_skipname_at lax n pre [] D). rewrite app_nil_r in S1. rewrite S1 by auto. cbn [obind].
        apply questions_beyond; auto. lia.
      * destruct (skipname_cut lax n pre a (y :: k) D E1 ltac:(discriminate) F) as [->| ->]; cbn [obind]; [left; reflexivity|].
        apply questions_beyond; auto. lia.
    + subst a. rewrite dn_skipname_at by auto. cbn [obind].
      destruct (app_eq_app _ _ _ _ E2) as (j & [[E3 E4]|[E3 E4]]).
      * apply questions_beyond; auto. subst f. rewrite app_length in L4. rewrite !app_length. lia.
      * subst k. assert (EP : pre ++ n ++ f ++ j = (pre ++ n ++ f) ++ j) by (rewrite <- !app_assoc; reflexivity). rewrite EP in *.
        replace (N.of_nat (length (pre ++ n)) + 4)%N with (N.of_nat (length (pre ++ n ++ f))) by (rewrite !app_length; lia).
        apply (IH _ j b); auto.
Qed.
Lemma past_answers lax pkt c p : (N.of_nat (length pkt) <= p)%N -> exists ok, answers lax pkt c p [] = Ok (ok, []).
Proof. intros L. apply answers_end. apply skipname_beyond. auto. Qed.

Lemma GetTXT_cut lax texts cut missing : response texts (cut ++ missing) -> fits cut ->
  exists ok k, GetTXT lax (QAnswer cut) = Ok (ok, concat (firstn k texts)).
Proof.
  intros R F. assert (NONE : forall ok, GetTXT lax (QAnswer cut) = Ok (ok, []) -> exists ok k, GetTXT lax (QAnswer cut) = Ok (ok, concat (firstn k texts))).
  { intros ok E. exists ok, 0. rewrite E. reflexivity. }
  assert (BASE : forall cc, rd16 cut 6 = Ok cc -> forall p, (N.of_nat (length cut) <= p)%N -> exists ok, (let* cc := rd16 cut 6 in answers lax cut (N.to_nat cc) p []) = Ok (ok, [])).
  { intros cc E p L. rewrite E. cbn [obind]. apply past_answers. auto. }
  cbn [GetTXT] in *. destruct (N.ltb_spec BUFSZ (N.of_nat (length cut))) as [|_]; [unfold fits in F; lia|].
  destruct (rd16_ok cut 4) as (qc & Q4); [unfold BUFSZ; lia|]. destruct (rd16_ok cut 6) as (cc & Q6); [unfold BUFSZ; lia|].
  rewrite Q4 in *. cbn [obind] in *.
  inversion R as [id qd an rest qs txts rrs more LI QD AN LR FQ FR ET EP]. subst txts.
  assert (LQ : length qd = 2) by (destruct QD; reflexivity). assert (LA : length an = 2) by (destruct AN; reflexivity).
  assert (LH : length (id ++ qd ++ an ++ rest) = 12) by (rewrite !app_length; lia).
  assert (PAST : past cut (skip_questions lax cut (N.to_nat qc) 12) -> exists ok k,
    (let* s := skip_questions lax cut (N.to_nat qc) 12 in
     match s with Some p => let* cc := rd16 cut 6 in answers lax cut (N.to_nat cc) p [] | None => Ok (true, []) end) = Ok (ok, concat (firstn k texts))).
  { intros [E|(p & E & L)]; rewrite E in *; cbn [obind] in *; [apply (NONE true); reflexivity|].
    destruct (BASE cc Q6 p L) as (ok & EA). apply (NONE ok). exact EA. }
  destruct (Nat.le_gt_cases (length cut) 12) as [SH|LO].
  { apply PAST. apply questions_beyond; auto. lia. }
  assert (EP' : (id ++ qd ++ an ++ rest) ++ concat qs ++ concat rrs ++ more = cut ++ missing) by (rewrite <- EP, <- !app_assoc; reflexivity).
  destruct (app_eq_app _ _ _ _ EP') as (k & [[E1 E2]|[E1 E2]]).
  { rewrite E1, app_length in LH. lia. }
  set (h := id ++ qd ++ an ++ rest) in *.
  assert (C1 : cut = id ++ qd ++ (an ++ rest ++ k)) by (rewrite E1; unfold h; rewrite <- !app_assoc; reflexivity).
  assert (C2 : cut = (id ++ qd) ++ an ++ (rest ++ k)) by (rewrite E1; unfold h; rewrite <- !app_assoc; reflexivity).
  assert (S1 : rd16 cut 4 = Ok (N.of_nat (length qs))).
  { change 4%N with (N.of_nat 4). rewrite <- LI. rewrite C1. apply rd16_at; auto. rewrite <- C1. auto. }
  assert (S2 : rd16 cut 6 = Ok (N.of_nat (length rrs))).
  { replace 6%N with (N.of_nat (length (id ++ qd))) by (rewrite app_length, LI, LQ; reflexivity). rewrite C2. apply rd16_at; auto. rewrite <- C2. auto. }
  rewrite Q4 in S1. apply Ok_inj in S1. subst qc. rewrite Q6 in S2. apply Ok_inj in S2. subst cc. rewrite Nat2N.id in *.
  replace 12%N with (N.of_nat (length h)) in * by (rewrite LH; reflexivity).
  destruct (app_eq_app _ _ _ _ E2) as (j & [[E3 E4]|[E3 E4]]).
  - destruct j as [|y j].
    + rewrite app_nil_r in E3. subst k. assert (SQ := questions_at lax qs FQ h []). rewrite app_nil_r, <- E1 in SQ. rewrite (SQ F).
      cbn [obind]. rewrite Q6. cbn [obind]. rewrite Nat2N.id.
      destruct (answers_cut lax texts rrs FR cut [] (concat rrs) []) as (ok & j & EA); auto; [rewrite app_nil_r; auto|].
      rewrite app_nil_r in EA. rewrite EA. exists ok, j. reflexivity.
    + apply PAST. rewrite E1. apply (questions_cut lax qs FQ h k (y :: j)); auto; [discriminate|rewrite <- E1; auto].
  - subst k. assert (SQ := questions_at lax qs FQ h j). rewrite <- E1 in SQ. rewrite (SQ F). cbn [obind]. rewrite Q6. cbn [obind]. rewrite Nat2N.id.
    assert (C3 : cut = (h ++ concat qs) ++ j) by (rewrite E1, <- app_assoc; reflexivity).
    destruct (app_eq_app _ _ _ _ E4) as (i & [[E5 E6]|[E5 E6]]).
    + destruct (answers_cut lax texts rrs FR (h ++ concat qs) j i [] E5) as (ok & m & EA); [rewrite <- C3; auto|].
      rewrite <- C3 in EA. rewrite EA. exists ok, m. reflexivity.
    + assert (EA := answers_at lax texts rrs FR (h ++ concat qs) i []). subst j. rewrite <- C3 in EA. rewrite (EA F).
      exists true, (length texts). rewrite firstn_all. reflexivity.
Qed.

Lemma answers_more lax txts rrs : Forall2 record txts rrs -> forall pre r c result, fits (pre ++ concat rrs ++ r) ->
  answers lax (pre ++ concat rrs ++ r) (length rrs + c) (N.of_nat (length pre)) result =
  answers lax (pre ++ concat rrs ++ r) c (N.of_nat (length (pre ++ concat rrs))) (result ++ concat txts).
Proof.
  induction 1 as [|x d txts rrs R F2 IH]; intros pre r c result F; cbn [length Nat.add].
  - cbn [concat]. rewrite !app_nil_r. reflexivity.
  - cbn [concat] in *. rewrite <- app_assoc in *.
    assert (EL : pre ++ d ++ concat rrs = (pre ++ d) ++ concat rrs) by apply app_assoc. rewrite EL.
    destruct R as [n cls rdlen rd ss D L6 RL SS|n ty t cls rdlen rd D T NT L6 RL].
    + rewrite (answers_step lax (length rrs + c) pre n [chr 0; chr 16] 16 cls rdlen rd (concat rrs ++ r) result); auto; [|apply (tb_intro (chr 0) (chr 16))].
      cbn [N.eqb Pos.eqb].
      assert (E : pre ++ (n ++ [chr 0; chr 16] ++ cls ++ rdlen ++ rd) ++ concat rrs ++ r = (pre ++ n ++ [chr 0; chr 16] ++ cls ++ rdlen) ++ rd ++ (concat rrs ++ r)).
      { rewrite <- !app_assoc. reflexivity. }
      assert (TL := txt_loop_at ss rd SS (S (length rd)) (pre ++ n ++ [chr 0; chr 16] ++ cls ++ rdlen) (concat rrs ++ r) result).
      rewrite <- E in TL. rewrite TL by (auto; lia). cbn [obind]. clear E TL EL.
      rewrite app_assoc in F. rewrite app_assoc. rewrite IH by auto. rewrite <- (app_assoc result). reflexivity.
    + rewrite (answers_step lax (length rrs + c) pre n ty t cls rdlen rd (concat rrs ++ r) result); auto. clear EL.
      destruct (N.eqb_spec t 16); [congruence|]. cbn [obind]. rewrite app_assoc in *. rewrite IH by auto. reflexivity.
Qed.
Lemma GetTXT_broken lax texts pkt : broken_response texts pkt -> fits pkt -> GetTXT lax (QAnswer pkt) = Ok (false, concat texts).
Proof.
  intros R F. destruct R as [id qd an count rest qs txts rrs last LI QD AN LC LR FQ FR B]. cbn [GetTXT].
  set (pkt := id ++ qd ++ an ++ rest ++ concat qs ++ concat rrs ++ last) in *.
  destruct (N.ltb_spec BUFSZ (N.of_nat (length pkt))); [unfold fits in F; lia|].
  assert (LQ : length qd = 2) by (destruct QD; reflexivity). assert (LA : length an = 2) by (destruct AN; reflexivity).
  assert (S1 : rd16 pkt 4 = Ok (N.of_nat (length qs))).
  { change 4%N with (N.of_nat 4). rewrite <- LI. apply rd16_at; auto. }
  assert (S2 : rd16 pkt 6 = Ok count).
  { assert (E : pkt = (id ++ qd) ++ an ++ (rest ++ concat qs ++ concat rrs ++ last)) by (unfold pkt; rewrite <- !app_assoc; reflexivity).
    replace 6%N with (N.of_nat (length (id ++ qd))) by (rewrite app_length, LI, LQ; reflexivity). rewrite E. apply rd16_at; auto. rewrite <- E. auto. }
  assert (S3 : skip_questions lax pkt (length qs) 12 = Ok (Some (N.of_nat (length ((id ++ qd ++ an ++ rest) ++ concat qs))))).
  { assert (E : pkt = (id ++ qd ++ an ++ rest) ++ concat qs ++ (concat rrs ++ last)) by (unfold pkt; rewrite <- !app_assoc; reflexivity).
    replace 12%N with (N.of_nat (length (id ++ qd ++ an ++ rest))) by (rewrite !app_length, LI, LQ, LA, LR; reflexivity).
    rewrite E. apply questions_at; auto. rewrite <- E. auto. }
  rewrite S1. cbn [obind]. rewrite Nat2N.id, S3. cbn [obind]. rewrite S2. cbn [obind].
  assert (E : pkt = ((id ++ qd ++ an ++ rest) ++ concat qs) ++ concat rrs ++ last) by (unfold pkt; rewrite <- !app_assoc; reflexivity).
  replace (N.to_nat count) with (length rrs + S (N.to_nat count - length rrs - 1)) by lia.
  set (pre := (id ++ qd ++ an ++ rest) ++ concat qs) in *. rewrite E in F. rewrite E. rewrite (answers_more lax txts rrs FR) by auto. cbn [app].
  destruct B as [n ty t cls rdlen rd have missing D T L6 RL EH NM].
  assert (EF : n ++ ty ++ cls ++ rdlen ++ rd = (n ++ have) ++ missing) by (rewrite EH, app_assoc; reflexivity).
  rewrite app_assoc in F |- *.
  destruct (record_cut lax n ty t cls rdlen rd (pre ++ concat rrs) (n ++ have) missing (N.to_nat count - length rrs - 1) (concat txts) D T L6 RL EF NM F) as (ok & EA & OK).
  rewrite EA. rewrite OK; [reflexivity|]. rewrite app_length. lia.
Qed.
