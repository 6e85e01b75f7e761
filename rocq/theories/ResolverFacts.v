(** Facts about Resolver::GetTXT. *)
From Verif Require Import Bytes Outcome Resolver BytesFacts SpecDns.

(** ** It stays in the buffer and ends *)
Lemma rd_ok pkt i : (i < BUFSZ)%N -> exists n, rd pkt i = Ok n /\ (n < 256)%N.
Proof. intros L. unfold rd. rewrite (proj2 (N.ltb_lt _ _) L). eexists. split; [reflexivity|apply code_bound]. Qed.
Lemma rd16_ok pkt i : (i + 1 < BUFSZ)%N -> exists n, rd16 pkt i = Ok n.
Proof.
  intros L. unfold rd16. destruct (rd_ok pkt i) as (a & -> & _); [lia|]. destruct (rd_ok pkt (i + 1)%N) as (b & -> & _); [lia|].
  cbn [obind]. eauto.
Qed.
Lemma skip_name_ok lax pkt eom : (eom <= BUFSZ)%N -> forall f p, N.to_nat eom < f + N.to_nat p ->
  exists r, skip_name lax f pkt eom p = Ok r \/ (f = 0 /\ True).
Proof.
  intros B. induction f as [|f IH]; intros p L; [exists None; right; auto|]. cbn [skip_name].
  destruct (N.ltb_spec p eom) as [LT|GE].
  - destruct (rd_ok pkt p) as (n & -> & N256); [lia|]. cbn [obind].
    destruct (N.eqb_spec n 0); [eauto|]. destruct (N.ltb_spec n 64).
    + destruct (IH (p + 1 + n)%N) as (r & [E|[-> _]]); [lia|exists r; auto|]. exfalso. lia.
    + destruct (192 <=? n)%N; [destruct (p + 2 <=? eom)%N; eauto|eauto].
  - destruct (lax && (p =? eom)%N); eauto.
Qed.
Lemma dn_skipname_ok lax pkt p : (N.of_nat (length pkt) <= BUFSZ)%N -> exists r, dn_skipname lax pkt p = Ok r /\
  match r with Some q => (p < q \/ (p = q /\ p = N.of_nat (length pkt)))%N | None => True end.
Proof.
  intros B. unfold dn_skipname. destruct (skip_name_ok lax pkt _ B (S (length pkt)) p) as (r & [E|[X _]]); [lia| |discriminate].
  exists r. split; auto. revert E. generalize (S (length pkt)) as f. generalize (N.of_nat (length pkt)) as eom. clear.
  intros eom f. revert p. induction f as [|f IH]; intros p E; [discriminate|]. cbn [skip_name] in E.
  destruct (N.ltb_spec p eom).
  - destruct (rd pkt p) as [n| | |]; try discriminate. cbn [obind] in E. destruct (N.eqb_spec n 0); [injection E as <-; lia|].
    destruct (n <? 64)%N; [apply IH in E; destruct r; auto; lia|]. destruct (192 <=? n)%N; [|injection E as <-; auto].
    destruct (p + 2 <=? eom)%N; injection E as <-; [lia|auto].
  - destruct lax; cbn [andb] in E; [|injection E as <-; auto]. destruct (N.eqb_spec p eom); injection E as <-; [lia|auto].
Qed.
Lemma skip_questions_ok lax pkt qc : (N.of_nat (length pkt) <= BUFSZ)%N -> forall p, exists r, skip_questions lax pkt qc p = Ok r.
Proof.
  intros B. induction qc as [|qc IH]; intros p; cbn [skip_questions]; destruct (dn_skipname_ok lax pkt p B) as (r & -> & _); cbn [obind]; eauto.
  destruct r; eauto.
Qed.
Lemma rd_n_ok pkt n : forall p, (p + N.of_nat n <= BUFSZ)%N -> exists r, rd_n pkt p n = Ok r.
Proof.
  induction n as [|n IH]; intros p L; cbn [rd_n]; [eauto|]. destruct (rd_ok pkt p) as (c & -> & _); [lia|]. cbn [obind].
  destruct (IH (p + 1)%N) as (r & ->); [lia|]. cbn [obind]. eauto.
Qed.
Lemma txt_loop_ok pkt f : forall ptr left result, (ptr + left <= BUFSZ)%N -> N.to_nat left < f -> exists r, txt_loop f pkt ptr left result = Ok r.
Proof.
  induction f as [|f IH]; intros ptr left result B L; [lia|]. cbn [txt_loop]. destruct (N.ltb_spec 0 left); [|eauto].
  destruct (rd_ok pkt ptr) as (n & -> & _); [lia|]. cbn [obind]. destruct (N.leb_spec left n); [eauto|].
  destruct (rd_n_ok pkt (N.to_nat n) (ptr + 1)%N) as (t & ->); [lia|]. cbn [obind]. apply IH; lia.
Qed.
Lemma answers_ok lax pkt cc : (N.of_nat (length pkt) <= BUFSZ)%N -> forall p result, exists r, answers lax pkt cc p result = Ok r.
Proof.
  intros B. induction cc as [|cc IH]; intros p result; cbn [answers]; [eauto|].
  destruct (dn_skipname_ok lax pkt p B) as ([p1|] & -> & _); cbn [obind]; [|eauto].
  destruct (N.ltb_spec (N.of_nat (length pkt)) (p1 + 10)); [eauto|].
  destruct (rd16_ok pkt p1) as (t & ->); [lia|]. destruct (rd16_ok pkt (p1 + 8)%N) as (n & ->); [lia|]. cbn [obind].
  destruct (N.ltb_spec (N.of_nat (length pkt)) (p1 + 10 + n)); [eauto|]. destruct (t =? 16)%N; auto.
  destruct (txt_loop_ok pkt (S (N.to_nat n)) (p1 + 10)%N n result) as (r & ->); [lia|lia|]. cbn [obind]. auto.
Qed.
Lemma GetTXT_ok lax q : exists ok text, GetTXT lax q = Ok (ok, text).
Proof.
  destruct q as [[]|pkt]; cbn [GetTXT]; eauto. destruct (N.ltb_spec BUFSZ (N.of_nat (length pkt))); eauto.
  destruct (rd16_ok pkt 4) as (qc & ->); [unfold BUFSZ; lia|]. cbn [obind].
  destruct (skip_questions_ok lax pkt (N.to_nat qc)) with (p := 12%N) as ([p|] & ->); auto; cbn [obind]; eauto.
  destruct (rd16_ok pkt 6) as (cc & ->); [unfold BUFSZ; lia|]. cbn [obind].
  destruct (answers_ok lax pkt (N.to_nat cc) H p []) as ([ok t] & ->). eauto.
Qed.

(** ** Well-formed responses *)
Lemma rd_at pre c r : (N.of_nat (length pre) < BUFSZ)%N -> rd (pre ++ c :: r) (N.of_nat (length pre)) = Ok (code c).
Proof.
  intros L. unfold rd. rewrite (proj2 (N.ltb_lt _ _) L). rewrite Nat2N.id. rewrite nth_middle. reflexivity.
Qed.
Definition fits (pkt : bytes) : Prop := (N.of_nat (length pkt) <= BUFSZ)%N.
Ltac lens := unfold fits in *; repeat (rewrite ?app_length in *; cbn [length] in *).
Lemma rd16_at pre n d r : fits (pre ++ d ++ r) -> two_bytes n d -> rd16 (pre ++ d ++ r) (N.of_nat (length pre)) = Ok n.
Proof.
  intros F T. destruct T as [a b]. unfold rd16. cbn [app] in *. rewrite rd_at by (lens; lia). cbn [obind].
  replace (N.of_nat (length pre) + 1)%N with (N.of_nat (length (pre ++ [a]))) by (lens; lia).
  change (a :: b :: r) with ([a] ++ b :: r). rewrite app_assoc. rewrite rd_at by (lens; lia). reflexivity.
Qed.
Lemma skip_name_at lax n : dns_name n -> forall f pre r, fits (pre ++ n ++ r) -> length n < f ->
  skip_name lax f (pre ++ n ++ r) (N.of_nat (length (pre ++ n ++ r))) (N.of_nat (length pre)) = Ok (Some (N.of_nat (length (pre ++ n)))).
Proof.
  induction 1 as [|a b A|a l m A L D IH]; intros f pre r F LF; (destruct f as [|f]; [lia|]); cbn [skip_name].
  - destruct (N.ltb_spec (N.of_nat (length pre)) (N.of_nat (length (pre ++ [chr 0] ++ r)))); [|lens; lia].
    cbn [app]. rewrite rd_at by (lens; lia). cbn [obind]. change (code (chr 0) =? 0)%N with true. cbv iota. do 2 f_equal. lens. lia.
  - destruct (N.ltb_spec (N.of_nat (length pre)) (N.of_nat (length (pre ++ [a; b] ++ r)))); [|lens; lia].
    cbn [app]. rewrite rd_at by (lens; lia). cbn [obind]. destruct (N.eqb_spec (code a) 0); [lia|]. destruct (N.ltb_spec (code a) 64); [lia|].
    destruct (N.leb_spec 192 (code a)); [|lia].
    destruct (N.leb_spec (N.of_nat (length pre) + 2) (N.of_nat (length (pre ++ a :: b :: r)))); [|lens; lia].
    do 2 f_equal. lens. lia.
  - destruct (N.ltb_spec (N.of_nat (length pre)) (N.of_nat (length (pre ++ (a :: l ++ m) ++ r)))); [|lens; lia].
    cbn [app] in *. rewrite rd_at by (lens; lia). cbn [obind]. destruct (N.eqb_spec (code a) 0); [lia|]. destruct (N.ltb_spec (code a) 64); [|lia].
    assert (E : pre ++ a :: (l ++ m) ++ r = (pre ++ a :: l) ++ m ++ r) by (rewrite <- !app_assoc; reflexivity).
    rewrite E in *. replace (N.of_nat (length pre) + 1 + code a)%N with (N.of_nat (length (pre ++ a :: l))) by (lens; lia).
    rewrite IH by (auto; lens; lia). do 2 f_equal. lens. lia.
Qed.
Lemma dn_skipname_at lax n pre r : dns_name n -> fits (pre ++ n ++ r) ->
  dn_skipname lax (pre ++ n ++ r) (N.of_nat (length pre)) = Ok (Some (N.of_nat (length (pre ++ n)))).
Proof. intros D F. unfold dn_skipname. apply skip_name_at; auto. lens. lia. Qed.

Lemma questions_at lax qs : Forall question qs -> forall pre r, fits (pre ++ concat qs ++ r) ->
  skip_questions lax (pre ++ concat qs ++ r) (length qs) (N.of_nat (length pre)) = Ok (Some (N.of_nat (length (pre ++ concat qs)))).
Proof.
  induction 1 as [|q qs Q F IH]; intros pre r FT; cbn [skip_questions length].
  - cbn [concat app] in *. destruct (dn_skipname_ok lax (pre ++ r) (N.of_nat (length pre)) FT) as (x & -> & _). cbn [obind].
    rewrite app_nil_r. reflexivity.
  - destruct Q as [n f D L4]. cbn [concat] in *. 
    assert (E : pre ++ ((n ++ f) ++ concat qs) ++ r = pre ++ n ++ (f ++ concat qs ++ r)) by (rewrite <- !app_assoc; reflexivity).
    rewrite E in *. rewrite dn_skipname_at by auto. cbn [obind].
    assert (E2 : pre ++ n ++ f ++ concat qs ++ r = (pre ++ n ++ f) ++ concat qs ++ r) by (rewrite <- !app_assoc; reflexivity).
    rewrite E2 in *. replace (N.of_nat (length (pre ++ n)) + 4)%N with (N.of_nat (length (pre ++ n ++ f))) by (lens; lia).
    rewrite IH by auto. do 2 f_equal. rewrite <- !app_assoc. reflexivity.
Qed.
Lemma rd_n_at s : forall pre r, fits (pre ++ s ++ r) -> rd_n (pre ++ s ++ r) (N.of_nat (length pre)) (length s) = Ok s.
Proof.
  induction s as [|c s IH]; intros pre r F; cbn [rd_n length]; [reflexivity|]. cbn [app] in *. rewrite rd_at by (lens; lia). cbn [obind].
  assert (E : pre ++ c :: s ++ r = (pre ++ [c]) ++ s ++ r) by (rewrite <- !app_assoc; reflexivity). rewrite E in *.
  replace (N.of_nat (length pre) + 1)%N with (N.of_nat (length (pre ++ [c]))) by (lens; lia). rewrite IH by auto. cbn [obind].
  rewrite chr_code. reflexivity.
Qed.
Lemma txt_loop_at ss d : strings ss d -> forall f pre r result, fits (pre ++ d ++ r) -> length d < f ->
  txt_loop f (pre ++ d ++ r) (N.of_nat (length pre)) (N.of_nat (length d)) result = Ok (result ++ concat ss).
Proof.
  induction 1 as [|a s ss d L D IH]; intros f pre r result F LF; (destruct f as [|f]; [lia|]); cbn [txt_loop].
  - cbn [length N.of_nat N.ltb N.compare concat]. rewrite app_nil_r. reflexivity.
  - destruct (N.ltb_spec 0 (N.of_nat (length (a :: s ++ d)))); [|lens; lia]. cbn [app] in *. rewrite rd_at by (lens; lia). cbn [obind].
    destruct (N.leb_spec (N.of_nat (length (a :: s ++ d))) (code a)); [lens; lia|].
    assert (E : pre ++ a :: (s ++ d) ++ r = (pre ++ [a]) ++ s ++ (d ++ r)) by (rewrite <- !app_assoc; reflexivity). rewrite E in *.
    replace (N.of_nat (length pre) + 1)%N with (N.of_nat (length (pre ++ [a]))) by (lens; lia). rewrite <- L. rewrite rd_n_at by auto. cbn [obind].
    assert (E2 : (pre ++ [a]) ++ s ++ (d ++ r) = (pre ++ a :: s) ++ d ++ r) by (rewrite <- !app_assoc; reflexivity). rewrite E2 in *.
    replace (N.of_nat (length pre) + code a + 1)%N with (N.of_nat (length (pre ++ a :: s))) by (lens; lia).
    replace (N.of_nat (length (a :: s ++ d)) - (code a + 1))%N with (N.of_nat (length d)) by (lens; lia).
    rewrite IH by (auto; lens; lia). cbn [concat]. rewrite app_assoc. reflexivity.
Qed.
(** The fixed part of a record. *)
Lemma answers_step lax c pre n ty t cls rdlen rd r result : dns_name n -> two_bytes t ty -> length cls = 6 ->
  two_bytes (N.of_nat (length rd)) rdlen -> fits (pre ++ (n ++ ty ++ cls ++ rdlen ++ rd) ++ r) ->
  answers lax (pre ++ (n ++ ty ++ cls ++ rdlen ++ rd) ++ r) (S c) (N.of_nat (length pre)) result =
  (let* result1 := (if (t =? 16)%N then txt_loop (S (length rd)) (pre ++ (n ++ ty ++ cls ++ rdlen ++ rd) ++ r)
                      (N.of_nat (length (pre ++ n ++ ty ++ cls ++ rdlen))) (N.of_nat (length rd)) result else Ok result) in
   answers lax (pre ++ (n ++ ty ++ cls ++ rdlen ++ rd) ++ r) c (N.of_nat (length (pre ++ (n ++ ty ++ cls ++ rdlen ++ rd)))) result1).
Proof.
  intros D T L6 R F. cbn [answers]. set (pkt := pre ++ (n ++ ty ++ cls ++ rdlen ++ rd) ++ r) in *.
  assert (LT : length ty = 2) by (destruct T; reflexivity). assert (LR : length rdlen = 2) by (destruct R; reflexivity).
  assert (E1 : pkt = pre ++ n ++ (ty ++ cls ++ rdlen ++ rd ++ r)) by (unfold pkt; rewrite <- !app_assoc; reflexivity).
  assert (E2 : pkt = (pre ++ n) ++ ty ++ (cls ++ rdlen ++ rd ++ r)) by (unfold pkt; rewrite <- !app_assoc; reflexivity).
  assert (E3 : pkt = (pre ++ n ++ ty ++ cls) ++ rdlen ++ (rd ++ r)) by (unfold pkt; rewrite <- !app_assoc; reflexivity).
  assert (S1 : dn_skipname lax pkt (N.of_nat (length pre)) = Ok (Some (N.of_nat (length (pre ++ n))))).
  { rewrite E1. apply dn_skipname_at; auto. rewrite <- E1. auto. }
  assert (S2 : rd16 pkt (N.of_nat (length (pre ++ n))) = Ok t) by (rewrite E2; apply rd16_at; auto; rewrite <- E2; auto).
  assert (S3 : rd16 pkt (N.of_nat (length (pre ++ n)) + 8)%N = Ok (N.of_nat (length rd))).
  { replace (N.of_nat (length (pre ++ n)) + 8)%N with (N.of_nat (length (pre ++ n ++ ty ++ cls))) by (lens; lia).
    rewrite E3. apply rd16_at; auto. rewrite <- E3. auto. }
  assert (LP : length pkt = length pre + length n + 10 + length rd + length r) by (unfold pkt; rewrite !app_length; lia).
  rewrite S1. cbn [obind]. assert (LPN : length (pre ++ n) = length pre + length n) by apply app_length.
  destruct (N.ltb_spec (N.of_nat (length pkt)) (N.of_nat (length (pre ++ n)) + 10)); [lia|]. rewrite S2, S3. cbn [obind].
  destruct (N.ltb_spec (N.of_nat (length pkt)) (N.of_nat (length (pre ++ n)) + 10 + N.of_nat (length rd))); [lia|].
  rewrite Nat2N.id.
  replace (N.of_nat (length (pre ++ n)) + 10)%N with (N.of_nat (length (pre ++ n ++ ty ++ cls ++ rdlen))) by (rewrite !app_length; lia).
  replace (N.of_nat (length (pre ++ n ++ ty ++ cls ++ rdlen)) + N.of_nat (length rd))%N
    with (N.of_nat (length (pre ++ (n ++ ty ++ cls ++ rdlen ++ rd)))) by (rewrite !app_length; lia).
  destruct (t =? 16)%N; reflexivity.
Qed.
Lemma answers_at lax txts rrs : Forall2 record txts rrs -> forall pre r result, fits (pre ++ concat rrs ++ r) ->
  answers lax (pre ++ concat rrs ++ r) (length rrs) (N.of_nat (length pre)) result = Ok (true, result ++ concat txts).
Proof.
  induction 1 as [|x d txts rrs R F2 IH]; intros pre r result F; cbn [length].
  - cbn [answers concat]. rewrite app_nil_r. reflexivity.
  - cbn [concat] in *. rewrite <- app_assoc in *. destruct R as [n cls rdlen rd ss D L6 RL SS|n ty t cls rdlen rd D T NT L6 RL].
    + rewrite (answers_step lax (length rrs) pre n [chr 0; chr 16] 16 cls rdlen rd (concat rrs ++ r) result); auto; [|apply (tb_intro (chr 0) (chr 16))].
      cbn [N.eqb Pos.eqb].
      assert (E : pre ++ (n ++ [chr 0; chr 16] ++ cls ++ rdlen ++ rd) ++ concat rrs ++ r = (pre ++ n ++ [chr 0; chr 16] ++ cls ++ rdlen) ++ rd ++ (concat rrs ++ r)).
      { rewrite <- !app_assoc. reflexivity. }
      rewrite E in F. rewrite E at 1. rewrite (txt_loop_at ss rd SS) by (auto; lia). cbn [obind]. rewrite <- E in F.
      rewrite app_assoc in F. rewrite app_assoc. rewrite IH by auto. rewrite app_assoc. reflexivity.
    + rewrite (answers_step lax (length rrs) pre n ty t cls rdlen rd (concat rrs ++ r) result); auto.
      destruct (N.eqb_spec t 16); [congruence|]. cbn [obind]. rewrite app_assoc in *. rewrite IH by auto. reflexivity.
Qed.
Lemma GetTXT_response lax texts pkt : response texts pkt -> fits pkt -> GetTXT lax (QAnswer pkt) = Ok (true, concat texts).
Proof.
  intros R F. destruct R as [id qd an rest qs txts rrs more LI QD AN LR FQ FR]. cbn [GetTXT].
  set (pkt := id ++ qd ++ an ++ rest ++ concat qs ++ concat rrs ++ more) in *.
  destruct (N.ltb_spec BUFSZ (N.of_nat (length pkt))); [unfold fits in F; lia|].
  assert (LQ : length qd = 2) by (destruct QD; reflexivity). assert (LA : length an = 2) by (destruct AN; reflexivity).
  assert (S1 : rd16 pkt 4 = Ok (N.of_nat (length qs))).
  { change 4%N with (N.of_nat 4). rewrite <- LI. apply rd16_at; auto. }
  assert (S2 : rd16 pkt 6 = Ok (N.of_nat (length rrs))).
  { assert (E : pkt = (id ++ qd) ++ an ++ (rest ++ concat qs ++ concat rrs ++ more)) by (unfold pkt; rewrite <- !app_assoc; reflexivity).
    replace 6%N with (N.of_nat (length (id ++ qd))) by (rewrite app_length, LI, LQ; reflexivity). rewrite E. apply rd16_at; auto. rewrite <- E. auto. }
  assert (S3 : skip_questions lax pkt (length qs) 12 = Ok (Some (N.of_nat (length ((id ++ qd ++ an ++ rest) ++ concat qs))))).
  { assert (E : pkt = (id ++ qd ++ an ++ rest) ++ concat qs ++ (concat rrs ++ more)) by (unfold pkt; rewrite <- !app_assoc; reflexivity).
    replace 12%N with (N.of_nat (length (id ++ qd ++ an ++ rest))) by (rewrite !app_length, LI, LQ, LA, LR; reflexivity).
    rewrite E. apply questions_at; auto. rewrite <- E. auto. }
  rewrite S1. cbn [obind]. rewrite Nat2N.id, S3. cbn [obind]. rewrite S2. cbn [obind]. rewrite Nat2N.id.
  assert (E : pkt = ((id ++ qd ++ an ++ rest) ++ concat qs) ++ concat rrs ++ more) by (unfold pkt; rewrite <- !app_assoc; reflexivity).
  rewrite E. rewrite (answers_at lax txts rrs FR); auto. rewrite <- E. auto.
Qed.
