(** The pointers that Resolver::GetTXT forms. *)
From Verif Require Import Bytes Outcome Resolver ResolverPtr BytesFacts SpecDns ResolverFacts ResolverCut Examples ResolverExamples.

Lemma ptr_in L p : (p <= L)%N -> ptr L p = Ok p.
Proof. intros H. unfold ptr. rewrite (proj2 (N.leb_le _ _) H). reflexivity. Qed.
Lemma ptr_out L p : (L < p)%N -> ptr L p = UB UB_oob_read.
Proof. intros H. unfold ptr. destruct (N.leb_spec p L); [lia|reflexivity]. Qed.
Lemma rd16_lt pkt i n : rd16 pkt i = Ok n -> (n < 65536)%N.
Proof.
  unfold rd16, rd. pose proof (code_bound (nth (N.to_nat i) pkt (chr 0))) as A. pose proof (code_bound (nth (N.to_nat (i + 1)) pkt (chr 0))) as B.
  set (a := code (nth (N.to_nat i) pkt (chr 0))) in *. set (b := code (nth (N.to_nat (i + 1)) pkt (chr 0))) in *. clearbody a b.
  destruct (i <? BUFSZ)%N; [|discriminate]. cbn [obind]. destruct (i + 1 <? BUFSZ)%N; [|discriminate]. cbn [obind]. intros E.
  assert (n = 256 * a + b)%N by congruence. lia.
Qed.
Lemma dn_skipname_le lax pkt p q : dn_skipname lax pkt p = Ok (Some q) -> (q <= N.of_nat (length pkt))%N.
Proof.
  unfold dn_skipname. generalize (S (length pkt)) as f. generalize (N.of_nat (length pkt)) as eom. intros eom f. revert p.
  induction f as [|f IH]; intros p E; [discriminate|]. cbn [skip_name] in E. destruct (N.ltb_spec p eom).
  - destruct (rd pkt p) as [n| | |]; try discriminate. cbn [obind] in E. destruct (N.eqb_spec n 0); [injection E as <-; lia|].
    destruct (n <? 64)%N; [eauto|]. destruct (192 <=? n)%N; [|discriminate]. destruct (N.leb_spec (p + 2) eom); [injection E as <-; lia|discriminate].
  - destruct lax; cbn [andb] in E; [|discriminate]. destruct (N.eqb_spec p eom); [injection E as <-; lia|discriminate].
Qed.
(** Behind the end there is no name. *)
Lemma dn_skipname_behind lax pkt p : (N.of_nat (length pkt) < p)%N -> dn_skipname lax pkt p = Ok None.
Proof.
  intros H. unfold dn_skipname. cbn [skip_name]. destruct (N.ltb_spec p (N.of_nat (length pkt))); [lia|].
  destruct (N.eqb_spec p (N.of_nat (length pkt))); [lia|]. rewrite andb_false_r. reflexivity.
Qed.
Lemma txt_loop_ptr_eq L pkt f : (BUFSZ <= L)%N -> forall p left result, (p + left <= BUFSZ)%N ->
  txt_loop_ptr L f pkt p left result = txt_loop f pkt p left result.
Proof.
  intros HL. induction f as [|f IH]; intros p left result B; [reflexivity|]. cbn [txt_loop_ptr txt_loop].
  destruct (N.ltb_spec 0 left); [|reflexivity]. destruct (rd pkt p) as [n| | |]; try reflexivity. cbn [obind].
  destruct (N.leb_spec left n); [reflexivity|]. rewrite (ptr_in L (p + 1)) by lia. cbn [obind].
  destruct (rd_n pkt (p + 1)%N (N.to_nat n)); try reflexivity. cbn [obind]. rewrite ptr_in by lia. cbn [obind]. apply IH. lia.
Qed.
Lemma answers_ptr_eq L lax pkt cc : (BUFSZ <= L)%N -> (N.of_nat (length pkt) <= BUFSZ)%N -> forall p result, (12 <= p)%N ->
  answers_ptr L lax pkt cc p result = answers lax pkt cc p result \/
  ((L < 131071)%N /\ answers_ptr L lax pkt cc p result = UB UB_oob_read /\ exists r, answers lax pkt cc p result = Ok (false, r)).
Proof.
  intros HL B. unfold BUFSZ in *. induction cc as [|cc IH]; intros p result P12; [left; reflexivity|]. cbn [answers_ptr answers].
  destruct (dn_skipname_ok lax pkt p B) as (s & E & G). rewrite E. cbn [obind]. destruct s as [p1|]; [|left; reflexivity].
  pose proof (dn_skipname_le _ _ _ _ E) as LE. rewrite (ptr_in L p1) by lia. cbn [obind].
  destruct (N.ltb_spec (N.of_nat (length pkt)) 10); [lia|].
  destruct (N.ltb_spec (N.of_nat (length pkt)) (p1 + 10)); destruct (N.ltb_spec (N.of_nat (length pkt) - 10) p1); try lia; [left; reflexivity|].
  destruct (rd16 pkt p1) as [t| | |]; try (left; reflexivity). cbn [obind]. rewrite ptr_in by lia. cbn [obind].
  destruct (rd16 pkt (p1 + 8)%N) as [n| | |] eqn:RN; try (left; reflexivity). apply rd16_lt in RN. cbn [obind]. rewrite (ptr_in L (p1 + 10)) by lia.
  cbn [obind]. destruct (N.leb_spec (p1 + 10 + n) L).
  - rewrite ptr_in by assumption. cbn [obind]. destruct (N.ltb_spec (N.of_nat (length pkt)) (p1 + 10 + n)); [left; reflexivity|].
    destruct (t =? 16)%N; [|apply IH; lia]. rewrite txt_loop_ptr_eq by (unfold BUFSZ; lia). 
    destruct (txt_loop_ok pkt (S (N.to_nat n)) (p1 + 10)%N n result) as (r & ->); [unfold BUFSZ; lia|lia|]. cbn [obind]. apply IH. lia.
  - right. rewrite ptr_out by assumption. cbn [obind]. split; [lia|]. split; [reflexivity|].
    destruct (N.ltb_spec (N.of_nat (length pkt)) (p1 + 10 + n)); [eauto|lia].
Qed.
(** Behind the end there are no questions and no answers. *)
Lemma answers_behind lax pkt cc p result : (N.of_nat (length pkt) < p)%N -> answers lax pkt cc p result = Ok (true, result).
Proof. intros H. destruct cc; [reflexivity|]. cbn [answers]. rewrite dn_skipname_behind by assumption. reflexivity. Qed.
Lemma questions_behind lax pkt qc p : (N.of_nat (length pkt) < p)%N ->
  skip_questions lax pkt qc p = Ok None \/ skip_questions lax pkt qc p = Ok (Some p).
Proof. intros H. destruct qc; cbn [skip_questions]; rewrite dn_skipname_behind by assumption; cbn [obind]; auto. Qed.
Lemma questions_ptr_eq L lax pkt qc : (BUFSZ <= L)%N -> (N.of_nat (length pkt) <= BUFSZ)%N -> forall p, (12 <= p)%N ->
  (exists s, skip_questions_ptr L lax pkt qc p = Ok s /\ skip_questions lax pkt qc p = Ok s /\ match s with Some q => 12 <= q | None => True end)%N \/
  ((L < 65540 /\ L < N.of_nat (length pkt) + 4)%N /\ skip_questions_ptr L lax pkt qc p = UB UB_oob_read /\ exists s, skip_questions lax pkt qc p = Ok s /\
   match s with None => True | Some q => N.of_nat (length pkt) < q end)%N.
Proof.
  intros HL B. unfold BUFSZ in *. induction qc as [|qc IH]; intros p P; cbn [skip_questions_ptr skip_questions];
    destruct (dn_skipname_ok lax pkt p B) as (s & E & G); rewrite E; cbn [obind]; [left; exists (Some p); auto|].
  destruct s as [p1|]; [|left; exists None; auto]. pose proof (dn_skipname_le _ _ _ _ E) as LE. destruct (N.leb_spec (p1 + 4) L) as [IN|OUT].
  - rewrite ptr_in by assumption. cbn [obind]. apply IH. lia.
  - right. rewrite ptr_out by assumption. cbn [obind]. split; [lia|]. split; [reflexivity|].
    destruct (questions_behind lax pkt qc (p1 + 4) ltac:(lia)) as [->| ->]; [exists None; auto|]. eexists. split; [reflexivity|]. cbv iota. lia.
Qed.

(** Far beyond the buffer no pointer is formed. *)
Lemma ptr_bound lax q : GetTXT_ptr 131071 lax q = GetTXT lax q.
Proof.
  destruct q as [[]|pkt]; try reflexivity. cbn [GetTXT_ptr GetTXT]. destruct (N.ltb_spec BUFSZ (N.of_nat (length pkt))) as [|B]; [reflexivity|].
  unfold BUFSZ in B. rewrite ptr_in by lia. cbn [obind]. destruct (rd16 pkt 4) as [qc| | |]; try reflexivity. cbn [obind]. rewrite ptr_in by lia. cbn [obind].
  destruct (questions_ptr_eq 131071 lax pkt (N.to_nat qc)) with (p := 12%N) as [(s & -> & -> & S12)|((A & _) & _)]; try (unfold BUFSZ; lia). cbn [obind].
  destruct s as [p|]; [|reflexivity]. destruct (rd16 pkt 6) as [cc| | |]; try reflexivity. cbn [obind].
  destruct (answers_ptr_eq 131071 lax pkt (N.to_nat cc)) with (p := p) (result := @nil ascii) as [E|(A & _)]; auto; unfold BUFSZ; lia.
Qed.
(** A pointer outside of the buffer: the answer is then refused, or nothing is taken from it. *)
Lemma ptr_stray lax q : GetTXT_ptr 65536 lax q = GetTXT lax q \/
  (GetTXT_ptr 65536 lax q = UB UB_oob_read /\ ((exists r, GetTXT lax q = Ok (false, r)) \/
   (GetTXT lax q = Ok (true, []) /\ exists pkt, q = QAnswer pkt /\ (65533 <= N.of_nat (length pkt))%N))).
Proof.
  destruct q as [[]|pkt]; try (left; reflexivity). cbn [GetTXT_ptr GetTXT]. destruct (N.ltb_spec BUFSZ (N.of_nat (length pkt))) as [|B]; [left; reflexivity|].
  unfold BUFSZ in B. rewrite ptr_in by lia. cbn [obind]. destruct (rd16 pkt 4) as [qc| | |]; try (left; reflexivity). cbn [obind]. rewrite ptr_in by lia. cbn [obind].
  destruct (questions_ptr_eq 65536 lax pkt (N.to_nat qc)) with (p := 12%N) as [(s & -> & -> & S12)|(A & -> & s & -> & BH)]; try (unfold BUFSZ; lia); cbn [obind].
  - destruct s as [p|]; [|left; reflexivity]. destruct (rd16 pkt 6) as [cc| | |]; try (left; reflexivity). cbn [obind].
    destruct (answers_ptr_eq 65536 lax pkt (N.to_nat cc)) with (p := p) (result := @nil ascii) as [E|(_ & E & R)]; auto; unfold BUFSZ; lia.
  - right. split; [reflexivity|]. right. split; [|exists pkt; split; [reflexivity|lia]]. destruct s as [p|]; [|reflexivity].
    destruct (rd16_ok pkt 6) as (cc & ->); [unfold BUFSZ; lia|]. cbn [obind]. apply answers_behind, BH.
Qed.
(** A well-formed response: no pointer outside. *)
Lemma questions_ptr_at lax qs : Forall question qs -> forall pre r, fits (pre ++ concat qs ++ r) ->
  skip_questions_ptr 65536 lax (pre ++ concat qs ++ r) (length qs) (N.of_nat (length pre)) = Ok (Some (N.of_nat (length (pre ++ concat qs)))).
Proof.
  induction 1 as [|q qs Q F IH]; intros pre r FT; cbn [skip_questions_ptr length].
  - cbn [concat app] in *. destruct (dn_skipname_ok lax (pre ++ r) (N.of_nat (length pre)) FT) as (x & -> & _). cbn [obind].
    rewrite app_nil_r. reflexivity.
  - destruct Q as [n f D L4]. cbn [concat] in *.
    assert (E : pre ++ ((n ++ f) ++ concat qs) ++ r = pre ++ n ++ (f ++ concat qs ++ r)) by (rewrite <- !app_assoc; reflexivity).
    rewrite E in *. rewrite dn_skipname_at by auto. cbn [obind].
    assert (E2 : pre ++ n ++ f ++ concat qs ++ r = (pre ++ n ++ f) ++ concat qs ++ r) by (rewrite <- !app_assoc; reflexivity).
    rewrite E2 in *. rewrite ptr_in by (unfold BUFSZ in *; lens; unfold BUFSZ in *; lia). cbn [obind].
    replace (N.of_nat (length (pre ++ n)) + 4)%N with (N.of_nat (length (pre ++ n ++ f))) by (lens; lia).
    rewrite IH by auto. do 2 f_equal. rewrite <- !app_assoc. reflexivity.
Qed.
Lemma ptr_response lax texts pkt : response texts pkt -> (N.of_nat (length pkt) <= 65536)%N ->
  GetTXT_ptr 65536 lax (QAnswer pkt) = Ok (true, concat texts).
Proof.
  intros R L. pose proof (GetTXT_response lax texts pkt R L) as G. destruct (ptr_stray lax (QAnswer pkt)) as [->|(U & [(r & E)|(_ & _)])]; [exact G|congruence|].
  exfalso. revert U G. destruct R as [id qd an rest qs txts rrs more I4 QD AN R4 QS RR]. set (pkt := id ++ qd ++ an ++ rest ++ concat qs ++ concat rrs ++ more) in *.
  cbn [GetTXT_ptr GetTXT]. destruct (N.ltb_spec BUFSZ (N.of_nat (length pkt))) as [|B]; [discriminate|].
  rewrite ptr_in by assumption. cbn [obind]. 
  assert (E4 : rd16 pkt 4 = Ok (N.of_nat (length qs))).
  { change 4%N with (N.of_nat 4). rewrite <- I4. unfold pkt. apply rd16_at; assumption. }
  rewrite E4. cbn [obind]. rewrite ptr_in by lia. cbn [obind]. rewrite Nat2N.id.
  assert (LQ : length qd = 2) by (destruct QD; reflexivity). assert (LA : length an = 2) by (destruct AN; reflexivity).
  assert (E : pkt = (id ++ qd ++ an ++ rest) ++ concat qs ++ (concat rrs ++ more)) by (unfold pkt; rewrite <- !app_assoc; reflexivity).
  assert (P : 12%N = N.of_nat (length (id ++ qd ++ an ++ rest))) by (rewrite !app_length; lia).
  rewrite P, E. rewrite questions_ptr_at, questions_at by (try assumption; rewrite <- E; exact B). cbn [obind]. rewrite <- E.
  destruct (rd16 pkt 6) as [cc| | |]; try discriminate. cbn [obind]. intros U G.
  destruct (answers_ptr_eq 65536 lax pkt (N.to_nat cc)) with (p := N.of_nat (length ((id ++ qd ++ an ++ rest) ++ concat qs))) (result := @nil ascii) as [Q|(_ & _ & r & Q)];
    try (unfold BUFSZ; lia); [rewrite app_length; lia| |]; congruence.
Qed.
Lemma two_records : response [esc "p=A"; esc "BC"] (head2 ++ rr rd_a ++ rr rd_b).
Proof.
  assert (E : head2 ++ rr rd_a ++ rr rd_b = esc "IDff" ++ esc "\0\0" ++ [chr 0; chr 2] ++ esc "aabb" ++ concat [] ++ concat [rr rd_a; rr rd_b] ++ []) by (vm_compute; reflexivity).
  rewrite E. apply response_intro; [reflexivity|apply (tb_intro (chr 0) (chr 0))|apply (tb_intro (chr 0) (chr 2))|reflexivity|constructor|].
  destruct rec_ab. constructor; [assumption|]. constructor; [assumption|constructor].
Qed.
(** 24 bytes are enough for a pointer outside of the buffer. *)
Definition stray_packet : bytes := esc "IDff\0\0\0" ++ [chr 1] ++ esc "aabb" ++ [chr 192; chr 12; chr 0; chr 16] ++ esc "ccTTTT" ++ [chr 255; chr 255].
Lemma stray_refuted : length stray_packet = 24 /\ forall lax, GetTXT_ptr 65536 lax (QAnswer stray_packet) = UB UB_oob_read /\
  GetTXT lax (QAnswer stray_packet) = Ok (false, []).
Proof. split; [reflexivity|]. intros []; split; vm_compute; reflexivity. Qed.
