(** Reading an answer of the DNS: at most as many bytes are looked at as it has. *)
From Verif Require Import Bytes Outcome Resolver ResolverFacts Examples ResolverExamples AnswerWork.

Lemma name_bound lax pkt eom f : forall p, (skip_name_work f pkt eom p <= eom - p /\ 2 * skip_name_work f pkt eom p <= (eom - p) + 1)%N /\
  (forall p', skip_name lax f pkt eom p = Ok (Some p') -> p <= p' <= N.max p eom /\ skip_name_work f pkt eom p <= p' - p /\ 2 * skip_name_work f pkt eom p <= (p' - p) + 1)%N.
Proof.
  induction f as [|f IH]; intros p; cbn [skip_name skip_name_work]; [split; [lia|discriminate]|]. destruct (N.ltb_spec p eom) as [L|L].
  - destruct (rd pkt p) as [n| | |]; cbn [obind]; [|split; [lia|discriminate]..]. destruct (N.eqb_spec n 0) as [Z|Z].
    { split; [lia|]. intros p' E. injection E as <-. lia. }
    destruct (N.ltb_spec n 64) as [K|K].
    { destruct (IH (p + 1 + n)%N) as [A B]. split; [lia|]. intros p' E. pose proof E as E2. specialize (B p' E).
      destruct (N.leb_spec (p + 1 + n) eom) as [M|M]; [lia|]. exfalso. destruct f as [|f]; cbn [skip_name] in E2; [discriminate|].
      destruct (N.ltb_spec (p + 1 + n) eom); [lia|]. destruct (N.eqb_spec (p + 1 + n) eom); [lia|]. rewrite andb_false_r in E2. discriminate. }
    split; [lia|]. intros p'. destruct (N.leb_spec 192 n); [|discriminate]. destruct (N.leb_spec (p + 2) eom); [|discriminate]. intros E. injection E as <-. lia.
  - split; [lia|]. intros p'. destruct (lax && (p =? eom)%N); [|discriminate]. intros E. injection E as <-. lia.
Qed.
Lemma questions_bound lax pkt q : forall p, (questions_work lax pkt q p <= N.of_nat (length pkt) - p)%N /\
  (forall p', skip_questions lax pkt q p = Ok (Some p') -> p <= p' /\ questions_work lax pkt q p <= (p' - p) + skipname_work pkt p')%N.
Proof.
  induction q as [|q IH]; intros p; cbn [questions_work skip_questions]; unfold dn_skipname;
    destruct (name_bound lax pkt (N.of_nat (length pkt)) (S (length pkt)) p) as [A B]; fold (skipname_work pkt p) in A, B;
    destruct (skip_name lax (S (length pkt)) pkt (N.of_nat (length pkt)) p) as [[p1|]| | |]; cbn [obind]; (split; [try lia|intros p' E; try discriminate]).
  - injection E as <-. lia.
  - injection E as <-. lia.
  - destruct (IH (p1 + 4)%N) as [C D]. specialize (B p1 eq_refl). lia.
  - destruct (IH (p1 + 4)%N) as [C D]. specialize (B p1 eq_refl). specialize (D p' E). lia.
Qed.
Lemma txt_bound pkt f : forall ptr left, (txt_work f pkt ptr left <= left)%N.
Proof.
  induction f as [|f IH]; intros ptr left; cbn [txt_work]; [lia|]. destruct (N.ltb_spec 0 left); [|lia]. destruct (rd pkt ptr) as [n| | |]; [|lia..].
  destruct (N.leb_spec left n); [lia|]. specialize (IH (ptr + n + 1)%N (left - (n + 1))%N). lia.
Qed.
Lemma answers_bound lax pkt c : forall p, (answers_work lax pkt c p <= N.of_nat (length pkt) - p /\ skipname_work pkt p + answers_work lax pkt c p <= (N.of_nat (length pkt) - p) + 1)%N.
Proof.
  induction c as [|c IH]; intros p; cbn [answers_work]; unfold dn_skipname;
    destruct (name_bound lax pkt (N.of_nat (length pkt)) (S (length pkt)) p) as [A B]; fold (skipname_work pkt p) in A, B; [lia|].
  destruct (skip_name lax (S (length pkt)) pkt (N.of_nat (length pkt)) p) as [[p1|]| | |]; [|lia..]. specialize (B p1 eq_refl). cbv zeta.
  destruct (N.ltb_spec (N.of_nat (length pkt)) (p1 + 10)) as [L|L]; [lia|]. destruct (rd16 pkt p1) as [t| | |]; [|lia..].
  destruct (rd16 pkt (p1 + 8)) as [n| | |]; [|lia..]. destruct (N.ltb_spec (N.of_nat (length pkt)) (p1 + 10 + n)); [lia|].
  specialize (IH (p1 + 10 + n)%N). pose proof (txt_bound pkt (S (N.to_nat n)) (p1 + 10)%N n). destruct (t =? 16)%N; lia.
Qed.
Theorem answer_once lax pkt : (answer_work lax (QAnswer pkt) <= (N.of_nat (length pkt) - 12) + 5)%N.
Proof.
  cbn [answer_work]. destruct (N.ltb_spec BUFSZ (N.of_nat (length pkt))); [lia|]. destruct (rd16 pkt 4) as [qc| | |]; [|lia..].
  destruct (questions_bound lax pkt (N.to_nat qc) 12) as [A B]. destruct (skip_questions lax pkt (N.to_nat qc) 12) as [[p|]| | |]; [|lia..].
  specialize (B p eq_refl). destruct (rd16 pkt 6) as [cc| | |]; [|lia..]. pose proof (answers_bound lax pkt (N.to_nat cc) p). lia.
Qed.

(** ** The text *)
Lemma rd_n_length pkt n : forall p t, rd_n pkt p n = Ok t -> length t = n.
Proof.
  induction n as [|n IH]; intros p t; cbn [rd_n]; [intros E; injection E as <-; reflexivity|]. destruct (rd pkt p) as [c| | |]; cbn [obind]; [|discriminate..].
  destruct (rd_n pkt (p + 1) n) as [r| | |] eqn:R; cbn [obind]; [|discriminate..]. intros E. injection E as <-. cbn [length]. f_equal. eapply IH; eauto.
Qed.
Lemma txt_length pkt f : forall ptr left res t, txt_loop f pkt ptr left res = Ok t -> (N.of_nat (length t) <= N.of_nat (length res) + txt_work f pkt ptr left)%N.
Proof.
  induction f as [|f IH]; intros ptr left res t; cbn [txt_loop txt_work]; [discriminate|]. destruct (N.ltb_spec 0 left); [|intros E; injection E as <-; lia].
  destruct (rd pkt ptr) as [n| | |]; cbn [obind]; [|discriminate..]. destruct (N.leb_spec left n); [intros E; injection E as <-; lia|].
  destruct (rd_n pkt (ptr + 1) (N.to_nat n)) as [x| | |] eqn:R; cbn [obind]; [|discriminate..]. intros E. apply IH in E. apply rd_n_length in R.
  rewrite app_length in E. lia.
Qed.
Lemma answers_length lax pkt c : forall p res ok t, answers lax pkt c p res = Ok (ok, t) -> (N.of_nat (length t) <= N.of_nat (length res) + answers_work lax pkt c p)%N.
Proof.
  induction c as [|c IH]; intros p res ok t; cbn [answers answers_work]; [intros E; injection E as <- <-; lia|].
  destruct (dn_skipname lax pkt p) as [[p1|]| | |]; cbn [obind]; [|intros E; injection E as <- <-; lia|discriminate..]. cbv zeta.
  destruct (N.ltb_spec (N.of_nat (length pkt)) (p1 + 10)); [intros E; injection E as <- <-; lia|]. destruct (rd16 pkt p1) as [ty| | |]; cbn [obind]; [|discriminate..].
  destruct (rd16 pkt (p1 + 8)) as [n| | |]; cbn [obind]; [|discriminate..]. destruct (N.ltb_spec (N.of_nat (length pkt)) (p1 + 10 + n)); [intros E; injection E as <- <-; lia|].
  destruct (ty =? 16)%N.
  - destruct (txt_loop (S (N.to_nat n)) pkt (p1 + 10) n res) as [x| | |] eqn:R; cbn [obind]; [|discriminate..]. intros E. apply IH in E. apply txt_length in R. lia.
  - intros E. apply IH in E. lia.
Qed.
(** What is kept is a part of what is looked at, and shorter than the answer by at least 12. *)
Theorem text_short lax pkt ok t : GetTXT lax (QAnswer pkt) = Ok (ok, t) -> (N.of_nat (length t) <= N.of_nat (length pkt) - 12)%N.
Proof.
  cbn [GetTXT]. destruct (N.ltb_spec BUFSZ (N.of_nat (length pkt))); [intros E; injection E as <- <-; cbn [length]; lia|].
  destruct (rd16 pkt 4) as [qc| | |]; cbn [obind]; [|discriminate..].
  destruct (questions_bound lax pkt (N.to_nat qc) 12) as [A B]. destruct (skip_questions lax pkt (N.to_nat qc) 12) as [[p|]| | |]; cbn [obind]; [|intros E; injection E as <- <-; cbn [length]; lia|discriminate..].
  specialize (B p eq_refl). destruct (rd16 pkt 6) as [cc| | |]; cbn [obind]; [|discriminate..]. intros E. apply answers_length in E.
  pose proof (answers_bound lax pkt (N.to_nat cc) p). cbn [length] in E. lia.
Qed.

(** ** Cases *)
(** A name of labels of one byte, in an answer that says it has one record: the bound is reached. *)
Definition deep_name : bytes := esc "IDff" ++ [chr 0; chr 0; chr 0; chr 1] ++ esc "aabb" ++ [chr 1; chr 97; chr 1; chr 98; chr 0].
Lemma answer_cases : answer_work true (QAnswer (head2 ++ rr rd_a ++ rr rd_b)) = 22%N /\ answer_work true (QAnswer deep_name) = 10%N /\ length deep_name = 17 /\ answer_work true (QAnswer []) = 4%N.
Proof. repeat (split; [vm_compute; reflexivity|]). vm_compute. reflexivity. Qed.
Lemma text_case : GetTXT true (QAnswer (head2 ++ rr rd_a ++ rr rd_b)) = Ok (true, esc "p=ABC") /\ length (head2 ++ rr rd_a ++ rr rd_b) = 43.
Proof. split; vm_compute; reflexivity. Qed.
