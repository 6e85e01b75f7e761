(** printf's %lu against strtol, strtoul. *)
From Coq Require Import Decimal DecimalN DecimalFacts.
From Verif Require Import Bytes CStdlib BytesFacts SpecText SpecTags SpecCanon SpecSig QPFacts HeaderFacts TagListFacts SigFacts SigProps.

Definition dec_from (a : N) (v : bytes) : N := fold_left (fun a c => 10 * a + (code c - 48))%N v a.

Lemma uint_acc u : forall p, dec_from (N.pos p) (uint_bytes u) = N.pos (Pos.of_uint_acc u p).
Proof.
  unfold dec_from. induction u; intros p; cbn [uint_bytes fold_left Pos.of_uint_acc]; [reflexivity|..]; rewrite <- IHu; f_equal; cbn [code]; 
  change (code (chr 48) - 48)%N with 0%N; change (code (chr 49) - 48)%N with 1%N; change (code (chr 50) - 48)%N with 2%N; change (code (chr 51) - 48)%N with 3%N;
  change (code (chr 52) - 48)%N with 4%N; change (code (chr 53) - 48)%N with 5%N; change (code (chr 54) - 48)%N with 6%N; change (code (chr 55) - 48)%N with 7%N;
  change (code (chr 56) - 48)%N with 8%N; change (code (chr 57) - 48)%N with 9%N; lia.
Qed.
Lemma uint_value u : dec_from 0 (uint_bytes u) = N.of_uint u.
Proof.
  unfold N.of_uint. induction u; cbn [uint_bytes Pos.of_uint]; [reflexivity|..]; [exact IHu|..]; rewrite <- uint_acc; reflexivity.
Qed.
Lemma fmt_lu_value n : dec_value (fmt_lu n) = n.
Proof. change (dec_from 0 (fmt_lu n) = n). unfold fmt_lu. rewrite uint_value. apply Unsigned.of_to. Qed.

Lemma uint_digits u : Forall (between 48 57) (uint_bytes u).
Proof.
  assert (B : forall k, (48 <= k <= 57)%N -> between 48 57 (chr k)) by (intros k K; unfold between; rewrite code_chr by lia; lia).
  induction u; cbn [uint_bytes]; constructor; auto; apply B; lia.
Qed.
Lemma to_uint_shape n : N.to_uint n = D0 Nil \/ exists u, N.to_uint n = u /\ u <> Nil /\ forall u', u <> D0 u'.
Proof.
  assert (E : N.to_uint n = unorm (N.to_uint n)).
  { rewrite <- (Unsigned.to_of (N.to_uint n)), Unsigned.of_to. reflexivity. }
  unfold unorm in E. destruct (nzhead (N.to_uint n)) eqn:Z; rewrite E; auto; right.
  { exfalso. eapply nzhead_nonzero; eauto. }
  all: eexists; split; [reflexivity|split; [discriminate|intros; discriminate]].
Qed.
Lemma fmt_lu_digits n : digits (fmt_lu n).
Proof.
  split; [|apply uint_digits]. unfold fmt_lu. destruct (to_uint_shape n) as [->|(u & -> & N & _)]; [discriminate|].
  destruct u; try discriminate. congruence.
Qed.
Lemma dec_from_grows v : forall a, (a * 10 ^ N.of_nat (length v) <= dec_from a v)%N.
Proof.
  unfold dec_from. induction v as [|c v IH]; intros a; cbn [fold_left length]; [rewrite N.mul_1_r; lia|].
  eapply N.le_trans; [|apply IH]. rewrite Nat2N.inj_succ, N.pow_succ_r'. nia.
Qed.
Lemma fmt_lu_length n k : (n < 10 ^ N.of_nat k)%N -> 0 < k -> length (fmt_lu n) <= k.
Proof.
  intros B K. pose proof (fmt_lu_value n) as V. revert V. unfold fmt_lu. destruct (to_uint_shape n) as [->|(u & -> & N & NZ)]; [cbn; lia|].
  intros V. destruct (Nat.leb_spec (length (uint_bytes u)) k) as [L|L]; auto. exfalso.
  assert (X : exists d v, uint_bytes u = d :: v /\ (1 <= code d - 48)%N).
  { destruct u; try congruence; try (exfalso; eapply NZ; reflexivity); cbn [uint_bytes]; eexists; eexists; (split; [reflexivity|]); vm_compute; discriminate. }
  destruct X as (d & v & E & D). rewrite E in *. cbn [length] in L. unfold dec_value in V. cbn [fold_left] in V.
  pose proof (dec_from_grows v (10 * 0 + (code d - 48))) as G. unfold dec_from in G. rewrite V in G.
  assert (10 ^ N.of_nat k <= 10 ^ N.of_nat (length v))%N by (apply N.pow_le_mono_r; lia). nia.
Qed.

Lemma digits_val_all v : forall a, Forall (between 48 57) v -> digits_val a v = (dec_from a v, []).
Proof.
  unfold dec_from. induction v as [|c v IH]; intros a F; cbn [digits_val fold_left]; [reflexivity|]. inversion F as [|? ? Bc Fv]; subst.
  apply is_digit_spec in Bc. rewrite Bc. auto.
Qed.
Lemma digits_value v : digits v -> tag_value v.
Proof.
  intros [_ F]. assert (K : forall c, between 48 57 c -> value_byte c).
  { intros c [A B]. split; [unfold printable, between; lia|]. intros ->. vm_compute in B. congruence. }
  assert (G : forall w, Forall (between 48 57) w -> first_ok value_byte w) by (intros [|c w] Fw; cbn; auto; inversion Fw; auto).
  split; [|split; apply G; auto; apply Forall_rev; auto]. eapply Forall_impl; [|exact F]. auto.
Qed.
Lemma digits_scan v : digits v -> strto_scan (c_str v) = Some (false, dec_value v, []).
Proof.
  intros D. pose proof (digits_value v D) as T. rewrite (tag_value_c_str v T). unfold strto_scan. rewrite (tag_value_no_space v T).
  destruct D as [N F]. destruct v as [|c v]; [congruence|]. assert (Bc := Forall_inv F). destruct (digit_plain c Bc) as (DC & X & Y).
  unfold read_sign. rewrite X, Y. rewrite (proj2 (is_digit_spec c) Bc), (digits_val_all _ _ F). reflexivity.
Qed.
Lemma strtoul_digits v : digits v -> (dec_value v <= ULONG_MAX)%N -> strtoul v = (dec_value v, [], false).
Proof.
  intros D B. unfold strtoul. rewrite (digits_scan v D). apply N.ltb_ge in B. rewrite B. reflexivity.
Qed.
Lemma strtol_digits v : digits v ->
  strtol v = if (LONG_MAX <? Z.of_N (dec_value v))%Z then (LONG_MAX, true) else (Z.of_N (dec_value v), false).
Proof.
  intros D. unfold strtol. rewrite (digits_scan v D). destruct (LONG_MAX <? Z.of_N (dec_value v))%Z; [reflexivity|].
  destruct (Z.ltb_spec (Z.of_N (dec_value v)) LONG_MIN); [unfold LONG_MIN in *; lia|reflexivity].
Qed.

(** A time_t printed with %lu and read back with strtol: what is negative becomes the largest
    value. *)
Lemma time_read e : (LONG_MIN <= e <= LONG_MAX)%Z -> exists v er, strtol (fmt_lu_time e) = (v, er) /\ (e <= v)%Z /\
  v = (if (e <? 0)%Z then LONG_MAX else e) /\ er = (e <? 0)%Z.
Proof.
  intros [A B]. unfold fmt_lu_time. rewrite (strtol_digits _ (fmt_lu_digits _)), fmt_lu_value.
  unfold LONG_MIN, LONG_MAX, ULONG_MAX in *. change (Z.of_N 18446744073709551615 + 1)%Z with 18446744073709551616%Z.
  pose proof (Z.mod_pos_bound e 18446744073709551616 ltac:(lia)) as M. rewrite Z2N.id by lia.
  destruct (Z.ltb_spec e 0) as [NE|P].
  - replace (e mod 18446744073709551616)%Z with (e + 18446744073709551616)%Z.
    + destruct (Z.ltb_spec 9223372036854775807 (e + 18446744073709551616)); [|lia]. eexists; eexists; split; [reflexivity|]; lia.
    + symmetry. rewrite <- (Z.mod_add e 1) by lia. rewrite Z.mod_small; lia.
  - rewrite Z.mod_small by lia. destruct (Z.ltb_spec 9223372036854775807 e); [lia|].
    eexists; eexists; split; [reflexivity|]. split; [lia|]. auto.
Qed.
