(** What of the body is read. *)
From Verif Require Import Bytes Outcome Stream TagList MailParser Canonicalization Util CStdlib Crypto Signature Validatory
  SpecText SpecMail SpecCanon SpecVerify SpecRead BodyWork
  BytesFacts StreamFacts BodyFacts BodyProps MailFacts VerifyFacts.

Lemma firstn_more {A} a b (l : list A) : firstn (a + b) l = firstn a l ++ firstn b (skipn a l).
Proof. revert l. induction a as [|a IH]; intros l; [reflexivity|]. destruct l as [|x l]; cbn [Nat.add firstn skipn app]; [rewrite firstn_nil; reflexivity|]. rewrite IH. reflexivity. Qed.
Definition certain mode p n (r : bytes) : nat := length (b_buf (run mode (mkBody p n []) r)).
Definition done_at (chunk : nat) mode (limit : bool) (size : N) p n (r : bytes) (j : nat) : Prop :=
  length r <= j * chunk \/ (limit = true /\ (size <= N.of_nat (certain mode p n (firstn (j * chunk) r)))%N).

Lemma loop_reads chunk mode limit : 0 < chunk -> forall f s pr r size p n empty calls,
  St s pr r -> good s = true -> length r + 1 < f ->
  exists j calls' size' empty' s', body_loop chunk mode limit f s size p n empty calls = Ok (calls', size', empty', s') /\
    s_prev s' = rev (firstn (j * chunk) r) ++ pr /\
    loop_work chunk mode limit f s size p n = length (firstn (j * chunk) r) /\
    done_at chunk mode limit size p n r j /\ forall i, i < j -> ~ done_at chunk mode limit size p n r i.
Proof.
  intros CH. induction f as [|f IH]; intros s pr r size p n empty calls H G L; [lia|]. cbn [body_loop loop_work]. rewrite G.
  destruct (limit && (size =? 0)%N) eqn:Z.
  - apply andb_true_iff in Z as [-> Z]. apply N.eqb_eq in Z. subst size.
    exists 0, calls, 0%N, empty, s. split; [reflexivity|]. split; [exact (proj1 H)|]. split; [reflexivity|]. split; [|lia].
    right. split; [reflexivity|lia].
  - destruct (sread_St chunk s pr r H G) as (s1 & P & H1 & GS & GL). rewrite P.
    change (fold_left (body_byte mode) (firstn chunk r) (mkBody p n [])) with (run mode (mkBody p n []) (firstn chunk r)).
    set (st := run mode (mkBody p n []) (firstn chunk r)) in *. rewrite emit_take.
    assert (START : ~ (limit = true /\ (size <= N.of_nat (certain mode p n (firstn (0 * chunk) r)))%N)).
    { intros [-> X]. cbn in X. cbn [andb] in Z. apply N.eqb_neq in Z. lia. }
    destruct (le_lt_dec chunk (length r)) as [K|K].
    + destruct (IH s1 _ (skipn chunk r) (left_over limit size (b_buf st)) (b_pending st) (b_lines st)
        (match b_buf st with [] => empty | _ => false end) (calls ++ [take limit size (b_buf st)]) H1 (GL K)) as (j & calls' & size' & empty' & s' & E & SP' & W & D & M).
      { rewrite skipn_length. lia. }
      rewrite E, W. assert (ADD : forall i, firstn (S i * chunk) r = firstn chunk r ++ firstn (i * chunk) (skipn chunk r)).
      { intros i. cbn [Nat.mul]. apply firstn_more. }
      assert (STEP : forall i, done_at chunk mode limit size p n r (S i) <-> done_at chunk mode limit (left_over limit size (b_buf st)) (b_pending st) (b_lines st) (skipn chunk r) i).
      { intros i. unfold done_at. rewrite ADD. unfold certain. rewrite run_split. fold st. rewrite app_length, skipn_length. cbn [Nat.mul]. unfold left_over. split.
        - intros [X|[-> X]]; [left; lia|right; split; [reflexivity|lia]].
        - intros [X|[-> X]]; [left; lia|right; split; [reflexivity|lia]]. }
      exists (S j), calls', size', empty', s'. split; [reflexivity|]. rewrite ADD. split; [rewrite SP', rev_app_distr, app_assoc; reflexivity|].
      split; [rewrite app_length; reflexivity|]. split; [apply STEP; exact D|]. intros [|i] I; [|rewrite STEP; apply M; lia].
      intros [X|X]; [lia|]. exact (START X).
    + specialize (GS K). destruct f as [|f]; [lia|]. cbn [body_loop loop_work]. rewrite GS. cbv beta iota.
      exists (if Nat.eqb (length r) 0 then 0 else 1). do 4 eexists. split; [reflexivity|].
      assert (ALL : firstn chunk r = r) by (apply firstn_all2; lia). rewrite ALL in *.
      destruct r as [|c r]; cbn [length Nat.eqb Nat.mul firstn].
      * split; [exact (proj1 H1)|]. split; [reflexivity|]. split; [left; cbn; lia|lia].
      * rewrite Nat.add_0_r, ALL. split; [exact (proj1 H1)|]. split; [rewrite Nat.add_0_r; reflexivity|].
        split; [left; lia|]. intros i I. replace i with 0 by lia. intros [X|X]; [cbn in X; lia|exact (START X)].
Qed.

Lemma settled_certain mode a n : settled (is_relaxed mode) a n <-> n = certain mode false 0 a.
Proof.
  assert (X : length (pass mode a) - 2 = certain mode false 0 a).
  { unfold pass, certain. destruct (b_buf (run mode (mkBody false 0 []) a)) as [|c l]; [destruct mode; reflexivity|]. cbn [is_nil negb orb]. rewrite app_length. change (length CRLF) with 2. lia. }
  split.
  - intros (out & CB & ->). apply pass_canonical in CB. rewrite <- CB. exact X.
  - intros ->. destruct (canonical_exists (is_relaxed mode) a) as (out & CB). exists out. split; [exact CB|]. apply pass_canonical in CB. rewrite <- CB. symmetry. exact X.
Qed.
Lemma enough_done chunk mode limit size b j : enough chunk (is_relaxed mode) limit size b j <-> done_at chunk mode limit size false 0 b j.
Proof.
  unfold enough, done_at. split; (intros [X|[-> X]]; [left; exact X|right; split; [reflexivity|]]).
  - destruct X as (n & S & L). apply settled_certain in S. subst. exact L.
  - exists (certain mode false 0 (firstn (j * chunk) b)). split; [apply settled_certain; reflexivity|exact X].
Qed.
Lemma amount_unique chunk r limit size b a a' : amount chunk r limit size b a -> amount chunk r limit size b a' -> a = a'.
Proof.
  intros (j & E & M & ->) (j' & E' & M' & ->). destruct (lt_eq_lt_dec j j') as [[L| ->]|L]; auto; exfalso; [apply (M' j L E)|apply (M j' L E')].
Qed.
Lemma amount_whole chunk r size b a : amount chunk r false size b a -> a = b.
Proof. intros (j & [E|[E _]] & _ & ->); [apply firstn_all2; exact E|discriminate]. Qed.
Lemma amount_le chunk r limit size b a : amount chunk r limit size b a -> length a <= length b.
Proof. intros (j & _ & _ & ->). rewrite firstn_length. lia. Qed.

(** CanonicalizationBody, wherever the stream is. *)
Lemma body_reads s mode pre b limit size : rev (s_prev s) ++ s_rest s = pre ++ b ->
  exists calls r s' a, CanonicalizationBody s mode (Z.of_nat (length pre)) limit size = Ok (calls, r, s') /\
    amount (N.to_nat 8096) (is_relaxed mode) limit size b a /\ rev (s_prev s') = pre ++ a /\
    body_work s mode (Z.of_nat (length pre)) limit size = length a.
Proof.
  intros E. unfold CanonicalizationBody, CanonicalizationBody_, body_work. destruct (Z.eqb_spec (Z.of_nat (length pre)) (-1)) as [Z|_]; [lia|].
  cbv zeta. pose proof (seekg_St s _ pre b E eq_refl) as H. assert (G : good (seekg (Z.of_nat (length pre)) (clear s)) = true).
  { unfold seekg, clear. cbn [s_fail s_prev s_rest s_eof]. assert (SZ : s_size (mkStream (s_prev s) (s_rest s) false false) = length pre + length b).
    { unfold s_size. cbn [s_prev s_rest]. pose proof (f_equal (@length _) E) as L. rewrite !app_length, rev_length in L. lia. }
    rewrite SZ. destruct (Z.leb_spec 0 (Z.of_nat (length pre))) as [_|]; [|lia].
    destruct (Z.leb_spec (Z.of_nat (length pre)) (Z.of_nat (length pre + length b))) as [_|]; [|lia]. reflexivity. }
  assert (CH : 0 < buffer_size) by (unfold buffer_size; lia). rewrite (St_fuel _ _ _ H).
  destruct (loop_reads buffer_size mode limit CH (S (S (length b))) _ _ b size false 0 true [] H G) as (j & calls & size' & empty & s' & -> & SP' & W & D & M); [lia|].
  cbn [obind]. exists (fst (if negb empty || match mode with RELAXED => false | SIMPLE => true end then let '(out, z) := emit limit size' CRLF in (calls ++ [out], z) else (calls, size'))).
  destruct (if negb empty || match mode with RELAXED => false | SIMPLE => true end then _ else _) as [c2 z2].
  eexists. exists s', (firstn (j * buffer_size) b). split; [reflexivity|]. split.
  - exists j. split; [apply enough_done; exact D|]. split; [|reflexivity]. intros i I X. apply enough_done in X. exact (M i I X).
  - split; [|exact W]. rewrite SP', rev_app_distr, !rev_involutive. reflexivity.
Qed.
(** Not more than a piece too many. *)
Lemma certain_app mode p n a b : certain mode p n a <= certain mode p n (a ++ b).
Proof. unfold certain. rewrite run_split, app_length. lia. Qed.
Lemma overshoot piece r size b a : 0 < piece -> amount piece r true size b a ->
  forall q n, settled r (firstn q b) n -> (size <= N.of_nat n)%N -> length a < q + piece.
Proof.
  intros P (j & _ & M & ->) q n S L. rewrite firstn_length.
  assert (R : exists mode, r = is_relaxed mode) by (destruct r; [exists RELAXED|exists SIMPLE]; reflexivity). destruct R as (mode & ->).
  apply settled_certain in S. subst n.
  set (i := (q + piece - 1) / piece). assert (I1 : q <= i * piece /\ i * piece < q + piece).
  { pose proof (Nat.div_mod (q + piece - 1) piece ltac:(lia)) as DM. pose proof (Nat.mod_upper_bound (q + piece - 1) piece ltac:(lia)) as UB. fold i in DM.
    rewrite Nat.mul_comm in DM. lia. }
  destruct (le_lt_dec j i) as [K|K]; [assert (j * piece <= i * piece) by (apply Nat.mul_le_mono_r; exact K); lia|]. exfalso. apply (M i K). apply enough_done. right. split; [reflexivity|].
  replace (i * piece) with (q + (i * piece - q)) by lia. rewrite firstn_more.
  pose proof (certain_app mode false 0 (firstn q b) (firstn (i * piece - q) (skipn q b))). lia.
Qed.

(** All the signatures of a message. *)
Lemma in_use_pre strict ty t v b : in_use strict ty t v -> message_body t b ->
  (m_offset (v_msg v) = (-1)%Z /\ b = []) \/ exists pre, rev (s_prev (v_file v)) ++ s_rest (v_file v) = pre ++ b /\ m_offset (v_msg v) = Z.of_nat (length pre).
Proof.
  intros (v0 & NV & EM & ES & EC) MB. pose proof (new_validatory_spec _ _ _ _ NV) as (m & s & P & M0 & _ & _). rewrite EM, M0.
  exact (message_body_at t b m s (v_file v) MB P EC).
Qed.
Lemma amount_none piece r limit size : amount piece r limit size [] [].
Proof. exists 0. split; [left; cbn; lia|]. split; [lia|reflexivity]. Qed.
Lemma in_use_work strict ty t v b mode limit size : in_use strict ty t v -> message_body t b ->
  exists a, amount (N.to_nat 8096) (is_relaxed mode) limit size b a /\
    body_work (v_file v) mode (m_offset (v_msg v)) limit size = length a.
Proof.
  intros U MB. destruct (in_use_pre _ _ _ _ _ U MB) as [[-> ->]|(pre & E & ->)].
  - exists []. split; [apply amount_none|reflexivity].
  - destruct (body_reads (v_file v) mode pre b limit size E) as (_ & _ & _ & a & _ & A & _ & W). eauto.
Qed.
Lemma check_reads C strict clock ty t b : message_body t b -> forall hs v n e, in_use strict ty t v ->
  exists l, all_reads C strict clock b n e hs l /\ check_work C strict clock hs v n e = length (concat l).
Proof.
  intros MB. induction hs as [|h hs IH]; intros v n e U; [exists []; split; [constructor|reflexivity]|]. cbn [check_work].
  destruct (GetSignature_spec C strict ty t v (clock n) h (new_signature, e) U) as (v1 & U1 & G).
  destruct (Signature_Parse C strict (clock n) h (new_signature, e)) as [[g e1] r] eqn:P. destruct r as [[]|x|k|].
  - rewrite G. cbn [snd]. destruct (in_use_work _ _ _ _ _ (sg_cbody g) (sg_limit g) (sg_size g) U MB) as (a & A & ->).
    destruct (IH v1 (S n) e1 U1) as (l & R & ->). exists (a :: l). split; [|cbn [concat]; rewrite app_length; reflexivity].
    eapply ar_taken; [exact P|exact A|exact R].
  - rewrite G. cbn [snd]. destruct (IH v1 (S n) e1 U1) as (l & R & ->). exists l. split; [|reflexivity]. eapply ar_refused; [exact P|discriminate|exact R].
  - rewrite G. cbn [snd]. destruct (IH v1 (S n) e1 U1) as (l & R & ->). exists l. split; [|reflexivity]. eapply ar_refused; [exact P|discriminate|exact R].
  - rewrite G. cbn [snd]. destruct (IH v1 (S n) e1 U1) as (l & R & ->). exists l. split; [|reflexivity]. eapply ar_refused; [exact P|discriminate|exact R].
Qed.
Lemma all_reads_unique C strict clock b n e hs l : all_reads C strict clock b n e hs l -> forall l', all_reads C strict clock b n e hs l' -> l' = l.
Proof.
  induction 1 as [n e|n e h g e1 a hs l P A R IH|n e h g e1 r hs l P N R IH]; intros l' R'; inversion R' as [|? ? ? g' e1' a' ? l2 P' A' R2|? ? ? g' e1' r' ? l2 P' N' R2]; subst; auto.
  - rewrite P in P'. injection P' as <- <-. f_equal; [eapply amount_unique; eauto|apply IH; exact R2].
  - rewrite P in P'. injection P' as <- <- <-. congruence.
  - rewrite P in P'. injection P' as <- <- ->. congruence.
  - rewrite P in P'. injection P' as <- <- <-. apply IH. exact R2.
Qed.
Lemma verify_reads C strict clock ty e t v b : new_validatory strict ty (open_str t) = Ok v -> message_body t b ->
  exists l, all_reads C strict clock b 0 e (v_sigs v) l /\ (forall l', all_reads C strict clock b 0 e (v_sigs v) l' -> l' = l) /\
    verify_work C strict clock ty e t = length (concat l).
Proof.
  intros NV MB. unfold verify_work. rewrite NV. destruct (check_reads C strict clock ty t b MB (v_sigs v) v 0 e (in_use_fresh _ _ _ _ NV)) as (l & R & W).
  exists l. split; [exact R|]. split; [|exact W]. intros l' R'. eapply all_reads_unique; eauto.
Qed.
Lemma reads_bound C strict clock b n e hs l : all_reads C strict clock b n e hs l -> length (concat l) <= length hs * length b.
Proof.
  induction 1 as [n e|n e h g e1 a hs l P A R IH|n e h g e1 r hs l P N R IH]; cbn [concat length Nat.mul]; [lia| |lia].
  rewrite app_length. apply amount_le in A. lia.
Qed.
Lemma verify_bound C strict clock ty e t v b : new_validatory strict ty (open_str t) = Ok v -> message_body t b ->
  verify_work C strict clock ty e t <= length (v_sigs v) * length b.
Proof.
  intros NV MB. destruct (verify_reads C strict clock ty e t v b NV MB) as (l & R & _ & ->). eapply reads_bound; eauto.
Qed.
