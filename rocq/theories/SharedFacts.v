(** Objects on one stream (for C83). *)
From Verif Require Import SpecPass PassFacts Bytes Outcome Stream Tokenizer MailParser Canonicalization Util Crypto Signature PublicKey SignatoryOptions Signatory Validatory
  BytesFacts StreamFacts SpecText SpecMail SpecCanon SpecVerify MailFacts BodyFacts BodyProps HeaderFacts VerifyFacts VerifyProps SignProps SharedStream SpecShared
  Examples VerifyExamples SignExamples.

(** ** Two streams that look the same ahead *)
Definition alike (p : bytes) (s s' : istream) : Prop :=
  s_rest s = s_rest s' /\ s_eof s = s_eof s' /\ s_fail s = s_fail s' /\ s_prev s = s_prev s' ++ p.
Lemma alike_good p s s' : alike p s s' -> good s = good s'.
Proof. intros (_ & E & F & _). unfold good. rewrite E, F. reflexivity. Qed.
Lemma alike_getline p s s' b l s1 : alike p s s' -> getline s = (b, l, s1) -> exists s1', getline s' = (b, l, s1') /\ alike p s1 s1'.
Proof.
  intros A. unfold getline. rewrite (alike_good _ _ _ A). destruct A as (R & E & F & P). destruct (good s').
  - rewrite R. destruct (take_line (s_rest s')) as [x t]. intros [= <- <- <-]. eexists. split; [reflexivity|].
    unfold alike. cbn [s_rest s_eof s_fail s_prev]. rewrite P, !rev_append_rev, <- app_assoc. auto.
  - intros [= <- <- <-]. eexists. split; [reflexivity|]. unfold alike, set_fail. cbn [s_rest s_eof s_fail s_prev]. auto.
Qed.
Lemma alike_tellg p s s' z s1 : alike p s s' -> tellg s = (z, s1) -> exists z' s1', tellg s' = (z', s1') /\ alike p s1 s1' /\
  (z = (-1)%Z /\ z' = (-1)%Z \/ (0 <= z')%Z /\ (z = z' + Z.of_nat (length p))%Z).
Proof.
  intros A. unfold tellg. rewrite (alike_good _ _ _ A). pose proof A as (R & E & F & P). destruct (good s').
  - intros [= <- <-]. do 2 eexists. split; [reflexivity|]. split; auto. right. rewrite P, app_length. lia.
  - intros [= <- <-]. do 2 eexists. split; [reflexivity|]. split; [|auto]. unfold alike, set_fail. cbn [s_rest s_eof s_fail s_prev]. auto.
Qed.
Definition same_fields (m m' : message) : Prop := m_tmp m = m_tmp m' /\ m_headers m = m_headers m' /\ m_done m = m_done m'.
Definition shifted (p : bytes) (z z' : Z) : Prop := z = (-1)%Z /\ z' = (-1)%Z \/ (0 <= z')%Z /\ (z = z' + Z.of_nat (length p))%Z.
Lemma ParseLine_shift p m m' s s' ok m1 s1 : alike p s s' -> same_fields m m' -> m_done m = false -> Message_ParseLine m s = (ok, m1, s1) ->
  exists m1' s1', Message_ParseLine m' s' = (ok, m1', s1') /\ alike p s1 s1' /\ same_fields m1 m1' /\
    (ok && negb (m_done m1) = false -> shifted p (m_offset m1) (m_offset m1')).
Proof.
  intros A (T & H & D) ND. unfold Message_ParseLine. destruct (getline s) as [[b raw] s2] eqn:G.
  destruct (alike_getline _ _ _ _ _ _ A G) as (s2' & -> & A2). destruct b.
  - destruct (chop_cr raw) as [|c l].
    + destruct (tellg s2) as [z s3] eqn:TG. destruct (alike_tellg _ _ _ _ _ A2 TG) as (z' & s3' & -> & A3 & SH).
      intros [= <- <- <-]. do 2 eexists. split; [reflexivity|]. split; auto. unfold same_fields. cbn [m_tmp m_headers m_done m_offset]. rewrite T, H. auto.
    + destruct (is_wsp c); intros [= <- <- <-]; do 2 eexists; (split; [reflexivity|]); (split; [auto|]); unfold same_fields; cbn [m_tmp m_headers m_done m_offset];
        rewrite ?T, ?H, ?D in *; (split; [auto|]); rewrite ND; discriminate.
  - intros [= <- <- <-]. do 2 eexists. split; [reflexivity|]. split; auto. unfold same_fields. cbn [m_tmp m_headers m_done m_offset]. rewrite T, H. split; auto.
    left. auto.
Qed.
Lemma parse_shift p f : forall m m' s s' m1 s1, alike p s s' -> same_fields m m' -> m_done m = false -> parse_loop f m s = Ok (m1, s1) ->
  exists m1' s1', parse_loop f m' s' = Ok (m1', s1') /\ alike p s1 s1' /\ same_fields m1 m1' /\ shifted p (m_offset m1) (m_offset m1').
Proof.
  induction f as [|f IH]; intros m m' s s' m1 s1 A SF D; cbn [parse_loop]; [discriminate|].
  destruct (Message_ParseLine m s) as [[ok m2] s2] eqn:PL. destruct (ParseLine_shift _ _ _ _ _ _ _ _ A SF D PL) as (m2' & s2' & -> & A2 & SF2 & SH).
  pose proof SF2 as (_ & _ & D2). rewrite <- D2. destruct (ok && negb (m_done m2)) eqn:GO.
  - apply Bool.andb_true_iff in GO as [_ GO]. apply Bool.negb_true_iff in GO. apply IH; auto.
  - intros [= <- <-]. do 2 eexists. split; [reflexivity|]. auto.
Qed.
Lemma same_new : same_fields new_message new_message.
Proof. repeat split. Qed.

(** ** The message an object sees *)
Lemma ahead_alike s : good s = true -> alike (s_prev s) s (open_str (ahead s)).
Proof.
  intros G. unfold good in G. apply Bool.andb_true_iff in G as [E F]. apply Bool.negb_true_iff in E, F. unfold alike, ahead, open_str. rewrite E, F. cbn. auto.
Qed.
Lemma ahead_bad s : good s = false -> ahead s = [].
Proof. intros G. unfold good in G. unfold ahead. destruct (s_eof s), (s_fail s); try discriminate; reflexivity. Qed.
Definition sees (s : istream) (m m0 : message) : Prop :=
  same_fields m m0 /\ (m_offset m = (-1)%Z /\ m_offset m0 = (-1)%Z \/
    exists pre, contents s = pre ++ ahead s /\ (0 <= m_offset m0)%Z /\ (m_offset m = m_offset m0 + Z.of_nat (length pre))%Z).
Lemma parse_sees s m s1 : parse_all new_message s = Ok (m, s1) ->
  exists m0 s0, parse_all new_message (open_str (ahead s)) = Ok (m0, s0) /\ sees s m m0 /\ contents s1 = contents s.
Proof.
  intros E. pose proof (parse_loop_contents _ _ _ _ _ E) as CC. destruct (good s) eqn:G.
  - pose proof (ahead_alike s G) as A. unfold parse_all in *. assert (FU : fuel_of s = fuel_of (open_str (ahead s))).
    { unfold fuel_of. destruct A as (-> & _). reflexivity. }
    rewrite FU in E. destruct (parse_shift _ _ _ _ _ _ _ _ A same_new eq_refl E) as (m0 & s0 & E0 & A0 & SF & SH).
    exists m0, s0. split; auto. split; auto. split; auto. destruct SH as [SH|[P SH]]; auto. right. exists (rev (s_prev s)).
    rewrite rev_length. split; auto. unfold contents. f_equal. destruct A as (R & _). exact R.
  - exists m, (set_fail (set_eof (open_str []))). rewrite (ahead_bad s G).
    assert (ML : m = mkMessage None (-1) [] true).
    { revert E. unfold parse_all, fuel_of. cbn [parse_loop]. unfold Message_ParseLine, getline. rewrite G. cbn. intros [= <- _]. reflexivity. }
    rewrite ML. split; [reflexivity|]. split; auto. split; [repeat split|]. left. auto.
Qed.
Lemma sees_total s : exists m s1, parse_all new_message s = Ok (m, s1).
Proof.
  destruct (good s) eqn:G.
  - destruct (message_fields (ahead s)) as (ls & h & rest & m & s0 & _ & _ & P & _).
    pose proof (ahead_alike s G) as A. unfold parse_all in *. assert (FU : fuel_of s = fuel_of (open_str (ahead s))).
    { unfold fuel_of. destruct A as (-> & _). reflexivity. }
    rewrite FU.
    remember (fuel_of (open_str (ahead s))) as f. clear Heqf FU G.
    assert (K : forall p f m m' s s' r, alike p s s' -> same_fields m m' -> m_done m = false -> parse_loop f m' s' = Ok r -> exists m1 s1, parse_loop f m s = Ok (m1, s1)).
    { clear. intros p. induction f as [|f IH]; intros m m' s s' r A SF D; cbn [parse_loop]; [discriminate|].
      destruct (Message_ParseLine m s) as [[ok m2] s2] eqn:PL. destruct (ParseLine_shift _ _ _ _ _ _ _ _ A SF D PL) as (m2' & s2' & -> & A2 & SF2 & SH).
      pose proof SF2 as (_ & _ & D2). rewrite <- D2. destruct (ok && negb (m_done m2)) eqn:GO; [|eauto].
      apply Bool.andb_true_iff in GO as [_ GO]. apply Bool.negb_true_iff in GO. eapply IH; eauto. }
    eapply K; eauto. apply same_new.
  - exists (mkMessage None (-1) [] true), (set_fail s). unfold parse_all, fuel_of. cbn [parse_loop]. unfold Message_ParseLine, getline. rewrite G. reflexivity.
Qed.

(** ** The body *)
Lemma body_same s s' mode z z' limit size b : body_at s z b -> body_at s' z' b ->
  exists calls calls' ok s1 s1', CanonicalizationBody s mode z limit size = Ok (calls, ok, s1) /\
    CanonicalizationBody s' mode z' limit size = Ok (calls', ok, s1') /\ concat calls = concat calls'.
Proof.
  intros B B'. unfold CanonicalizationBody. assert (CH : 0 < buffer_size) by (unfold buffer_size; lia).
  destruct (body_spec buffer_size s mode z limit size b CH B) as (calls & s1 & E & K).
  destruct (body_spec buffer_size s' mode z' limit size b CH B') as (calls' & s1' & E' & K').
  do 5 eexists. split; [exact E|]. split; [exact E'|]. congruence.
Qed.
Lemma sees_body s m m0 b : sees s m m0 -> body_at (open_str (ahead s)) (m_offset m0) b ->
  forall s', contents s' = contents s -> body_at s' (m_offset m) b.
Proof.
  intros [_ O] B s' C. destruct O as [[O O0]|(pre & CP & P & O)].
  - destruct B as [[_ ->]|(q & _ & E)]; [left; auto|lia].
  - destruct B as [[E _]|(q & E & EO)]; [lia|]. right. exists (pre ++ q). rewrite C, CP, <- app_assoc, app_length. split; [|lia].
    f_equal. exact E.
Qed.

(** ** A verifier on the shared stream *)
Definition behaves (t : bytes) (v v0 : validatory) : Prop :=
  same_fields (v_msg v) (v_msg v0) /\ v_sigs v = v_sigs v0 /\
  exists b, body_at (v_file v0) (m_offset (v_msg v0)) b /\ forall s, contents s = t -> body_at s (m_offset (v_msg v)) b.
Lemma perform_keeps C strict e c v : v_msg (fst (perform C strict e c v)) = v_msg v /\ v_sigs (fst (perform C strict e c v)) = v_sigs v /\
  contents (v_file (fst (perform C strict e c v))) = contents (v_file v).
Proof.
  assert (K : forall g, v_msg (fst (CheckBodyHash C g v)) = v_msg v /\ v_sigs (fst (CheckBodyHash C g v)) = v_sigs v /\
            contents (v_file (fst (CheckBodyHash C g v))) = contents (v_file v)).
  { intros g. unfold CheckBodyHash. destruct (CanonicalizationBody _ _ _ _ _) as [[[calls ok] s1]| | |] eqn:E; cbn [fst v_msg v_sigs v_file]; auto.
    apply body_contents in E. auto. }
  destruct c as [now h g|g|h g p|]; cbn [perform]; auto.
  - unfold GetSignature. destruct (Signature_Parse C strict now h (g, e)) as [st1 [[]| | |]]; cbn [fst]; auto.
    specialize (K (fst st1)). destruct (CheckBodyHash C (fst st1) v). exact K.
  - specialize (K g). destruct (CheckBodyHash C g v). exact K.
Qed.
Lemma perform_alike C strict t e c v v0 : behaves t v v0 -> contents (v_file v) = t -> snd (perform C strict e c v) = snd (perform C strict e c v0).
Proof.
  intros ((T & H & D) & S & b & B0 & B) CT.
  assert (K : forall g, snd (CheckBodyHash C g v) = snd (CheckBodyHash C g v0)).
  { intros g. unfold CheckBodyHash.
    destruct (body_same _ _ (sg_cbody g) _ _ (sg_limit g) (sg_size g) b (B _ CT) B0) as (calls & calls' & ok & s1 & s1' & -> & -> & E).
    unfold digest_chunks. rewrite E. reflexivity. }
  destruct c as [now h g|g|h g p|]; cbn [perform].
  - unfold GetSignature. destruct (Signature_Parse C strict now h (g, e)) as [st1 [[]| | |]]; cbn [fst snd]; auto.
    specialize (K (fst st1)). destruct (CheckBodyHash C (fst st1) v), (CheckBodyHash C (fst st1) v0). cbn [fst snd] in *. congruence.
  - specialize (K g). destruct (CheckBodyHash C g v), (CheckBodyHash C g v0). cbn [fst snd] in *. congruence.
  - cbn [snd]. unfold CheckSignature, signed_data. rewrite H. reflexivity.
  - cbn [snd]. rewrite S. reflexivity.
Qed.
Lemma new_parts strict ty s v : new_validatory strict ty s = Ok v ->
  parse_all new_message s = Ok (v_msg v, v_file v) /\
  match ty with V_NONE => Ok [] | V_DKIM => collect strict (str "dkim-signature") (m_headers (v_msg v))
           | V_ARC => collect strict (str "arc-message-signature") (m_headers (v_msg v)) end = Ok (v_sigs v).
Proof.
  unfold new_validatory. destruct (parse_all new_message s) as [[m s1]| | |]; cbn [obind]; try discriminate.
  destruct ty; try (destruct (collect strict _ _) as [l| | |] eqn:K; cbn [obind]; try discriminate); intros [= <-]; cbn [v_msg v_file v_sigs]; auto.
Qed.
Lemma new_made strict ty s m s1 l : parse_all new_message s = Ok (m, s1) ->
  match ty with V_NONE => Ok [] | V_DKIM => collect strict (str "dkim-signature") (m_headers m)
           | V_ARC => collect strict (str "arc-message-signature") (m_headers m) end = Ok l ->
  new_validatory strict ty s = Ok (mkVal m s1 l).
Proof. intros P K. unfold new_validatory. rewrite P. cbn [obind]. destruct ty; try rewrite K; cbn [obind]; try reflexivity. injection K as <-. reflexivity. Qed.
Lemma new_behaves strict ty s v0 : new_validatory strict ty (open_str (ahead s)) = Ok v0 ->
  exists v, new_validatory strict ty s = Ok v /\ behaves (contents s) v v0 /\ contents (v_file v) = contents s.
Proof.
  intros N0. pose proof (new_parts _ _ _ _ N0) as [P0 K0]. destruct (sees_total s) as (m & s1 & P).
  destruct (parse_sees _ _ _ P) as (m0 & s0 & P0' & SE & CC). rewrite P0 in P0'. injection P0' as E1 E2. subst m0 s0.
  exists (mkVal m s1 (v_sigs v0)). pose proof SE as [SF _]. pose proof SF as (_ & H & _). split; [|split; auto].
  - apply new_made; auto. rewrite H. exact K0.
  - split; [exact SF|]. split; [reflexivity|]. destruct (message_body_exists (ahead s)) as (b & MB). exists b.
    pose proof (parse_loop_contents _ _ _ _ _ P0) as C0. change (contents (open_str (ahead s))) with (ahead s) in C0.
    split; [apply (message_body_at _ _ _ _ _ MB P0 C0)|]. cbn [v_msg]. apply (sees_body s m (v_msg v0)); auto.
    apply (message_body_at _ _ _ _ _ MB P0). reflexivity.
Qed.

(** ** The stream keeps its text; the objects keep theirs *)
Lemma seekg_contents' z s : contents (seekg z (clear s)) = contents s.
Proof. rewrite seekg_contents. reflexivity. Qed.
Lemma create_contents C strict clock o y : contents (y_file (fst (CreateSignature C strict clock o y))) = contents (y_file y).
Proof.
  unfold CreateSignature. destruct (parse_all _ _) as [[m s]| | |] eqn:P; auto. apply parse_loop_contents in P.
  destruct (CanonicalizationBody _ _ _ _ _) as [[[calls ok] s1]| | |] eqn:B; cbn [fst y_file]; auto. apply body_contents in B. congruence.
Qed.
Lemma act_contents C strict d w : contents (fst (fst (act C strict d w))) = contents (fst w).
Proof.
  destruct w as [s objs]. destruct d as [|ty| |k e c|k clock o]; cbn [act fst].
  - apply seekg_contents'.
  - destruct (new_validatory strict ty s) as [v| | |] eqn:N; cbn [fst]; auto. apply new_parts in N as [P _]. apply parse_loop_contents in P. auto.
  - reflexivity.
  - destruct (nth_error objs k) as [[v|y|]|]; cbn [fst]; auto. pose proof (perform_keeps C strict e c (mkVal (v_msg v) s (v_sigs v))) as (_ & _ & K).
    destruct (perform C strict e c _) as [v1 a]. cbn [fst v_file] in *. exact K.
  - destruct (nth_error objs k) as [[v|y|]|]; cbn [fst]; auto. pose proof (create_contents C strict clock o (mkSignatory (y_msg y) s)) as K.
    destruct (CreateSignature C strict clock o _) as [y1 r]. cbn [fst y_file] in *. exact K.
Qed.
Lemma after_contents C strict ds : forall w, contents (fst (fold_left (fun w d => fst (act C strict d w)) ds w)) = contents (fst w).
Proof. induction ds as [|d ds IH]; intros w; cbn [fold_left]; auto. rewrite IH. apply act_contents. Qed.
Lemma update_at {A} k (x : A) l j : nth_error (update k x l) j = if Nat.eqb j k then match nth_error l k with Some _ => Some x | None => None end else nth_error l j.
Proof.
  revert k j. induction l as [|a l IH]; intros [|k] [|j]; cbn [update nth_error Nat.eqb]; auto.
  destruct (Nat.eqb j k); auto.
Qed.
Lemma update_length {A} k (x : A) l : length (update k x l) = length l.
Proof. revert k. induction l as [|a l IH]; intros [|k]; cbn [update length]; auto. Qed.
Lemma act_more C strict d w k x : nth_error (snd w) k = Some x ->
  (exists x', nth_error (snd (fst (act C strict d w))) k = Some x' /\
    match x, x' with
    | AVerifier v, AVerifier v' => v_msg v' = v_msg v /\ v_sigs v' = v_sigs v
    | ASigner y, ASigner y' => match d with Sign j _ _ => j <> k | _ => True end -> y' = y
    | NoObject, NoObject => True
    | _, _ => False
    end).
Proof.
  destruct w as [s objs]. cbn [snd]. intros E.
  assert (R : match x, x with
    | AVerifier v, AVerifier v' => v_msg v' = v_msg v /\ v_sigs v' = v_sigs v
    | ASigner y, ASigner y' => match d with Sign j _ _ => j <> k | _ => True end -> y' = y
    | NoObject, NoObject => True
    | _, _ => False
    end) by (destruct x; auto).
  assert (L : forall z, nth_error (objs ++ [z]) k = Some x).
  { intros z. rewrite nth_error_app1; auto. apply nth_error_Some. congruence. }
  destruct d as [|ty| |j e c|j clock o]; cbn [act].
  - exists x. auto.
  - destruct (new_validatory strict ty s); cbn [fst snd]; exists x; auto.
  - cbn [fst snd]. exists x. auto.
  - destruct (nth_error objs j) as [[v|y|]|] eqn:J; try (cbn [fst snd]; exists x; auto; fail).
    pose proof (perform_keeps C strict e c (mkVal (v_msg v) s (v_sigs v))) as (K1 & K2 & _).
    destruct (perform C strict e c _) as [v1 a]. cbn [fst snd v_msg v_sigs] in *. rewrite update_at. destruct (Nat.eqb_spec k j) as [->|NE]; [|exists x; auto].
    rewrite J. exists (AVerifier v1). split; auto. rewrite E in J. injection J as ->. auto.
  - destruct (nth_error objs j) as [[v|y|]|] eqn:J; try (cbn [fst snd]; exists x; auto; fail).
    destruct (CreateSignature C strict clock o _) as [y1 r]. cbn [fst snd]. rewrite update_at. destruct (Nat.eqb_spec k j) as [->|NE]; [|exists x; auto].
    rewrite J. exists (ASigner y1). split; auto. rewrite E in J. injection J as ->. intros X. destruct (X eq_refl).
Qed.
Lemma acts_verifier C strict ds : forall w k v, nth_error (snd w) k = Some (AVerifier v) ->
  exists v', nth_error (snd (fold_left (fun w d => fst (act C strict d w)) ds w)) k = Some (AVerifier v') /\ v_msg v' = v_msg v /\ v_sigs v' = v_sigs v.
Proof.
  induction ds as [|d ds IH]; intros w k v E; cbn [fold_left]; [exists v; auto|].
  destruct (act_more C strict d w k _ E) as ([v1|y1|] & E1 & K); try contradiction. destruct K as [K1 K2].
  destruct (IH _ _ _ E1) as (v2 & E2 & A & B). exists v2. split; auto. split; congruence.
Qed.
Lemma acts_signer C strict ds : forall w k y, unsigned_yet k ds -> nth_error (snd w) k = Some (ASigner y) ->
  nth_error (snd (fold_left (fun w d => fst (act C strict d w)) ds w)) k = Some (ASigner y).
Proof.
  induction ds as [|d ds IH]; intros w k y U E; cbn [fold_left]; auto. inversion U as [|a l U1 U2]; subst.
  destruct (act_more C strict d w k _ E) as ([v1|y1|] & E1 & K); try contradiction. rewrite (K U1) in E1. apply IH; auto.
Qed.

(** ** Rewound *)
Lemma rewind_stream s : seekg 0 (clear s) = open_str (contents s).
Proof.
  unfold seekg, clear. cbn [s_fail s_prev s_rest s_eof]. cbn [Z.leb Z.compare andb]. destruct (Z.leb_spec 0 (Z.of_nat (s_size (mkStream (s_prev s) (s_rest s) false false)))); [|lia].
  cbn [Z.to_nat firstn skipn rev]. rewrite rev_append_rev'. reflexivity.
Qed.

(** ** What is answered *)
Lemma verifier_exact C strict t ds1 ty ds2 e c v0 : new_validatory strict ty (open_str (ahead (stream_after C strict t ds1))) = Ok v0 ->
  reply_to C strict t (ds1 ++ MakeVerifier ty :: ds2) (Ask (made C strict t ds1) e c) = Answered (snd (perform C strict e c v0)).
Proof.
  unfold reply_to, stream_after, made, after. rewrite fold_left_app. cbn [fold_left]. set (w := fold_left _ ds1 _). intros N0.
  assert (CT : contents (fst w) = t) by apply after_contents. destruct w as [s objs] eqn:EW. cbn [fst snd] in *.
  destruct (new_behaves _ _ _ _ N0) as (v & N & B & CV). rewrite CT in B, CV.
  assert (A : fst (act C strict (MakeVerifier ty) (s, objs)) = (v_file v, objs ++ [AVerifier v])) by (cbn [act]; rewrite N; reflexivity). rewrite A.
  assert (E : nth_error (snd (v_file v, objs ++ [AVerifier v])) (length objs) = Some (AVerifier v)).
  { cbn [snd]. rewrite nth_error_app2, Nat.sub_diag; auto. }
  destruct (acts_verifier C strict ds2 _ _ _ E) as (v1 & E1 & M1 & S1). pose proof (after_contents C strict ds2 (v_file v, objs ++ [AVerifier v])) as C2.
  destruct (fold_left _ ds2 _) as [s2 objs2]. cbn [fst snd] in *. cbn [act]. rewrite E1.
  rewrite (surjective_pairing (perform C strict e c _)). cbn [snd]. f_equal. rewrite M1, S1. apply (perform_alike C strict t); auto.
  cbn [v_file]. congruence.
Qed.
Lemma create_alike C strict clock o s : snd (CreateSignature C strict clock o (new_signatory s)) =
  snd (CreateSignature C strict clock o (new_signatory (open_str (ahead s)))).
Proof.
  unfold CreateSignature, new_signatory. cbn [y_msg y_file]. destruct (sees_total s) as (m & s1 & P).
  destruct (parse_sees _ _ _ P) as (m0 & s0 & P0 & SE & CC). rewrite P, P0. destruct (message_body_exists (ahead s)) as (b & MB).
  pose proof (parse_loop_contents _ _ _ _ _ P0) as C0. change (contents (open_str (ahead s))) with (ahead s) in C0.
  pose proof (message_body_at _ _ _ _ s0 MB P0 C0) as B0.
  pose proof (sees_body s m m0 b SE (message_body_at _ _ _ _ (open_str (ahead s)) MB P0 eq_refl) s1 CC) as B.
  destruct (body_same _ _ (o_cbody o) _ _ (o_signlen o) (o_bodylen o) b B B0) as (calls & calls' & ok & s2 & s2' & -> & -> & E).
  cbn [snd]. unfold digest_chunks. rewrite E. destruct SE as [(_ & -> & _) _]. reflexivity.
Qed.
Lemma signer_exact C strict t ds1 ds2 clock o : unsigned_yet (made C strict t ds1) ds2 ->
  reply_to C strict t (ds1 ++ MakeSigner :: ds2) (Sign (made C strict t ds1) clock o) =
  Signed (snd (CreateSignature C strict clock o (new_signatory (open_str (ahead (stream_after C strict t (ds1 ++ MakeSigner :: ds2))))))).
Proof.
  unfold reply_to, stream_after, made, after. rewrite fold_left_app. cbn [fold_left]. set (w := fold_left _ ds1 _). intros U.
  destruct w as [s objs] eqn:EW. cbn [fst snd] in *. cbn [act fst].
  assert (E : nth_error (snd (s, objs ++ [ASigner (new_signatory s)])) (length objs) = Some (ASigner (new_signatory s))).
  { cbn [snd]. rewrite nth_error_app2, Nat.sub_diag; auto. }
  pose proof (acts_signer C strict ds2 _ _ _ U E) as E1. destruct (fold_left _ ds2 _) as [s2 objs2]. cbn [fst snd] in *. cbn [act]. rewrite E1.
  rewrite (surjective_pairing (CreateSignature C strict clock o _)). cbn [snd]. f_equal. exact (create_alike C strict clock o s2).
Qed.
Lemma rewound C strict t ds : ahead (stream_after C strict t (ds ++ [Rewind])) = t.
Proof.
  unfold stream_after, after. rewrite fold_left_app. cbn [fold_left]. pose proof (after_contents C strict ds (open_str t, [])) as K.
  destruct (fold_left _ ds _) as [s objs]. cbn [act fst] in *. change (contents (open_str t)) with t in K.
  rewrite rewind_stream, K. reflexivity.
Qed.

Lemma from_start C strict t ds : from_the_start ds -> ahead (stream_after C strict t ds) = t.
Proof. intros [->|(ds' & ->)]; [reflexivity|apply rewound]. Qed.
Lemma verifier_alone C strict t ds1 ty ds2 e c v0 : from_the_start ds1 -> new_validatory strict ty (open_str t) = Ok v0 ->
  reply_to C strict t (ds1 ++ MakeVerifier ty :: ds2) (Ask (made C strict t ds1) e c) = Answered (snd (perform C strict e c v0)).
Proof. intros F N. apply verifier_exact. rewrite from_start; auto. Qed.
Lemma signer_alone C strict t ds1 ds2 clock o : from_the_start (ds1 ++ MakeSigner :: ds2) -> unsigned_yet (made C strict t ds1) ds2 ->
  reply_to C strict t (ds1 ++ MakeSigner :: ds2) (Sign (made C strict t ds1) clock o) =
  Signed (snd (CreateSignature C strict clock o (new_signatory (open_str t)))).
Proof. intros F U. rewrite signer_exact, from_start; auto. Qed.

(** ** Without rewinding *)
Definition in_body : bytes := esc "Subject: x\r\n\r\nDKIM-Signature: a\r\n\r\n".
Lemma second_blind : exists t h v, new_validatory true V_DKIM (open_str t) = Ok v /\ snd (perform toy true false CallGetSignatures v) = Listed [h] /\
  reply_to toy true t [MakeVerifier V_DKIM; MakeVerifier V_DKIM] (Ask 1 false CallGetSignatures) = Answered (Listed []).
Proof. exists (sample_message "rsa-sha256" rsa_b), (sample_header "rsa-sha256" rsa_b). eexists. split; [vm_compute; reflexivity|]. split; vm_compute; reflexivity. Qed.
Lemma second_body : exists t h v, new_validatory true V_DKIM (open_str t) = Ok v /\ snd (perform toy true false CallGetSignatures v) = Listed [] /\
  reply_to toy true t [MakeVerifier V_DKIM; MakeVerifier V_DKIM] (Ask 1 false CallGetSignatures) = Answered (Listed [h]).
Proof. exists in_body, (mkHeader (esc "DKIM-Signature") (esc "DKIM-Signature: a") 15). eexists. split; [vm_compute; reflexivity|]. split; vm_compute; reflexivity. Qed.
Lemma signer_after : exists C t o H H' v, new_validatory true V_DKIM (open_str t) = Ok v /\
  snd (CreateSignature C true (fun _ => 1%Z) o (new_signatory (open_str t))) = Ok H /\
  reply_to C true t [MakeVerifier V_DKIM; MakeSigner] (Sign 1 (fun _ => 1%Z) o) = Signed (Ok H') /\ H <> H'.
Proof.
  exists toy, letter, (with_rsa []). do 3 eexists. split; [vm_compute; reflexivity|]. split; [vm_compute; reflexivity|]. split; [vm_compute; reflexivity|].
  intros E. apply (f_equal (@length ascii)) in E. vm_compute in E. discriminate.
Qed.

(** ** Where an object leaves the stream *)
Lemma parse_no_body f : forall m s m1 s1, m_done m = false -> parse_loop f m s = Ok (m1, s1) -> m_offset m1 = (-1)%Z -> good s1 = false.
Proof.
  induction f as [|f IH]; intros m s m1 s1 D; cbn [parse_loop]; [discriminate|]. unfold Message_ParseLine.
  destruct (getline s) as [[b raw] s2] eqn:G. destruct b.
  - destruct (chop_cr raw) as [|c l].
    + destruct (tellg s2) as [z s3] eqn:T. cbn [andb negb m_done]. intros [= <- <-]. cbn [m_offset]. intros ->. revert T. unfold tellg.
      destruct (good s2) eqn:G2; intros T; [injection T as T _; lia|injection T as <-]. unfold good, set_fail. cbn [s_eof s_fail]. apply Bool.andb_false_r.
    + destruct (is_wsp c); cbn [m_done]; rewrite D; cbn [andb negb]; apply IH; auto.
  - cbn [andb]. intros [= <- <-] _. revert G. unfold getline. destruct (good s) eqn:GS.
    + destruct (take_line (s_rest s)) as [x q]. intros E. injection E as E1 _ <-. apply Bool.negb_false_iff in E1. unfold good. cbn [s_eof s_fail].
      rewrite E1. apply Bool.andb_false_r.
    + intros [= <- <-]. unfold good, set_fail. cbn [s_eof s_fail]. apply Bool.andb_false_r.
Qed.
Lemma left_behind C strict t ty v b : new_validatory strict ty (open_str t) = Ok v -> message_body t b ->
  ahead (stream_after C strict t [MakeVerifier ty]) = b.
Proof.
  intros N MB. unfold stream_after, after. cbn [fold_left act]. rewrite N. cbn [fst]. pose proof (new_parts _ _ _ _ N) as [P _].
  destruct MB as [ls h e b HB LE|ls h tail HB NL].
  - destruct (parse_blank ls h e b HB LE) as (m1 & s1 & P1 & _ & _ & _ & (_ & R & _) & G). rewrite P in P1. injection P1 as _ <-.
    destruct (ahead_alike _ G) as (E & _). cbn [open_str s_rest] in E. congruence.
  - destruct (parse_unended ls h tail HB NL) as (m1 & s1 & P1 & O & _). rewrite P in P1. injection P1 as <- <-.
    apply ahead_bad. apply (parse_no_body _ new_message _ _ _ eq_refl P O).
Qed.

(** ** A signer that signs again *)
Lemma create_bodies C strict clock o y y' m s m' s' b : parse_all (y_msg y) (y_file y) = Ok (m, s) -> parse_all (y_msg y') (y_file y') = Ok (m', s') ->
  m_headers m = m_headers m' -> body_at s (m_offset m) b -> body_at s' (m_offset m') b ->
  snd (CreateSignature C strict clock o y) = snd (CreateSignature C strict clock o y').
Proof.
  intros P P' H B B'. unfold CreateSignature. rewrite P, P'.
  destruct (body_same _ _ (o_cbody o) _ _ (o_signlen o) (o_bodylen o) b B B') as (calls & calls' & ok & s2 & s2' & -> & -> & E).
  cbn [snd]. unfold digest_chunks. rewrite E, H. reflexivity.
Qed.
Lemma create_state C strict clock o y r y0 m s : parse_all (y_msg y0) (y_file y0) = Ok (m, s) -> CreateSignature C strict clock o y0 = (y, r) ->
  y_msg y = m /\ contents (y_file y) = contents (y_file y0).
Proof.
  intros P CS. pose proof (create_contents C strict clock o y0) as CC. rewrite CS in CC. split; [|exact CC]. revert CS. unfold CreateSignature. rewrite P.
  destruct (CanonicalizationBody _ _ _ _ _) as [[[calls ok] s1]| | |]; intros [= <- _]; reflexivity.
Qed.
(** one more line *)
Lemma first_of (c : ascii) a : In c a -> exists raw t, a = raw ++ c :: t /\ ~ In c raw.
Proof.
  induction a as [|x a IH]; [intros []|]. destruct (ascii_dec x c) as [->|N]; [intros _; exists [], a; auto|].
  intros [->|I]; [contradiction|]. destruct (IH I) as (raw & t & -> & NR). exists (x :: raw), t. split; auto. intros [->|W]; auto.
Qed.
Lemma add_line_again m l : m_done m = true -> m_tmp m = None -> m_headers (add_line m l) = m_headers m /\ m_offset (add_line m l) = m_offset m.
Proof. intros D T. unfold add_line. rewrite T. destruct l as [|c l]; auto. destruct (is_wsp c); cbn [m_headers m_offset opt_list]; rewrite ?app_nil_r; auto. Qed.
Lemma next_line l e t body : l <> [] -> ~ In LF l -> line_end l e -> next_body (l ++ e ++ t) body = body.
Proof.
  intros NE N LE. destruct l as [|c l]; [congruence|]. cbn [app next_body]. assert (NC : c <> LF) by (intros ->; apply N; left; auto). rewrite (ceqb_false _ _ NC).
  destruct (Ascii.eqb_spec c CR) as [->|]; auto. destruct l as [|d l].
  - inversion LE as [|? LO]; subst; [reflexivity|]. exfalso. apply LO. reflexivity.
  - cbn [app]. assert (ND : d <> LF) by (intros ->; apply N; right; left; auto). rewrite (ceqb_false _ _ ND). reflexivity.
Qed.
Lemma next_blank e t body : line_end [] e -> next_body (e ++ t) body = t.
Proof. intros LE. inversion LE; subst; reflexivity. Qed.
Lemma next_last a body : a <> [] -> ~ In LF a -> next_body a body = match chop_cr a with [] => [] | _ => body end.
Proof.
  intros NE N. destruct a as [|c a]; [congruence|]. assert (NC : c <> LF) by (intros ->; apply N; left; auto). cbn [next_body]. rewrite (ceqb_false _ _ NC).
  destruct a as [|d a].
  - unfold chop_cr. cbn [rev app]. destruct (c =?c CR); reflexivity.
  - assert (ND : d <> LF) by (intros ->; apply N; right; left; auto). rewrite (ceqb_false _ _ ND).
    destruct (chop_cr (c :: d :: a)) eqn:CH; [|destruct (c =?c CR); reflexivity]. exfalso. apply (f_equal (@length _)) in CH. revert CH. unfold chop_cr.
    assert (L : length (rev (c :: d :: a)) = S (S (length a))) by (rewrite rev_length; reflexivity).
    destruct (rev (c :: d :: a)) as [|x r]; [discriminate|]. cbn [length] in L. destruct (x =?c CR); cbn [length]; rewrite ?rev_length; lia.
Qed.
Lemma parse_once m s ok m1 s1 : m_done m = true -> Message_ParseLine m s = (ok, m1, s1) -> parse_all m s = Ok (m1, s1).
Proof.
  intros D E. unfold parse_all, fuel_of. cbn [parse_loop]. rewrite E. assert (D1 : m_done m1 = true).
  { revert E. unfold Message_ParseLine. destruct (getline s) as [[b raw] s2]. destruct b; [|intros [= _ <- _]; reflexivity].
    destruct (chop_cr raw) as [|c l]; [destruct (tellg s2); intros [= _ <- _]; reflexivity|]. destruct (is_wsp c); intros [= _ <- _]; exact D. }
  rewrite D1, Bool.andb_false_r. reflexivity.
Qed.
Lemma read_again m s pre body : m_done m = true -> m_tmp m = None -> contents s = pre ++ body -> m_offset m = Z.of_nat (length pre) ->
  exists m1 s1, parse_all m s = Ok (m1, s1) /\ m_headers m1 = m_headers m /\ body_at s1 (m_offset m1) (next_body (ahead s) body).
Proof.
  intros D T CS O.
  assert (K : forall ok m1 s1, Message_ParseLine m s = (ok, m1, s1) -> m_headers m1 = m_headers m ->
            (m_offset m1 = (-1)%Z /\ next_body (ahead s) body = [] \/
             m_offset m1 = m_offset m /\ next_body (ahead s) body = body \/
             exists q, contents s = q ++ next_body (ahead s) body /\ m_offset m1 = Z.of_nat (length q)) ->
            exists m1 s1, parse_all m s = Ok (m1, s1) /\ m_headers m1 = m_headers m /\ body_at s1 (m_offset m1) (next_body (ahead s) body)).
  { intros ok m1 s1 E H B. pose proof (parse_once _ _ _ _ _ D E) as P. pose proof (parse_loop_contents _ _ _ _ _ P) as CC.
    exists m1, s1. split; auto. split; auto. destruct B as [[B1 B2]|[[B1 B2]|(q & B1 & B2)]].
    - left. auto.
    - right. exists pre. rewrite B1, B2, CC. auto.
    - right. exists q. rewrite CC. auto. }
  assert (HT : m_headers m ++ opt_list (m_tmp m) = m_headers m) by (rewrite T; apply app_nil_r).
  destruct (good s) eqn:G.
  2:{ rewrite (ahead_bad s G) in *. eapply K; [unfold Message_ParseLine, getline; rewrite G; reflexivity|exact HT|left; auto]. }
  pose proof (ahead_alike s G) as (R & _). cbn [open_str s_rest] in R.
  assert (H : St s (s_prev s) (ahead s)) by (split; auto).
  assert (CA : contents s = rev (s_prev s) ++ ahead s) by (unfold contents; rewrite R; reflexivity).
  destruct (in_dec ascii_dec LF (ahead s)) as [I|NI].
  - destruct (first_of _ _ I) as (raw & t & E & NR). destruct (line_split raw) as (l & e & E2 & LE & NL). specialize (NL NR).
    assert (E3 : ahead s = l ++ e ++ t). { rewrite E. change (LF :: t) with ([LF] ++ t). rewrite !app_assoc, E2. reflexivity. }
    rewrite E3 in H. destruct l as [|c l].
    + destruct (ParseLine_blank m s _ e t H LE) as (s1 & P & _). eapply K; [exact P|exact HT|]. right. right. exists (rev (s_prev s) ++ e).
      rewrite E3. cbn [app]. rewrite (next_blank e t body LE), CA, E3, <- app_assoc, app_length, rev_length. auto.
    + destruct (ParseLine_line m s _ (c :: l) e t H ltac:(discriminate) NL LE) as (s1 & P & _). destruct (add_line_again m (c :: l) D T) as [A1 A2].
      eapply K; [exact P|exact A1|]. right. left. rewrite E3, (next_line (c :: l) e t body); auto. discriminate.
  - destruct (ahead s) as [|c a] eqn:EA.
    + destruct (ParseLine_eof m s _ H) as (s1 & P). eapply K; [exact P|exact HT|]. left. auto.
    + destruct (ParseLine_last m s _ (c :: a) H G ltac:(discriminate) NI) as [(CH & s1 & P)|(CH & s1 & P & _)].
      * eapply K; [exact P|exact HT|]. left. split; [reflexivity|]. rewrite next_last, CH; auto. discriminate.
      * destruct (add_line_again m (chop_cr (c :: a)) D T) as [A1 A2]. eapply K; [exact P|exact A1|]. right. left. split; [exact A2|].
        rewrite next_last; auto; [|discriminate]. destruct (chop_cr (c :: a)); congruence.
Qed.
Lemma signs_again C C' strict clock clock' o o' ls h e body y r : header_block ls h -> line_end [] e ->
  CreateSignature C strict clock o (new_signatory (open_str (h ++ e ++ body))) = (y, r) ->
  snd (CreateSignature C' strict clock' o' y) =
  snd (CreateSignature C' strict clock' o' (new_signatory (open_str (h ++ e ++ next_body (ahead (y_file y)) body)))).
Proof.
  intros HB LE CS. destruct (parse_blank ls h e body HB LE) as (m & s & P & O & HM & D & _).
  pose proof (parse_blank_tmp ls h e body m s HB LE P) as T.
  destruct (create_state C strict clock o y r (new_signatory (open_str (h ++ e ++ body))) m s P CS) as [YM YC].
  assert (YC' : contents (y_file y) = (h ++ e) ++ body) by (rewrite YC, <- app_assoc; reflexivity).
  destruct (read_again m (y_file y) (h ++ e) body D T YC' O) as (m1 & s1 & P1 & H1 & B1).
  set (b2 := next_body (ahead (y_file y)) body) in *. destruct (parse_blank ls h e b2 HB LE) as (m2 & s2 & P2 & O2 & HM2 & _).
  apply (create_bodies C' strict clock' o' y (new_signatory (open_str (h ++ e ++ b2))) m1 s1 m2 s2 b2); auto.
  - rewrite YM. exact P1.
  - congruence.
  - right. exists (h ++ e). split; auto. rewrite (parse_loop_contents _ _ _ _ _ P2). cbn. rewrite <- app_assoc. reflexivity.
Qed.
Lemma seek_body s pre body : contents s = pre ++ body -> seekg (Z.of_nat (length pre)) (clear s) = mkStream (rev pre) body false false.
Proof.
  intros CC. pose proof (seekg_St s _ pre body CC eq_refl) as (S1 & S2 & _). revert S1 S2. unfold seekg, clear. cbn [s_fail s_prev s_rest s_eof].
  assert (SZ : s_size (mkStream (s_prev s) (s_rest s) false false) = length (pre ++ body)).
  { unfold s_size. cbn [s_prev s_rest]. rewrite <- CC. unfold contents. rewrite app_length, rev_length. reflexivity. }
  rewrite SZ, (app_length pre body). destruct (Z.leb_spec 0 (Z.of_nat (length pre))); [|lia].
  destruct (Z.leb_spec (Z.of_nat (length pre)) (Z.of_nat (length pre + length body))); [|lia]. cbn [andb s_prev s_rest]. intros -> ->. reflexivity.
Qed.
(** Where the first call leaves the stream. *)
Lemma signed_whole C strict clock o ls h e body y r : header_block ls h -> line_end [] e -> o_signlen o = false ->
  CreateSignature C strict clock o (new_signatory (open_str (h ++ e ++ body))) = (y, r) -> ahead (y_file y) = [].
Proof.
  intros HB LE SL CS. destruct (parse_blank ls h e body HB LE) as (m & s & P & O & _). destruct (canonical_exists (is_relaxed (o_cbody o)) body) as (out & CB).
  destruct (create_finish C strict clock o (new_signatory (open_str (h ++ e ++ body))) m s body out P) as (s1 & E & G & _); auto.
  - right. exists (h ++ e). split; auto. rewrite (parse_loop_contents _ _ _ _ _ P). cbn. rewrite <- app_assoc. reflexivity.
  - rewrite E in CS. injection CS as <- _. apply ahead_bad. apply G. rewrite O. lia.
Qed.
Lemma signed_none C strict clock o ls h e body y r : header_block ls h -> line_end [] e -> o_signlen o = true -> o_bodylen o = 0%N ->
  CreateSignature C strict clock o (new_signatory (open_str (h ++ e ++ body))) = (y, r) -> ahead (y_file y) = body.
Proof.
  intros HB LE SL BL. destruct (parse_blank ls h e body HB LE) as (m & s & P & O & _). unfold CreateSignature, new_signatory. cbn [y_msg y_file]. rewrite P, SL, BL.
  unfold CanonicalizationBody, CanonicalizationBody_. rewrite O. destruct (Z.eqb_spec (Z.of_nat (length (h ++ e))) (-1)) as [X|_]; [lia|]. cbv zeta.
  assert (CC : contents s = (h ++ e) ++ body) by (rewrite (parse_loop_contents _ _ _ _ _ P); cbn; rewrite <- app_assoc; reflexivity).
  rewrite (seek_body s (h ++ e) body CC). unfold fuel_of. cbn [body_loop s_rest]. unfold good at 1. cbn [s_eof s_fail negb andb N.eqb]. cbn [obind].
  match goal with |- context [if ?b then let '(x, y) := ?e in _ else ?w] => destruct b; cbn [emit N.to_nat] end;
  cbn [obind]; intros [= <- _]; reflexivity.
Qed.
Lemma again_zero C strict clock o ls h e body y r : header_block ls h -> line_end [] e -> o_signlen o = true -> o_bodylen o = 0%N ->
  CreateSignature C strict clock o (new_signatory (open_str (h ++ e ++ body))) = (y, r) -> snd (CreateSignature C strict clock o y) = r.
Proof.
  intros HB LE SL BL CS. rewrite (signs_again C C strict clock clock o o ls h e body y r HB LE CS). apply (f_equal snd) in CS. cbn [snd] in CS. rewrite <- CS.
  set (b2 := next_body _ _). clearbody b2. clear CS. unfold CreateSignature, new_signatory. cbn [y_msg y_file]. rewrite SL, BL.
  destruct (parse_blank ls h e body HB LE) as (m & s & P & O & HM & _). destruct (parse_blank ls h e b2 HB LE) as (m2 & s2 & P2 & O2 & HM2 & _). rewrite P, P2.
  assert (B : body_at s (m_offset m) body).
  { right. exists (h ++ e). split; auto. rewrite (parse_loop_contents _ _ _ _ _ P). cbn. rewrite <- app_assoc. reflexivity. }
  assert (B2 : body_at s2 (m_offset m2) b2).
  { right. exists (h ++ e). split; auto. rewrite (parse_loop_contents _ _ _ _ _ P2). cbn. rewrite <- app_assoc. reflexivity. }
  assert (CH : 0 < buffer_size) by (unfold buffer_size; lia). unfold CanonicalizationBody.
  destruct (body_spec buffer_size s (o_cbody o) (m_offset m) true 0 body CH B) as (calls & s3 & -> & K).
  destruct (body_spec buffer_size s2 (o_cbody o) (m_offset m2) true 0 b2 CH B2) as (calls2 & s4 & -> & K2).
  assert (Z : forall x, (N.of_nat (length (pass (o_cbody o) x)) <? 0)%N = false) by (intros x; apply N.ltb_ge; lia). rewrite !Z. cbn [andb negb snd].
  unfold digest_chunks. rewrite K, K2, HM, HM2. reflexivity.
Qed.
(** The body is read in pieces of 8096 bytes. *)
Lemma skipn_more {A} a b (l : list A) : skipn a (skipn b l) = skipn (b + a) l.
Proof. revert l. induction b as [|b IH]; intros l; auto. destruct l as [|x l]; cbn [skipn Nat.add]; auto. destruct a; reflexivity. Qed.
Lemma body_pieces chunk mode limit : 0 < chunk -> forall f s size q n e calls calls' size' e' s', good s = true ->
  body_loop chunk mode limit f s size q n e calls = Ok (calls', size', e', s') -> exists k, ahead s' = skipn (k * chunk) (s_rest s).
Proof.
  intros CH. induction f as [|f IH]; intros s size q n e calls calls' size' e' s' G; cbn [body_loop]; [discriminate|]. rewrite G.
  assert (AH : ahead s = s_rest s) by (destruct (ahead_alike s G) as (R & _); symmetry; exact R).
  destruct (limit && (size =? 0)%N); [intros [= _ _ _ <-]; exists 0; rewrite AH; reflexivity|].
  unfold sread. rewrite G. cbv zeta. destruct (emit limit size _) as [out z]. destruct (Nat.ltb_spec (length (s_rest s)) chunk) as [L|L].
  - intros E. exists 1. rewrite Nat.mul_1_l, skipn_all2 by lia. destruct f as [|f]; [discriminate E|]. cbn [body_loop] in E.
    unfold good in E at 1. cbn [s_eof s_fail negb andb] in E. injection E as _ _ _ <-. reflexivity.
  - intros E. apply IH in E; [|reflexivity]. destruct E as (k & E). exists (S k). rewrite E. cbn [s_rest]. rewrite skipn_more. f_equal.
Qed.
Lemma signed_pieces C strict clock o ls h e body y r : header_block ls h -> line_end [] e ->
  CreateSignature C strict clock o (new_signatory (open_str (h ++ e ++ body))) = (y, r) ->
  exists k, ahead (y_file y) = skipn (k * N.to_nat 8096) body.
Proof.
  intros HB LE. destruct (parse_blank ls h e body HB LE) as (m & s & P & O & _). unfold CreateSignature, new_signatory. cbn [y_msg y_file]. rewrite P.
  unfold CanonicalizationBody, CanonicalizationBody_. rewrite O. destruct (Z.eqb_spec (Z.of_nat (length (h ++ e))) (-1)) as [X|_]; [lia|]. cbv zeta.
  assert (CC : contents s = (h ++ e) ++ body) by (rewrite (parse_loop_contents _ _ _ _ _ P); cbn; rewrite <- app_assoc; reflexivity).
  rewrite (seek_body s (h ++ e) body CC). destruct (body_spec buffer_size s (o_cbody o) (m_offset m) (o_signlen o) (o_bodylen o) body) as (cc & sx & BS & _).
  { unfold buffer_size. lia. }
  { right. exists (h ++ e). auto. }
  unfold CanonicalizationBody_ in BS. rewrite O in BS. destruct (Z.eqb_spec (Z.of_nat (length (h ++ e))) (-1)) as [X|_]; [lia|]. cbv zeta in BS.
  rewrite (seek_body s (h ++ e) body CC) in BS.
  destruct (body_loop _ _ _ _ _ _ _ _ _ _) as [[[[c1 z1] e1] s1]| | |] eqn:BL; try (cbn [obind] in BS; discriminate BS).
  apply body_pieces in BL; [|unfold buffer_size; lia|reflexivity]. destruct BL as (k & AH). cbn [obind].
  match goal with |- context [if ?b then let '(x, y) := ?e in _ else ?w] => destruct b; [destruct e as [out z2]|] end; cbn [obind]; intros [= <- _]; exists k; exact AH.
Qed.

(** *** A message without an empty line *)
Lemma last_one_snoc {A} (l : list A) x : last_one (l ++ [x]) = [x].
Proof. unfold last_one. rewrite rev_app_distr. reflexivity. Qed.
Definition started (m : message) : Prop := m_tmp m = None -> m_headers m = [].
Lemma add_line_started m l : l <> [] -> m_tmp (add_line m l) <> None.
Proof. destruct l as [|c l]; [congruence|]. cbn [add_line]. destruct (is_wsp c); discriminate. Qed.
Lemma lines_started ls : forall m, Forall (fun l => l <> []) ls -> started m -> started (fold_left add_line ls m).
Proof.
  induction ls as [|l ls IH]; intros m F S; cbn [fold_left]; [exact S|]. inversion F as [|? ? N F2]; subst. apply IH; [exact F2|].
  intros T. destruct (add_line_started m l N T).
Qed.
Lemma block_lines ls h : header_block ls h -> Forall (fun l => l <> []) ls.
Proof. induction 1; constructor; auto. Qed.
Lemma started_last m : started m -> last_one (all_headers m) = opt_list (m_tmp m).
Proof.
  unfold started, all_headers. destruct (m_tmp m) as [x|]; cbn [opt_list]; intros S; [apply last_one_snoc|]. rewrite (S eq_refl). reflexivity.
Qed.
Definition again (tail : bytes) (fs : list header) : list header :=
  match tail with [] => last_one fs | _ => match chop_cr tail with [] => [] | _ => last_one fs end end.
Lemma parse_unended_tmp ls h tail : header_block ls h -> ~ In LF tail ->
  exists m s', parse_all new_message (open_str (h ++ tail)) = Ok (m, s') /\ m_offset m = (-1)%Z /\ m_done m = true /\ good s' = false /\
    opt_list (m_tmp m) = again tail (m_headers m).
Proof.
  intros HB N.
  assert (X : exists m s', parse_all new_message (open_str (h ++ tail)) = Ok (m, s') /\ m_offset m = (-1)%Z /\ m_done m = true /\ opt_list (m_tmp m) = again tail (m_headers m)).
  { unfold parse_all. rewrite (St_fuel _ _ _ (St_open _)).
    destruct (parse_block ls h HB (S (length (h ++ tail))) new_message _ _ tail (St_open _) eq_refl eq_refl ltac:(lia)) as (f2 & s2 & E2 & H2 & G2 & L2 & D2). rewrite E2.
    assert (ST : started (fold_left add_line ls new_message)) by (apply lines_started; [eapply block_lines; eauto|intros _; reflexivity]).
    set (m1 := fold_left add_line ls new_message) in *. unfold again. destruct tail as [|c tail].
    - destruct f2 as [|f2]; [lia|]. cbn [parse_loop]. destruct (ParseLine_eof m1 s2 _ H2) as (s3 & P). rewrite P.
      cbn [andb]. do 2 eexists. split; [reflexivity|]. cbn [m_offset m_done m_tmp m_headers]. split; [reflexivity|]. split; [reflexivity|]. symmetry. apply started_last. exact ST.
    - destruct f2 as [|f2]; [lia|]. cbn [parse_loop].
      destruct (ParseLine_last m1 s2 _ (c :: tail) H2 G2 ltac:(discriminate) N) as [(CH & s3 & P)|(CH & s3 & P & H3)].
      + rewrite P, CH. cbn [andb negb close_block m_done]. do 2 eexists. split; [reflexivity|]. auto.
      + rewrite P, add_line_done, D2. cbn [andb negb]. destruct f2 as [|f2]; [cbn [length] in L2; lia|]. cbn [parse_loop].
        destruct (ParseLine_eof (add_line m1 (chop_cr (c :: tail))) s3 _ H3) as (s4 & P4). rewrite P4. cbn [andb].
        do 2 eexists. split; [reflexivity|]. cbn [m_offset m_done m_tmp m_headers]. split; [reflexivity|]. split; [reflexivity|].
        destruct (chop_cr (c :: tail)) as [|d q] eqn:CC; [congruence|]. symmetry. apply (started_last (add_line m1 (d :: q))).
        intros T. destruct (add_line_started m1 (d :: q) ltac:(discriminate) T). }
  destruct X as (m & s' & P & O & D & T). exists m, s'. split; [exact P|]. split; [exact O|]. split; [exact D|]. split; [|exact T].
  exact (parse_no_body _ new_message _ m s' eq_refl P O).
Qed.
Lemma create_leaves C strict clock o y m s : parse_all (y_msg y) (y_file y) = Ok (m, s) -> m_offset m = (-1)%Z ->
  fst (CreateSignature C strict clock o y) = mkSignatory m s.
Proof.
  intros P O. unfold CreateSignature. rewrite P. unfold CanonicalizationBody, CanonicalizationBody_. rewrite O. change ((-1 =? -1)%Z) with true. cbn [obind].
  destruct (o_cbody o); cbn [negb orb]; [destruct (emit (o_signlen o) (o_bodylen o) CRLF) as [out z2]|]; reflexivity.
Qed.
Lemma parse_over m s : m_done m = true -> good s = false ->
  exists s1, parse_all m s = Ok (mkMessage (m_tmp m) (-1) (m_headers m ++ opt_list (m_tmp m)) true, s1) /\ good s1 = false.
Proof.
  intros D G. eexists. split.
  - apply (parse_once m s false); [exact D|]. unfold Message_ParseLine, getline. rewrite G. reflexivity.
  - unfold good, set_fail. cbn [s_eof s_fail]. apply Bool.andb_false_r.
Qed.
Lemma unended_again strict ls h tail fs : header_block ls h -> ~ In LF tail -> has_fields (h ++ tail) fs ->
  forall k y, has_signed strict (h ++ tail) k y -> exists m s, parse_all (y_msg y) (y_file y) = Ok (m, s) /\ m_offset m = (-1)%Z /\ m_done m = true /\
    good s = false /\ m_headers m = fs ++ concat (repeat (again tail fs) k) /\ opt_list (m_tmp m) = again tail fs.
Proof.
  intros HB N HF k y HS. induction HS as [|k y C clock o HS IH].
  - destruct (parse_unended_tmp ls h tail HB N) as (m & s & P & O & D & G & T). exists m, s. cbn [new_signatory y_msg y_file repeat concat]. rewrite app_nil_r.
    assert (E : m_headers m = fs) by (eapply has_fields_unique; [eapply parse_fields; eauto|exact HF]). rewrite E in T. auto 7.
  - destruct IH as (m & s & P & O & D & G & HH & T). rewrite (create_leaves C strict clock o y m s P O). cbn [y_msg y_file].
    destruct (parse_over m s D G) as (s1 & P1 & G1). do 2 eexists. split; [exact P1|]. cbn [m_offset m_done m_headers m_tmp].
    split; [reflexivity|]. split; [reflexivity|]. split; [exact G1|]. split; [|exact T]. rewrite HH, T.
    replace (S k) with (k + 1) by lia. rewrite repeat_app, concat_app, app_assoc. cbn [repeat concat]. rewrite app_nil_r. reflexivity.
Qed.
Lemma unended_signs C strict clock o ls h tail fs k y t : header_block ls h -> ~ In LF tail -> has_fields (h ++ tail) fs -> has_signed strict (h ++ tail) k y ->
  has_fields t (fs ++ concat (repeat (if list_eq_dec ascii_dec tail [CR] then [] else last_one fs) k)) -> message_body t [] ->
  snd (CreateSignature C strict clock o y) = snd (CreateSignature C strict clock o (new_signatory (open_str t))).
Proof.
  intros HB N HF HS HT MB. destruct (unended_again strict ls h tail fs HB N HF k y HS) as (m & s & P & O & D & G & HH & T).
  assert (EA : again tail fs = if list_eq_dec ascii_dec tail [CR] then [] else last_one fs).
  { unfold again. destruct tail as [|c r]; [reflexivity|]. destruct (list_eq_dec ascii_dec (c :: r) [CR]) as [E|NE]; [rewrite E; reflexivity|].
    unfold chop_cr. destruct (rev (c :: r)) as [|d q] eqn:R; [apply (f_equal (@length _)) in R; rewrite rev_length in R; discriminate|].
    destruct (d =?c CR) eqn:DC; [|reflexivity]. destruct q as [|x q]; cbn [rev].
    - apply ceqb_eq in DC. subst d. apply (f_equal (@rev _)) in R. rewrite rev_involutive in R. cbn [rev app] in R. congruence.
    - destruct (rev q ++ [x]) as [|] eqn:Q; [apply (f_equal (@length _)) in Q; rewrite app_length in Q; cbn [length] in Q; lia|reflexivity]. }
  rewrite <- EA in HT. destruct (message_fields' t) as (_ & _ & _ & m2 & s2 & _ & _ & P2 & _).
  apply (create_bodies C strict clock o y (new_signatory (open_str t)) m s m2 s2 []); [exact P|exact P2| | |].
  - rewrite HH. eapply has_fields_unique; [exact HT|eapply parse_fields; eauto].
  - left. auto.
  - eapply message_body_at; eauto. transitivity (contents (open_str t)); [|reflexivity]. unfold parse_all in P2. eapply parse_loop_contents; eauto.
Qed.

(** *** Concrete cases *)
Lemma fields_by t fs : match parse_all new_message (open_str t) with Ok (m, _) => m_headers m = fs | _ => False end -> has_fields t fs.
Proof. destruct (parse_all new_message (open_str t)) as [[m s]| | |] eqn:P; try contradiction. intros <-. eapply parse_fields; eauto. Qed.
Lemma two_more : exists fs, has_fields (esc "From: a@ex.org\r\nTo: b") fs /\
  has_fields (esc "From: a@ex.org\r\nTo: b\r\nTo: b\r\nTo: b") (fs ++ concat (repeat (last_one fs) 2)).
Proof. eexists. split; apply fields_by; vm_compute; reflexivity. Qed.
Lemma third_time : exists t y2 H2 H3 a b c, t = esc "From: a@ex.org\r\n\r\nTo: x\r\nhi\r\n" /\ has_signed true t 2 y2 /\
  (exists y1, has_signed true t 1 y1 /\ snd (CreateSignature toy true (fun _ => 5%Z) (with_rsa [SetSignBodyLength 0]) y1) = Ok H2) /\
  snd (CreateSignature toy true (fun _ => 5%Z) (with_rsa [SetSignBodyLength 0]) y2) = Ok H3 /\
  H2 = a ++ esc "\th=from;\r\n" ++ b /\ H3 = a ++ esc "\th=to:from;\r\n" ++ c.
Proof.
  set (t := esc "From: a@ex.org\r\n\r\nTo: x\r\nhi\r\n"). set (o := with_rsa [SetSignBodyLength 0]).
  set (go := CreateSignature toy true (fun _ => 5%Z) o). set (y1 := fst (go (new_signatory (open_str t)))). set (y2 := fst (go y1)).
  set (got := fun y => match snd (go y) with Ok h => h | _ => [] end).
  exists t, y2, (got y1), (got y2), (firstn 76 (got y1)), (skipn 86 (got y1)), (skipn 89 (got y2)).
  split; [reflexivity|]. split; [unfold y2, y1, go; do 3 constructor|]. split; [exists y1; split; [unfold y1, go; do 2 constructor|vm_compute; reflexivity]|].
  split; [vm_compute; reflexivity|]. split; vm_compute; reflexivity.
Qed.
