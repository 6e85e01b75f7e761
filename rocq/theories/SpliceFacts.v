(** Messages that change while they are checked (for C113). *)
From Verif Require Import SpecPass PassFacts Bytes Outcome Stream Tokenizer MailParser Canonicalization Util Crypto Signature PublicKey Validatory
  BytesFacts StreamFacts SpecText SpecMail SpecCanon SpecVerify MailFacts BodyFacts BodyProps HeaderFacts VerifyFacts VerifyProps SharedFacts SpecSplice Outcome.

Lemma spliced_total t1 t2 : exists t, spliced t1 t2 t.
Proof.
  destruct (message_fields t1) as (ls & h & rest & m & s & HB & -> & P & _ & gs & _ & _ & _ & X).
  destruct X as [((e & body & LE & -> & _) & _)|(N & _)]; eexists; [eapply sp_blank|eapply sp_none]; eauto.
Qed.
Lemma spliced_once t1 t2 t t' : spliced t1 t2 t -> spliced t1 t2 t' -> t' = t.
Proof.
  assert (K : forall a, spliced t1 t2 a -> exists m s, parse_all new_message (open_str t1) = Ok (m, s) /\
    a = if (m_offset m =? -1)%Z then t1 else firstn (Z.to_nat (m_offset m)) t1 ++ skipn (Z.to_nat (m_offset m)) t2).
  { intros a S. destruct S as [ls h e b t2 HB LE|ls h tail t2 HB N].
    - destruct (parse_blank ls h e b HB LE) as (m & s & P & O & _). exists m, s. split; [exact P|]. rewrite O. destruct (Z.eqb_spec (Z.of_nat (length (h ++ e))) (-1)); [lia|].
      rewrite Nat2Z.id. rewrite (app_assoc h e b), firstn_app_exact, <- app_assoc. reflexivity.
    - destruct (parse_unended ls h tail HB N) as (m & s & P & O & _). exists m, s. split; [exact P|]. rewrite O. reflexivity. }
  intros S S'. destruct (K _ S) as (m & s & P & ->). destruct (K _ S') as (m' & s' & P' & ->). rewrite P in P'. injection P' as <- <-. reflexivity.
Qed.

(** The body behind the end of a file that has become shorter is empty. *)
Lemma body_gone s s' mode off limit size : (Z.of_nat (length (contents s)) < off)%Z ->
  exists calls ok s1 s1', CanonicalizationBody s mode off limit size = Ok (calls, ok, s1) /\ CanonicalizationBody s' mode (-1) limit size = Ok (calls, ok, s1').
Proof.
  intros L. unfold CanonicalizationBody, CanonicalizationBody_. destruct (Z.eqb_spec off (-1)) as [E|_]; [lia|].
  replace (-1 =? -1)%Z with true by reflexivity. cbv zeta.
  replace (seekg off (clear s)) with (mkStream (s_prev s) (s_rest s) false true).
  2:{ unfold seekg, clear. cbn [s_fail s_prev s_rest]. destruct (Z.leb_spec off (Z.of_nat (s_size (mkStream (s_prev s) (s_rest s) false false)))) as [H|_].
      - exfalso. unfold s_size in H. cbn [s_prev s_rest] in H. unfold contents in L. rewrite app_length, rev_length in L. lia.
      - rewrite Bool.andb_false_r. reflexivity. }
  cbn [body_loop]. unfold good at 1. cbn [s_fail s_eof negb andb]. cbn [obind].
  match goal with |- context [let '(_, _) := ?x in Ok _] => destruct x as [c z] end. eauto 10.
Qed.
Lemma body_at_nil s off b : contents s = b -> (off = Z.of_nat (length b)) -> body_at s off [].
Proof. intros <- ->. right. exists (contents s). rewrite app_nil_r. auto. Qed.

Section S.
Variables (C : crypto) (strict : bool).
Lemma checked s2 m l v' : m_headers (v_msg v') = m_headers m -> v_sigs v' = l ->
  (forall g, snd (CheckBodyHash C g (mkVal m s2 l)) = snd (CheckBodyHash C g v')) ->
  forall e c, snd (perform C strict e c (mkVal m s2 l)) = snd (perform C strict e c v').
Proof.
  intros H S K e c. destruct c as [now h g|g|h g p|]; cbn [perform].
  - unfold GetSignature. destruct (Signature_Parse C strict now h (g, e)) as [st1 [[]| | |]]; cbn [fst snd]; auto.
    specialize (K (fst st1)). destruct (CheckBodyHash C (fst st1) (mkVal m s2 l)), (CheckBodyHash C (fst st1) v'). cbn [fst snd] in *. congruence.
  - specialize (K g). destruct (CheckBodyHash C g (mkVal m s2 l)), (CheckBodyHash C g v'). cbn [fst snd] in *. congruence.
  - cbn [snd]. unfold CheckSignature, signed_data. rewrite H. reflexivity.
  - cbn [snd v_sigs]. rewrite S. reflexivity.
Qed.
Lemma hash_calls g s m l s' m' l' calls ok s1 calls' s1' :
  CanonicalizationBody s (sg_cbody g) (m_offset m) (sg_limit g) (sg_size g) = Ok (calls, ok, s1) ->
  CanonicalizationBody s' (sg_cbody g) (m_offset m') (sg_limit g) (sg_size g) = Ok (calls', ok, s1') -> concat calls = concat calls' ->
  snd (CheckBodyHash C g (mkVal m s l)) = snd (CheckBodyHash C g (mkVal m' s' l')).
Proof. intros E E' X. unfold CheckBodyHash. cbn [v_file v_msg v_sigs]. rewrite E, E'. unfold digest_chunks. rewrite X. reflexivity. Qed.

Lemma splice_checked ty t1 v : new_validatory strict ty (open_str t1) = Ok v -> forall s2 t, spliced t1 (contents s2) t ->
  exists v', new_validatory strict ty (open_str t) = Ok v' /\ v_sigs v' = v_sigs v /\ m_headers (v_msg v') = m_headers (v_msg v) /\
    forall e c, snd (perform C strict e c (mkVal (v_msg v) s2 (v_sigs v))) = snd (perform C strict e c v').
Proof.
  intros NV s2 t SP. destruct (new_parts _ _ _ _ NV) as [P L]. remember (contents s2) as t2 eqn:E2. destruct SP as [ls h e b t2 HB LE|ls h tail t2 HB N].
  - destruct (parse_blank ls h e b HB LE) as (m & s & P1 & O & H & _). rewrite P in P1. injection P1 as EM ES.
    set (b' := skipn (length (h ++ e)) t2) in *. destruct (parse_blank ls h e b' HB LE) as (m' & s' & P' & O' & H' & _).
    assert (HH : m_headers m' = m_headers (v_msg v)) by (rewrite EM, H; exact H').
    assert (NV' : new_validatory strict ty (open_str (h ++ e ++ b')) = Ok (mkVal m' s' (v_sigs v))).
    { unfold new_validatory. rewrite P'. cbn [obind]. rewrite HH. destruct ty; [rewrite L; reflexivity..|]. injection L as <-. reflexivity. }
    exists (mkVal m' s' (v_sigs v)). split; [exact NV'|]. split; [reflexivity|]. split; [exact HH|]. apply checked; [exact HH|reflexivity|].
    intros g. rewrite EM. destruct (new_parts _ _ _ _ NV') as [Q _]. pose proof (parse_loop_contents _ _ _ _ _ Q) as CC. cbn [v_file] in CC.
    assert (B' : body_at s' (m_offset m') b').
    { right. exists (h ++ e). rewrite CC. split; [|exact O']. unfold contents. cbn [open_str s_prev s_rest rev app]. rewrite <- app_assoc. reflexivity. }
    destruct (Nat.le_gt_cases (length (h ++ e)) (length t2)) as [LL|GG].
    + assert (B2 : body_at s2 (m_offset m) b').
      { right. exists (firstn (length (h ++ e)) t2). unfold b'. rewrite firstn_skipn. split; [auto|]. rewrite O, firstn_length, Nat.min_l by exact LL. reflexivity. }
      destruct (body_same s2 s' (sg_cbody g) (m_offset m) (m_offset m') (sg_limit g) (sg_size g) b' B2 B') as (calls & calls' & ok & s1 & s1' & E & E' & X).
      eapply hash_calls; eauto.
    + assert (Eb : b' = []) by (unfold b'; apply skipn_all2; lia). rewrite Eb in B'.
      destruct (body_gone s2 s2 (sg_cbody g) (m_offset m) (sg_limit g) (sg_size g)) as (calls & ok & s1 & s1' & E & E'); [rewrite <- E2, O; lia|].
      assert (B0 : body_at s2 (-1) []) by (left; auto).
      destruct (body_same s2 s' (sg_cbody g) (-1) (m_offset m') (sg_limit g) (sg_size g) [] B0 B') as (c1 & c2 & ok' & s3 & s3' & F & F' & X).
      rewrite E' in F. injection F as <- <- <-. eapply hash_calls; eauto.
  - exists v. split; [exact NV|]. split; [reflexivity|]. split; [reflexivity|]. apply checked; [reflexivity..|].
    destruct (parse_unended ls h tail HB N) as (m & s & P1 & O & _). rewrite P in P1. injection P1 as EM ES. intros g.
    destruct v as [m0 s0 l]. cbn [v_msg v_sigs v_file] in *. subst m0.
    assert (B1 : body_at s2 (m_offset m) []) by (left; auto). assert (B2 : body_at s0 (m_offset m) []) by (left; auto).
    destruct (body_same s2 s0 (sg_cbody g) _ _ (sg_limit g) (sg_size g) [] B1 B2) as (calls & calls' & ok & s1 & s1' & E & E' & X). eapply hash_calls; eauto.
Qed.
Lemma perform_keeps e c v : v_msg (fst (perform C strict e c v)) = v_msg v /\ v_sigs (fst (perform C strict e c v)) = v_sigs v.
Proof.
  assert (K : forall g, v_msg (fst (CheckBodyHash C g v)) = v_msg v /\ v_sigs (fst (CheckBodyHash C g v)) = v_sigs v).
  { intros g. unfold CheckBodyHash. destruct (CanonicalizationBody _ _ _ _ _) as [[[calls ok] s]| | |]; [|auto..]. destruct ok; [|auto]. cbv zeta. match goal with |- context [if ?b then _ else _] => destruct b end; auto. }
  destruct c as [now h g|g|h g p|]; cbn [perform]; [| |auto..].
  - unfold GetSignature. destruct (Signature_Parse C strict now h (g, e)) as [st1 [[]| | |]]; cbn [fst snd]; auto.
    specialize (K (fst st1)). destruct (CheckBodyHash C (fst st1) v). exact K.
  - specialize (K g). destruct (CheckBodyHash C g v). exact K.
Qed.
Lemma splice_answers ty t1 v : new_validatory strict ty (open_str t1) = Ok v -> forall l,
  Forall2 (fun q a => let '(t2, e, c) := q in forall t, spliced t1 t2 t ->
    exists v', new_validatory strict ty (open_str t) = Ok v' /\ a = snd (perform C strict e c v')) l (answers_over C strict v l).
Proof.
  intros NV l. assert (K : forall w, v_msg w = v_msg v -> v_sigs w = v_sigs v ->
    Forall2 (fun q a => let '(t2, e, c) := q in forall t, spliced t1 t2 t ->
      exists v', new_validatory strict ty (open_str t) = Ok v' /\ a = snd (perform C strict e c v')) l (answers_over C strict w l)); [|apply K; reflexivity].
  induction l as [|[[t2 e] c] r IH]; intros w M S; cbn [answers_over]; [constructor|]. rewrite M, S.
  pose proof (perform_keeps e c (mkVal (v_msg v) (open_str t2) (v_sigs v))) as [KM KS].
  destruct (perform C strict e c (mkVal (v_msg v) (open_str t2) (v_sigs v))) as [v1 a] eqn:E. cbn [fst v_msg v_sigs] in KM, KS.
  constructor; [|apply IH; assumption]. intros t SP. destruct (splice_checked ty t1 v NV (open_str t2) t) as (v' & NV' & _ & _ & X); [exact SP|].
  exists v'. split; [exact NV'|]. rewrite <- X, E. reflexivity.
Qed.
End S.
