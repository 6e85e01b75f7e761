(** Fields in front of a message: exactly when what a signature covers stays the same. *)
From Verif Require Import Bytes Outcome Stream Base64 TagList MailParser Canonicalization Util Crypto Signature PublicKey SignatoryOptions Signatory
  Validatory BytesFacts SpecText SpecTags SpecMail SpecCanon SpecVerify SpecSig SpecKey SpecOptions SpecSign SpecTransit SpecTransport SelectFacts ListFacts MailFacts
  BodyFacts HeaderFacts VerifyFacts VerifyProps SignText SignFacts SignMail SignRound ToolFacts TransitFacts TransportFacts AddressClean AddedFacts.
From Coq Require Import Permutation.

Lemma same_stream strict h g v v' d : signed_data strict h g v = Ok d -> signed_data strict h g v' = Ok d ->
  exists c1 c2 d1, build_cache strict (m_headers (v_msg v)) [] = Ok c1 /\ build_cache strict (m_headers (v_msg v')) [] = Ok c2 /\
    hash_headers strict (sg_chead g) (sg_headers g) c1 = Ok d1 /\ hash_headers strict (sg_chead g) (sg_headers g) c2 = Ok d1.
Proof.
  unfold signed_data. destruct (build_cache strict (m_headers (v_msg v)) []) as [c1| | |]; cbn [obind]; try discriminate.
  destruct (hash_headers strict (sg_chead g) (sg_headers g) c1) as [d1| | |] eqn:H1; cbn [obind]; try discriminate.
  destruct (substr_from _ _) as [val| | |]; cbn [obind]; try discriminate. destruct (strip_b _ _) as [val1| | |]; cbn [obind]; try discriminate.
  destruct (FilterHeader _ _ _) as [x| | |]; cbn [obind]; try discriminate. intros E1. apply Ok_inj in E1.
  destruct (build_cache strict (m_headers (v_msg v')) []) as [c2| | |]; cbn [obind]; try discriminate.
  destruct (hash_headers strict (sg_chead g) (sg_headers g) c2) as [d2| | |] eqn:H2; cbn [obind]; try discriminate. intros E2. apply Ok_inj in E2.
  rewrite <- E2 in E1. apply app_inv_tail in E1. subst d2. exists c1, c2, d1. auto.
Qed.

(** Fields added anywhere: if what is signed stays the same, they are out of reach. *)
Lemma same_reach strict ty t t2 v v2 added h g d : new_validatory strict ty (open_str t) = Ok v -> new_validatory strict ty (open_str t2) = Ok v2 ->
  (sg_chead g = SIMPLE -> ~ starts_wsp t /\ ~ starts_wsp t2) -> Permutation (m_headers (v_msg v2)) (added ++ m_headers (v_msg v)) ->
  signed_data strict h g v = Ok d -> signed_data strict h g v2 = Ok d -> out_of_reach h_name added (m_headers (v_msg v)) (sg_headers g).
Proof.
  intros NV NV2 SW PE SD SD2 f IF. destruct (same_stream _ _ _ _ _ _ SD SD2) as (c1 & c2 & d1 & B1 & B2 & H1 & H2).
  pose proof (new_validatory_spec _ _ _ _ NV) as (m1 & s1 & P1 & M1 & _ & _). pose proof (new_validatory_spec _ _ _ _ NV2) as (m2 & s2 & P2 & M2 & _ & _).
  rewrite M1 in *. rewrite M2 in *.
  destruct (header_stream_unique _ _ _ _ _ _ _ _ _ _ _ _ _ _ P1 P2 SW B1 H1 B2 H2 eq_refl) as (outs & F1 & F2).
  apply Forall2_length' in F1. apply Forall2_length' in F2. destruct (le_lt_dec (occurrences (h_name f) (sg_headers g)) (count (m_headers m1) (h_name f))) as [L|L]; [exact L|]. exfalso.
  assert (CN : forall k, count (m_headers m2) k = count added k + count (m_headers m1) k) by (intros k; rewrite (count_perm _ _ k PE), count_app; reflexivity).
  assert (CA : 0 < count added (h_name f)).
  { unfold count. destruct (filter (fun x => same_name (h_name x) (h_name f)) added) as [|z r] eqn:Z; [|cbn [length]; lia]. exfalso.
    assert (Y : In f (filter (fun x => same_name (h_name x) (h_name f)) added)) by (apply filter_In; split; [exact IF|apply beqb_refl]). rewrite Z in Y. destruct Y. }
  assert (LT : length (selection h_name (m_headers m1) [] (sg_headers g)) < length (selection h_name (m_headers m2) [] (sg_headers g))); [|lia].
  apply (sel_lt _ _ (h_name f)).
  - intros k. rewrite CN. lia.
  - rewrite CN. lia.
  - cbn. lia.
  - exact L.
Qed.

Lemma front_exact strict ty t ls p v v' : header_block ls p -> at_field t -> ty <> V_NONE ->
  new_validatory strict ty (open_str t) = Ok v -> new_validatory strict ty (open_str (p ++ t)) = Ok v' ->
  exists added, m_headers (v_msg v') = added ++ m_headers (v_msg v) /\ concat (map (fun f => h_text f ++ CRLF) added) = with_crlf ls /\
    forall h g d, (sg_chead g = SIMPLE -> ~ starts_wsp t /\ ~ starts_wsp (p ++ t)) -> signed_data strict h g v = Ok d ->
      (signed_data strict h g v' = Ok d <-> out_of_reach h_name added (m_headers (v_msg v)) (sg_headers g)).
Proof.
  intros HB AT TY NV NV'. pose proof (validatory_plain _ _ _ _ NV TY) as PN. pose proof (validatory_plain _ _ _ _ NV' TY) as PN'.
  pose proof (new_validatory_spec _ _ _ _ NV) as (m & s & P & M & _ & S). pose proof (new_validatory_spec _ _ _ _ NV') as (m' & s' & P' & M' & _ & S').
  destruct (front_parse ls p t m s HB AT P) as (m2 & s2 & P2 & EH & b & MB & MB'). rewrite P' in P2. apply Ok_inj in P2. injection P2 as <- <-.
  exists (all_headers (fold_left add_line ls new_message)). rewrite <- M, <- M' in EH. split; [exact EH|]. split; [apply rejoin_fields; eapply header_block_nonempty; eauto|].
  intros h g d SW SD. split.
  - intros SD'. eapply same_reach; eauto. rewrite EH. apply Permutation_refl.
  - intros OR. rewrite <- SD. eapply signed_alike; eauto. clear. induction (m_headers (v_msg v)); constructor; auto. split; reflexivity.
Qed.

(** Fields added anywhere within reach: the signature is noticed to be wrong, unless the primitives accept it for two texts. *)
Lemma reach_noticed C strict ty t t2 v v2 added h g k : new_validatory strict ty (open_str t) = Ok v -> new_validatory strict ty (open_str t2) = Ok v2 ->
  (sg_chead g = SIMPLE -> ~ starts_wsp t /\ ~ starts_wsp t2) -> Permutation (m_headers (v_msg v2)) (added ++ m_headers (v_msg v)) ->
  ~ out_of_reach h_name added (m_headers (v_msg v)) (sg_headers g) ->
  CheckSignature C strict h g k v = Ok tt -> CheckSignature C strict h g k v2 = Ok tt ->
  exists d d2, d <> d2 /\ verify_digest C g k (digest C (sg_digest g) d) = Ok tt /\ verify_digest C g k (digest C (sg_digest g) d2) = Ok tt.
Proof.
  intros NV NV2 SW PE NR CK CK2. unfold CheckSignature in *. destruct (key_allows g k); [|discriminate].
  destruct (signed_data strict h g v) as [d| | |] eqn:D; try discriminate. destruct (signed_data strict h g v2) as [d2| | |] eqn:D2; try discriminate.
  exists d, d2. split; [|auto]. intros <-. apply NR. eapply same_reach; eauto.
Qed.
