(** Fields added to a signed message (for C77). *)
From Verif Require Import Bytes Outcome Stream Base64 TagList MailParser Canonicalization Util Crypto Signature PublicKey SignatoryOptions Signatory
  Validatory BytesFacts SpecText SpecTags SpecMail SpecCanon SpecVerify SpecSig SpecKey SpecOptions SpecSign SpecTransit SpecTransport SelectFacts ListFacts MailFacts
  BodyFacts HeaderFacts VerifyFacts VerifyProps SignText SignFacts SignMail SignRound ToolFacts TransitFacts TransportFacts AddressClean.
From Coq Require Import Permutation.

Definition count (hs : list header) (n : bytes) : nat := length (filter (fun h => same_name (h_name h) n) hs).
Lemma count_perm hs hs' n : Permutation hs hs' -> count hs n = count hs' n.
Proof.
  unfold count. induction 1 as [|x l l' P IH|x y l|l l' l'' P IH P' IH']; cbn [filter].
  - reflexivity.
  - destruct (same_name (h_name x) n); cbn [length]; congruence.
  - destruct (same_name (h_name x) n), (same_name (h_name y) n); reflexivity.
  - congruence.
Qed.
Lemma count_app a b n : count (a ++ b) n = count a n + count b n.
Proof. unfold count. rewrite filter_app, app_length. reflexivity. Qed.
Lemma count_same hs a b : same_name a b = true -> count hs a = count hs b.
Proof. unfold count, same_name. intros E. apply beqb_eq in E. rewrite E. reflexivity. Qed.

Lemma sel_le hs hs' names : (forall n, count hs n <= count hs' n) -> forall before,
  length (selection h_name hs before names) <= length (selection h_name hs' before names).
Proof.
  intros L. induction names as [|n names IH]; intros before; cbn [selection]; [lia|]. rewrite !app_length. pose proof (IH (before ++ [n])) as J.
  specialize (L n). unfold count in L. destruct (kth_last h_name hs n (occurrences n before)) eqn:K; [|cbn [length]; lia].
  destruct (kth_last h_name hs' n (occurrences n before)) eqn:K'; [cbn [length]; lia|].
  apply kth_last_None in K'. assert (X : kth_last h_name hs n (occurrences n before) = None) by (apply kth_last_None; lia). congruence.
Qed.
Lemma occurrences_snoc n before x : occurrences n (before ++ [x]) = occurrences n before + (if same_name n x then 1 else 0).
Proof. unfold occurrences. rewrite filter_app, app_length. cbn [filter]. destruct (same_name n x); reflexivity. Qed.
Lemma same_name_swap a b : same_name a b = same_name b a.
Proof. destruct (same_name a b) eqn:E; symmetry; [apply same_name_sym; auto|]. apply not_true_iff_false. intros X. apply same_name_sym in X. congruence. Qed.
Lemma occurrences_eq a b l : same_name a b = true -> occurrences a l = occurrences b l.
Proof. unfold occurrences, same_name. intros E. apply beqb_eq in E. rewrite E. reflexivity. Qed.
Lemma sel_lt hs hs' n names : (forall n, count hs n <= count hs' n) -> count hs n < count hs' n -> forall before,
  occurrences n before <= count hs n -> count hs n < occurrences n (before ++ names) ->
  length (selection h_name hs before names) < length (selection h_name hs' before names).
Proof.
  intros L LT. induction names as [|x names IH]; intros before B U; cbn [selection].
  - rewrite app_nil_r in U. lia.
  - assert (U' : count hs n < occurrences n ((before ++ [x]) ++ names)) by (rewrite <- app_assoc; exact U).
    rewrite !app_length. pose proof (sel_le hs hs' names L (before ++ [x])) as J. pose proof (L x) as LX.
    assert (H1 : length match kth_last h_name hs x (occurrences x before) with Some h => [h] | None => [] end <=
                 length match kth_last h_name hs' x (occurrences x before) with Some h => [h] | None => [] end).
    { destruct (kth_last h_name hs x (occurrences x before)) eqn:K; [|cbn [length]; lia].
      destruct (kth_last h_name hs' x (occurrences x before)) eqn:K'; [cbn [length]; lia|].
      apply kth_last_None in K'. assert (X : kth_last h_name hs x (occurrences x before) = None) by (apply kth_last_None; unfold count in LX; lia). congruence. }
    pose proof (occurrences_snoc n before x) as O. destruct (same_name n x) eqn:S.
    + destruct (Nat.eq_dec (occurrences n before) (count hs n)) as [E|NE].
      * pose proof (occurrences_eq n x before S) as OE. pose proof (count_same hs n x S) as C1. pose proof (count_same hs' n x S) as C2.
        assert (K : kth_last h_name hs x (occurrences x before) = None) by (apply kth_last_None; unfold count in *; lia). rewrite K in *.
        destruct (kth_last h_name hs' x (occurrences x before)) eqn:K'; [cbn [length] in *; lia|].
        apply kth_last_None in K'. unfold count in *. lia.
      * assert (X : length (selection h_name hs (before ++ [x]) names) < length (selection h_name hs' (before ++ [x]) names)) by (apply IH; lia). lia.
    + assert (X : length (selection h_name hs (before ++ [x]) names) < length (selection h_name hs' (before ++ [x]) names)) by (apply IH; lia). lia.
Qed.
Lemma oversigned_count o hs n : sound_fields h_name o hs -> In n (o_oversign o) -> count hs n < occurrences n (listed_names h_name o hs).
Proof.
  intros [_ SO _] IN. destruct (SO n IN) as (_ & _ & CH). unfold occurrences, listed_names. rewrite filter_app, app_length.
  assert (X : 0 < length (filter (same_name n) (map (map low) (o_oversign o)))).
  { destruct (filter (same_name n) (map (map low) (o_oversign o))) as [|z r] eqn:E; [|cbn [length]; lia]. exfalso.
    assert (Z : In (map low n) (filter (same_name n) (map (map low) (o_oversign o)))).
    { apply filter_In. split; [apply in_map; exact IN|]. rewrite map_low, same_name_lower'. apply same_name_id. }
    rewrite E in Z. destruct Z. }
  enough (Y : count hs n <= length (filter (same_name n) (map (fun h => map low (h_name h)) (filter (fun h => choice o (h_name h)) (rev hs))))) by (unfold bytes in *; lia).
  rewrite filter_map_comm, map_length, filter_comp. unfold count. rewrite <- filter_rev_length.
  assert (EQ : filter (fun h => choice o (h_name h)) (filter (fun x => same_name n (map low (h_name x))) (rev hs)) =
               filter (fun h => same_name (h_name h) n) (rev hs)).
  { assert (CH' : forall h, In h (rev hs) -> same_name (h_name h) n = true -> chosen o (h_name h)) by (intros h IH S; apply CH; auto; apply in_rev; auto).
    clear - CH'. induction (rev hs) as [|h l IH]; [reflexivity|]. cbn [filter]. rewrite map_low, same_name_lower', same_name_swap.
    destruct (same_name (h_name h) n) eqn:S; cbn [filter].
    - rewrite (proj2 (choice_chosen o (h_name h)) (CH' h (or_introl eq_refl) S)). f_equal. apply IH. intros x IX. apply CH'. right. exact IX.
    - apply IH. intros x IX. apply CH'. right. exact IX. }
  rewrite EQ. lia.
Qed.

(** A field of an oversigned name among fields added anywhere. *)
Lemma added_changes C strict clock o t y H m s v t2 v2 added f n h g d d2 : ~ starts_wsp t -> parse_all new_message (open_str t) = Ok (m, s) ->
  CreateSignature C strict clock o (new_signatory (open_str t)) = (y, Ok H) ->
  Forall (sound_options strict o) (all_signatures o) -> sound_fields h_name o (m_headers m) ->
  new_validatory strict (sig_type o) (open_str (H ++ CRLF ++ t)) = Ok v ->
  new_validatory strict (sig_type o) (open_str t2) = Ok v2 -> (o_chead o = SIMPLE -> ~ starts_wsp t2) ->
  Permutation (m_headers (v_msg v2)) (added ++ m_headers (v_msg v)) ->
  In f added -> In n (o_oversign o) -> same_name (h_name f) n = true ->
  sg_headers g = listed_names h_name o (m_headers m) -> sg_chead g = o_chead o ->
  signed_data strict h g v = Ok d -> signed_data strict h g v2 = Ok d2 -> d <> d2.
Proof.
  intros NW PA CS SO SF NV NV2 SW PE IF IN SN LN CH SD SD2 E. subst d2.
  destruct (signed_begins _ _ _ _ _ _ _ _ _ NW PA CS SO SF) as (fields & EH & NE & FO & LF & ET & v0 & NV0 & HV). rewrite NV in NV0. apply Ok_inj in NV0. subst v0.
  pose proof (new_validatory_spec _ _ _ _ NV) as (m1 & s1 & P1 & M1 & _ & _). pose proof (new_validatory_spec _ _ _ _ NV2) as (m2 & s2 & P2 & M2 & _ & _).
  assert (X : exists c1 c2 d1, build_cache strict (m_headers m1) [] = Ok c1 /\ build_cache strict (m_headers m2) [] = Ok c2 /\
    hash_headers strict (sg_chead g) (sg_headers g) c1 = Ok d1 /\ hash_headers strict (sg_chead g) (sg_headers g) c2 = Ok d1).
  { rewrite <- M1, <- M2. revert SD SD2. unfold signed_data. destruct (build_cache strict (m_headers (v_msg v)) []) as [c1| | |]; cbn [obind]; try discriminate.
    destruct (hash_headers strict (sg_chead g) (sg_headers g) c1) as [d1| | |] eqn:H1; cbn [obind]; try discriminate.
    destruct (substr_from _ _) as [val| | |]; cbn [obind]; try discriminate. destruct (strip_b _ _) as [val1| | |]; cbn [obind]; try discriminate.
    destruct (FilterHeader _ _ _) as [x| | |]; cbn [obind]; try discriminate. intros E1. apply Ok_inj in E1.
    destruct (build_cache strict (m_headers (v_msg v2)) []) as [c2| | |]; cbn [obind]; try discriminate.
    destruct (hash_headers strict (sg_chead g) (sg_headers g) c2) as [d2| | |] eqn:H2; cbn [obind]; try discriminate. intros E2. apply Ok_inj in E2.
    rewrite <- E2 in E1. apply app_inv_tail in E1. subst d2. exists c1, c2, d1. auto. }
  destruct X as (c1 & c2 & d1 & B1 & B2 & H1 & H2).
  assert (SW' : sg_chead g = SIMPLE -> ~ starts_wsp (H ++ CRLF ++ t) /\ ~ starts_wsp t2).
  { intros Z. split; [|apply SW; congruence]. rewrite ET. destruct (first_byte fields t NE FO) as (c & r & -> & NC & _). intros (c' & r' & [= <- <-] & W). auto. }
  destruct (header_stream_unique _ _ _ _ _ _ _ _ _ _ _ _ _ _ P1 P2 SW' B1 H1 B2 H2 eq_refl) as (outs & F1 & F2).
  apply Forall2_length' in F1. apply Forall2_length' in F2.
  assert (LT : length (selection h_name (m_headers m1) [] (sg_headers g)) < length (selection h_name (m_headers m2) [] (sg_headers g))); [|lia].
  rewrite <- M1, <- M2. 
  assert (CN : forall k, count (m_headers (v_msg v2)) k = count added k + count (m_headers (v_msg v)) k) by (intros k; rewrite (count_perm _ _ k PE), count_app; reflexivity).
  assert (CA : 0 < count added n).
  { unfold count. destruct (filter (fun h => same_name (h_name h) n) added) as [|z r] eqn:Z; [|cbn [length]; lia]. exfalso.
    assert (Y : In f (filter (fun h => same_name (h_name h) n) added)) by (apply filter_In; auto). rewrite Z in Y. destruct Y. }
  apply (sel_lt _ _ n).
  - intros k. rewrite CN. lia.
  - rewrite CN. lia.
  - cbn. lia.
  - cbn [app]. rewrite LN, HV, count_app.
    assert (CF : count (map header_of fields) n = 0).
    { destruct (sf_over _ _ _ SF n IN) as (_ & NF & _).
      destruct (signed_parts _ _ _ _ _ _ _ _ _ NW PA CS (plain_sounds _ _ _ SO) (signed_names_signable _ _ SF)) as (b & out & outs' & Hs & m' & SM).
      assert (FE : map header_of Hs = map header_of fields).
      { destruct (sm_parse _ _ _ _ _ _ _ _ _ _ _ _ SM) as (s' & P'). rewrite P1 in P'. apply Ok_inj in P'. injection P' as <- _.
        pose proof (sm_headers _ _ _ _ _ _ _ _ _ _ _ _ SM) as HM. rewrite <- M1, HV in HM. apply app_inv_tail in HM. auto. }
      rewrite <- FE. pose proof (sm_names _ _ _ _ _ _ _ _ _ _ _ _ SM) as FN. unfold count. clear - FN NF.
      induction FN as [|x l E F IH]; [reflexivity|]. cbn [map filter]. rewrite E, same_name_swap, NF. exact IH. }
    rewrite CF. apply oversigned_count; auto.
Qed.
Lemma added_refused C strict clock o t y H m s v t2 v2 added f n h g k : ~ starts_wsp t -> parse_all new_message (open_str t) = Ok (m, s) ->
  CreateSignature C strict clock o (new_signatory (open_str t)) = (y, Ok H) ->
  Forall (sound_options strict o) (all_signatures o) -> sound_fields h_name o (m_headers m) ->
  new_validatory strict (sig_type o) (open_str (H ++ CRLF ++ t)) = Ok v ->
  new_validatory strict (sig_type o) (open_str t2) = Ok v2 -> (o_chead o = SIMPLE -> ~ starts_wsp t2) ->
  Permutation (m_headers (v_msg v2)) (added ++ m_headers (v_msg v)) ->
  In f added -> In n (o_oversign o) -> same_name (h_name f) n = true ->
  sg_headers g = listed_names h_name o (m_headers m) -> sg_chead g = o_chead o ->
  CheckSignature C strict h g k v = Ok tt -> CheckSignature C strict h g k v2 = Ok tt ->
  exists d d2, d <> d2 /\ verify_digest C g k (digest C (sg_digest g) d) = Ok tt /\ verify_digest C g k (digest C (sg_digest g) d2) = Ok tt.
Proof.
  intros NW PA CS SO SF NV NV2 SW PE IF IN SN LN CH CK CK2. unfold CheckSignature in *. destruct (key_allows g k); [|discriminate].
  destruct (signed_data strict h g v) as [d| | |] eqn:D; try discriminate. destruct (signed_data strict h g v2) as [d2| | |] eqn:D2; try discriminate.
  exists d, d2. split; [|auto]. eapply added_changes; eauto.
Qed.

(** Without oversigned names, whatever stands in front goes unnoticed. *)
Lemma front_unnoticed C strict clock o t y H m s ls p v' : ~ starts_wsp t -> parse_all new_message (open_str t) = Ok (m, s) ->
  CreateSignature C strict clock o (new_signatory (open_str t)) = (y, Ok H) ->
  Forall (sound_options strict o) (all_signatures o) -> sound_fields h_name o (m_headers m) -> o_oversign o = [] ->
  header_block ls p -> new_validatory strict (sig_type o) (open_str (p ++ H ++ CRLF ++ t)) = Ok v' ->
  exists fields more, H = joined fields /\ length fields = length (all_signatures o) /\
    v_sigs v' = more ++ map header_of fields ++ filter (wanted (sig_type o)) (m_headers m) /\
    forall i q, nth_error (rev (all_signatures o)) i = Some q ->
    exists h, nth_error (v_sigs v') (length more + i) = Some h /\ nth_error (map header_of fields) i = Some h /\
    forall w k now e0, in_use strict (sig_type o) (p ++ H ++ CRLF ++ t) w -> serves C o q k -> small_field h ->
       (o_exsign o = true -> (now <= expiry o (clock i))%Z) -> (o_signlen o = true -> e0 = false) ->
    exists w2 g e1, GetSignature C strict now h (new_signature, e0) w = (w2, (g, e1), Ok tt) /\ CheckSignature C strict h g k w2 = Ok tt.
Proof.
  intros NW PA CS SO SF NO HB NV'. destruct (signed_begins _ _ _ _ _ _ _ _ _ NW PA CS SO SF) as (fields & EH & NE & FO & LF & ET & v & NV & HV).
  assert (A : arrives_signed C strict clock o (p ++ H ++ CRLF ++ t) ls fields (m_headers m) v').
  { apply (front_accepted C strict clock o t y H m s (H ++ CRLF ++ t) v v ls p v' fields (m_headers m)); auto.
    - clear. induction (m_headers m); constructor; auto. apply same_name_id.
    - rewrite ET. destruct (first_byte fields t NE FO) as (c & r & -> & NC & _). exact NC. }
  destruct A as (added & more & _ & _ & EV & _ & K). exists fields, more. split; auto. split; auto. split; auto. intros i q NQ.
  destruct (K ltac:(rewrite NO; intros ? ? ? []) i q NQ) as (h & N1 & N2 & J). exists h. split; auto. split; auto. intros w k now e0 W SV SM EX E0.
  destruct (J w k now e0 W SV SM EX E0) as (w2 & g & e1 & G & CK & _). eauto.
Qed.
