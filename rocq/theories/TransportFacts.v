(** A signed message that travelled is still accepted. *)
From Verif Require Import Bytes Outcome Stream Base64 TagList MailParser Canonicalization Util Crypto Signature PublicKey SignatoryOptions Signatory
  Validatory BytesFacts SpecText SpecTags SpecMail SpecCanon SpecVerify SpecSig SpecKey SpecOptions SpecSign SpecTransit SpecTransport SelectFacts ListFacts MailFacts BodyFacts HeaderFacts
  VerifyFacts VerifyProps SignText SignFacts SignMail SignRound ToolFacts TransitFacts AddressClean.

Lemma sig_type_some o : sig_type o <> V_NONE.
Proof. unfold sig_type. destruct (o_arc o =? 0)%N; discriminate. Qed.

(** Without oversigning a name is listed at most once per field. *)
Lemma filter_comp {A} (p q : A -> bool) l : filter p (filter q l) = filter q (filter p l).
Proof.
  induction l as [|a l IH]; [reflexivity|]. cbn [filter]. destruct (p a) eqn:P; destruct (q a) eqn:Q; cbn [filter]; rewrite ?P, ?Q, IH; reflexivity.
Qed.
Lemma filter_map_comm {A B} (p : B -> bool) (f : A -> B) l : filter p (map f l) = map f (filter (fun x => p (f x)) l).
Proof. induction l as [|a l IH]; [reflexivity|]. cbn [map filter]. destruct (p (f a)); cbn [map]; rewrite IH; reflexivity. Qed.
Lemma filter_le {A} (p : A -> bool) l : length (filter p l) <= length l.
Proof. induction l as [|a l IH]; cbn [filter]; [lia|]. destruct (p a); cbn [length]; lia. Qed.
Lemma filter_rev_length {A} (p : A -> bool) l : length (filter p (rev l)) = length (filter p l).
Proof. induction l as [|a l IH]; [reflexivity|]. cbn [rev filter]. rewrite filter_app, app_length, IH. cbn [filter]. destruct (p a); cbn [length]; lia. Qed.
Lemma listed_once o (hs : list header) n : (forall w, In w (o_oversign o) -> same_name n w = false) ->
  occurrences n (listed_names h_name o hs) <= length (filter (fun h => same_name (h_name h) n) hs).
Proof.
  intros NO. unfold occurrences, listed_names. rewrite filter_app, app_length.
  assert (X : filter (same_name n) (map (map low) (o_oversign o)) = []).
  { rewrite filter_map_comm. replace (filter (fun x => same_name n (map low x)) (o_oversign o)) with (@nil bytes); [reflexivity|]. symmetry.
    revert NO. generalize (o_oversign o) as l. induction l as [|w l IH]; intros NO; [reflexivity|]. cbn [filter].
    rewrite map_low, same_name_lower', (NO w) by (left; reflexivity). apply IH. intros x IX. apply NO. right. exact IX. }
  unfold bytes in *. rewrite X. cbn [length]. rewrite Nat.add_0_r, filter_map_comm, map_length, filter_comp.
  eapply Nat.le_trans; [apply filter_le|]. rewrite filter_rev_length. apply Nat.eq_le_incl. f_equal. apply filter_ext. intros h.
  rewrite map_low, same_name_lower'. unfold same_name. destruct (beqb_spec (map low n) (map low (h_name h))) as [->|NE].
  - symmetry. apply beqb_refl.
  - symmetry. apply not_true_iff_false. intros E. apply beqb_eq in E. congruence.
Qed.
Lemma same_counts (hs hs' : list header) n : Forall2 (fun f f' => same_name (h_name f) (h_name f') = true) hs hs' ->
  length (filter (fun h => same_name (h_name h) n) hs) = length (filter (fun h => same_name (h_name h) n) hs').
Proof.
  induction 1 as [|f f' hs hs' S F IH]; [reflexivity|]. cbn [filter]. apply beqb_eq in S.
  assert (E : same_name (h_name f) n = same_name (h_name f') n) by (unfold same_name; rewrite S; reflexivity). rewrite E.
  destruct (same_name (h_name f') n); cbn [length]; rewrite IH; reflexivity.
Qed.

(** A used validator of the same text gives the same outcome. *)
Lemma get_use C strict ty t v w now h st : in_use strict ty t v -> in_use strict ty t w ->
  outcome_of (GetSignature C strict now h st w) = outcome_of (GetSignature C strict now h st v).
Proof.
  intros U W. destruct (GetSignature_spec C strict ty t v now h st U) as (v1 & _ & E). destruct (GetSignature_spec C strict ty t w now h st W) as (w1 & _ & E').
  destruct (Signature_Parse C strict now h st) as [st1 [[]| | |]]; rewrite E, E'; unfold outcome_of; cbn [fst snd]; auto.
  f_equal. eapply CheckBodyHash_use; eauto.
Qed.
Lemma get_state C strict now h st v v1 st1 : GetSignature C strict now h st v = (v1, st1, Ok tt) -> fst (Signature_Parse C strict now h st) = st1.
Proof.
  unfold GetSignature. destruct (Signature_Parse C strict now h st) as [st2 [[]| | |]]; cbn [fst]; try (intros [= _ E]; exact E).
  - destruct (CheckBodyHash C (fst st2) v) as [v' r]. intros [= _ E _]. exact E.
Qed.
Lemma get_again C strict ty t w v now h st v1 st1 : in_use strict ty t w ->
  outcome_of (GetSignature C strict now h st w) = outcome_of (GetSignature C strict now h st v) ->
  GetSignature C strict now h st v = (v1, st1, Ok tt) -> exists w1, GetSignature C strict now h st w = (w1, st1, Ok tt) /\ in_use strict ty t w1.
Proof.
  intros W E G. destruct (GetSignature_spec C strict ty t w now h st W) as (w1 & U1 & X). exists w1.
  assert (Y : exists st2 r, GetSignature C strict now h st w = (w1, st2, r)).
  { destruct (Signature_Parse C strict now h st) as [st2 [[]| | |]]; eauto. }
  destruct Y as (st2 & r & Y). rewrite Y, G in E. unfold outcome_of in E. cbn [fst snd] in E. injection E as -> ->. auto.
Qed.


(** From a message [t2] in which the verdicts are those of the signed message, to the message with
    lines in front of it. *)
Lemma front_accepted C strict clock o t y H m s t2 v v2 ls p v' fields hs :
  ~ starts_wsp t -> parse_all new_message (open_str t) = Ok (m, s) ->
  CreateSignature C strict clock o (new_signatory (open_str t)) = (y, Ok H) ->
  Forall (sound_options strict o) (all_signatures o) -> sound_fields h_name o (m_headers m) ->
  new_validatory strict (sig_type o) (open_str (H ++ CRLF ++ t)) = Ok v -> m_headers (v_msg v) = map header_of fields ++ m_headers m ->
  new_validatory strict (sig_type o) (open_str t2) = Ok v2 -> m_headers (v_msg v2) = map header_of fields ++ hs ->
  Forall2 (fun f f' => same_name (h_name f) (h_name f') = true) (m_headers m) hs ->
  (forall now h st, sg_cbody (fst (fst (Signature_Parse C strict now h st))) = o_cbody o ->
     outcome_of (GetSignature C strict now h st v2) = outcome_of (GetSignature C strict now h st v)) ->
  (forall h g k, sg_chead g = o_chead o -> CheckSignature C strict h g k v2 = CheckSignature C strict h g k v) ->
  at_field t2 -> header_block ls p -> new_validatory strict (sig_type o) (open_str (p ++ t2)) = Ok v' ->
  arrives_signed C strict clock o (p ++ t2) ls fields hs v'.
Proof.
  intros NW PA CS SO SF NV HV NV2 HV2 SN GE CE AT HB NV'.
  destruct (round_trip _ _ _ _ _ _ _ _ _ NW PA CS SO SF) as (v0 & fields0 & NV0 & EH & HV0 & SV0 & LF & K). rewrite NV in NV0. apply Ok_inj in NV0. subst v0.
  assert (EF : map header_of fields0 = map header_of fields) by (rewrite HV0 in HV; apply app_inv_tail in HV; exact HV).
  destruct (front_kept C strict (sig_type o) t2 ls p v2 v' HB AT (sig_type_some o) NV2 NV') as (added & EA & EL & (more & EM & IM) & GK & CK).
  pose proof (new_validatory_spec _ _ _ _ NV2) as (m2 & s2 & _ & M2 & _ & S2).
  assert (FW : filter (wanted (sig_type o)) (map header_of fields) = map header_of fields).
  { pose proof (new_validatory_spec _ _ _ _ NV) as (m1 & s1 & _ & M1 & _ & S1). rewrite SV0, <- M1, HV, filter_app, EF in S1.
    apply app_inv_tail in S1. symmetry. exact S1. }
  exists added, more. split; [rewrite EA, HV2; reflexivity|]. split; [exact EL|].
  split; [rewrite EM, S2, <- M2, HV2, filter_app, FW; reflexivity|]. split; [exact IM|].
  intros NOV i q NQ. destruct (K i q NQ) as (h & NH & J). exists h.
  assert (LI : i < length (map header_of fields)).
  { rewrite <- EF, map_length, LF, <- (rev_length (all_signatures o)). apply nth_error_Some. congruence. }
  assert (NF : nth_error (map header_of fields) i = Some h) by (rewrite SV0, EF, nth_error_app1 in NH; auto).
  split.
  { rewrite EM, nth_error_app2 by lia. replace (length more + i - length more) with i by lia. rewrite S2, <- M2, HV2, filter_app, FW, nth_error_app1; auto. }
  split; [exact NF|]. intros w k now e0 W SV SM EX E0.
  destruct (J v k now e0 (in_use_fresh _ _ _ _ NV) SV SM EX E0) as (v3 & g & e1 & GS & CS' & _ & _ & KQ & LN & CH & CB).
  pose proof (get_state _ _ _ _ _ _ _ _ GS) as PS.
  pose proof (in_use_fresh _ _ _ _ NV') as U'.
  destruct (get_again C strict (sig_type o) (p ++ t2) w v now h (new_signature, e0) v3 (g, e1) W) as (w2 & GW & W2); [|exact GS|].
  { rewrite (get_use C strict (sig_type o) (p ++ t2) v' w now h _ U' W), GK. apply GE. rewrite PS. exact CB. }
  exists w2, g, e1. split; [exact GW|]. split; [|exact KQ].
  rewrite (CheckSignature_use C strict (sig_type o) (p ++ t2) w2 v' h g k W2 U'), CK.
  - rewrite (CE h g k CH). destruct (GetSignature_spec C strict (sig_type o) _ v now h (new_signature, e0) (in_use_fresh _ _ _ _ NV)) as (v4 & U4 & X).
    assert (v4 = v3) as ->. { revert X. rewrite GS. destruct (Signature_Parse C strict now h (new_signature, e0)) as [st1 [[]| | |]]; intros X; injection X; auto. }
    rewrite <- CS'. eapply CheckSignature_use; [apply in_use_fresh; exact NV|exact U4].
  - intros f IF. rewrite LN, HV2, filter_app, app_length. rewrite <- (same_counts _ _ _ SN).
    pose proof (listed_once o (m_headers m) (h_name f) (fun n IN => NOV f n IF IN)). lia.
Qed.

Lemma signed_begins C strict clock o t y H m s : ~ starts_wsp t -> parse_all new_message (open_str t) = Ok (m, s) ->
  CreateSignature C strict clock o (new_signatory (open_str t)) = (y, Ok H) ->
  Forall (sound_options strict o) (all_signatures o) -> sound_fields h_name o (m_headers m) ->
  exists fields, H = joined fields /\ fields <> [] /\ Forall (fun x => folded_text x /\ begins_own x) fields /\ length fields = length (all_signatures o) /\
    H ++ CRLF ++ t = with_crlf fields ++ t /\
    exists v, new_validatory strict (sig_type o) (open_str (H ++ CRLF ++ t)) = Ok v /\ m_headers (v_msg v) = map header_of fields ++ m_headers m.
Proof.
  intros NW PA CS SO SF. destruct (signed_parts _ _ _ _ _ _ _ _ _ NW PA CS (plain_sounds _ _ _ SO) (signed_names_signable _ _ SF)) as (b & out & outs & Hs & m' & SM).
  destruct (round_trip _ _ _ _ _ _ _ _ _ NW PA CS SO SF) as (v & fields & NV & EH & HV & _ & LF & _).
  assert (fields = Hs) as ->.
  { pose proof (new_validatory_spec _ _ _ _ NV) as (m1 & s1 & P1 & M1 & _ & _). destruct (sm_parse _ _ _ _ _ _ _ _ _ _ _ _ SM) as (s' & P').
    rewrite P' in P1. apply Ok_inj in P1. injection P1 as -> ->. rewrite M1, (sm_headers _ _ _ _ _ _ _ _ _ _ _ _ SM) in HV. apply app_inv_tail in HV.
    assert (X : map h_text (map header_of Hs) = map h_text (map header_of fields)) by (rewrite HV; reflexivity).
    rewrite !map_map in X. rewrite !(map_ext (fun x => h_text (header_of x)) (fun x => x)), !map_id in X by (intros; apply header_of_text). congruence. }
  exists Hs. assert (NE : Hs <> []) by (intros ->; cbn in LF; unfold all_signatures in LF; cbn in LF; lia).
  split; auto. split; auto. split; [exact (sm_lines _ _ _ _ _ _ _ _ _ _ _ _ SM)|]. split; auto. split; [rewrite EH, app_assoc, joined_crlf by auto; reflexivity|]. eauto.
Qed.
Lemma first_byte (Hs : list bytes) t : Hs <> [] -> Forall (fun x => folded_text x /\ begins_own x) Hs ->
  exists c r, with_crlf Hs ++ t = c :: r /\ ~ WSP c /\ c <> CR /\ c <> LF.
Proof.
  intros NE F. destruct Hs as [|x l]; [congruence|]. inversion F as [|? ? [(l1 & g & EJ & NL & _) (c & r & -> & NW & NC)] F']; subst.
  exists c. eexists. split; [reflexivity|]. split; auto. split; auto. intros ->. destruct l1 as [|c1 l1].
  - destruct g as [|l2 g]; cbn [joined app] in EJ; [discriminate EJ|]. unfold CRLF in EJ. cbn [app] in EJ. discriminate EJ.
  - destruct g as [|l2 g]; cbn [joined app] in EJ; injection EJ as <- _; apply NL; left; reflexivity.
Qed.
Lemma same_name_sym a b : same_name a b = true -> same_name b a = true.
Proof. unfold same_name. intros E. apply beqb_eq in E. rewrite E. apply beqb_refl. Qed.
Lemma same_name_id a : same_name a a = true.
Proof. unfold same_name. apply beqb_refl. Qed.

(** ** Other line ends *)
Lemma sent_ends C strict clock o t y H m s t2 ls p v' : ~ starts_wsp t -> parse_all new_message (open_str t) = Ok (m, s) ->
  CreateSignature C strict clock o (new_signatory (open_str t)) = (y, Ok H) ->
  Forall (sound_options strict o) (all_signatures o) -> sound_fields h_name o (m_headers m) ->
  other_line_ends (H ++ CRLF ++ t) t2 -> header_block ls p -> new_validatory strict (sig_type o) (open_str (p ++ t2)) = Ok v' ->
  exists fields, H = joined fields /\ length fields = length (all_signatures o) /\
    arrives_signed C strict clock o (p ++ t2) ls fields (m_headers m) v'.
Proof.
  intros NW PA CS SO SF OE HB NV'. destruct (signed_begins _ _ _ _ _ _ _ _ _ NW PA CS SO SF) as (fields & EH & NE & FO & LF & ET & v & NV & HV).
  exists fields. split; auto. split; auto.
  destruct (ends_kept C strict (sig_type o) _ t2 v OE (sig_type_some o) NV) as (v2 & NV2 & HM & _ & GK & CK).
  apply (front_accepted C strict clock o t y H m s t2 v v2 ls p v' fields (m_headers m)); auto.
  - rewrite HM. exact HV.
  - clear. induction (m_headers m); constructor; auto. apply same_name_id.
  - rewrite ET in OE. destruct (first_byte fields t NE FO) as (c & r & EB & NC & NR & NL). rewrite EB in OE. clear - OE NC NR NL.
    remember (c :: r) as T eqn:ETT. destruct OE as [hl h h' e e' b b' B B' LE LE' _].
    destruct B as [|l ls e1 t1 NL1 NE1 LE1 B1].
    + exfalso. cbn [app] in ETT. inversion LE; subst; unfold CRLF in ETT; cbn [app] in ETT; injection ETT as E1 _; congruence.
    + inversion B' as [|? ? e2 t2' ? ? ? ?]; subst. destruct l as [|c1 l]; [congruence|]. cbn [app] in ETT. injection ETT as -> _. exact NC.
Qed.

(** ** Refolding *)
Lemma plain_same strict a b : same_name a b = true -> plain_name strict a -> plain_name strict b.
Proof.
  unfold plain_name. destruct strict; [|auto]. cbn [andb]. unfold same_name. intros E. apply beqb_eq in E. rewrite !map_low in E.
  assert (X : forall l, existsb is_8bit (lower l) = existsb is_8bit l).
  { induction l as [|c l IH]; [reflexivity|]. cbn [lower map existsb]. unfold lower in IH. rewrite IH. f_equal.
    assert (Y : forall c, Bool.eqb (is_8bit (tolower c)) (is_8bit c) = true) by (apply byte_sweep; vm_compute; reflexivity). apply Bool.eqb_prop, Y. }
  rewrite <- (X a), <- (X b), E. auto.
Qed.
Lemma sent_refolded C strict clock o t y H m s t' m' s' b b' ls p v' : ~ starts_wsp t -> parse_all new_message (open_str t) = Ok (m, s) ->
  CreateSignature C strict clock o (new_signatory (open_str t)) = (y, Ok H) ->
  Forall (sound_options strict o) (all_signatures o) -> sound_fields h_name o (m_headers m) ->
  o_chead o = RELAXED -> o_cbody o = RELAXED ->
  ~ starts_wsp t' -> parse_all new_message (open_str t') = Ok (m', s') ->
  Forall2 (fun f f' => same_name (h_name f) (h_name f') = true /\ (h_text f = h_text f' \/ same_field (h_text f) (h_text f'))) (m_headers m) (m_headers m') ->
  message_body t b -> message_body t' b' -> same_words b b' ->
  header_block ls p -> new_validatory strict (sig_type o) (open_str (p ++ H ++ CRLF ++ t')) = Ok v' ->
  exists fields, H = joined fields /\ length fields = length (all_signatures o) /\
    arrives_signed C strict clock o (p ++ H ++ CRLF ++ t') ls fields (m_headers m') v'.
Proof.
  intros NW PA CS SO SF RH RB NW' PA' F2 MB MB' SW HB NV'.
  destruct (signed_begins _ _ _ _ _ _ _ _ _ NW PA CS SO SF) as (fields & EH & NE & FO & LF & ET & v & NV & HV).
  exists fields. split; auto. split; auto.
  assert (ET' : H ++ CRLF ++ t' = with_crlf fields ++ t') by (rewrite EH, app_assoc, joined_crlf by auto; reflexivity).
  pose proof (validatory_plain _ _ _ _ NV (sig_type_some o)) as PN. rewrite HV in PN. apply Forall_app in PN as [PN1 PN2].
  destruct (prefix_parse fields t' m' s' FO NW' PA') as (m2 & s2 & P2 & H2). rewrite <- ET' in P2.
  assert (PN' : Forall (fun f => plain_name strict (h_name f)) (m_headers m')).
  { clear - F2 PN2. induction F2 as [|f f' l l' [SN _] F IH]; inversion PN2; subst; constructor; auto. eapply plain_same; eauto. }
  destruct (validatory_plain_iff strict (sig_type o) _ m2 s2 P2 (sig_type_some o)) as (v2 & NV2); [rewrite H2; apply Forall_app; auto|].
  pose proof (new_validatory_spec _ _ _ _ NV2) as (m3 & s3 & P3 & M3 & _ & _). rewrite P2 in P3. apply Ok_inj in P3. injection P3 as <- <-.
  destruct (refolding_kept C strict (sig_type o) (H ++ CRLF ++ t) (H ++ CRLF ++ t') v v2 b b' (sig_type_some o) NV NV2) as [GK CK].
  - rewrite ET. apply prefix_body; auto.
  - rewrite ET'. apply prefix_body; auto.
  - exact SW.
  - rewrite HV, M3, H2. apply Forall2_app; [|exact F2]. clear. induction fields; constructor; auto. split; [apply same_name_id|left; reflexivity].
  - apply (front_accepted C strict clock o t y H m s (H ++ CRLF ++ t') v v2 ls p v' fields (m_headers m')); auto.
    + rewrite M3. exact H2.
    + clear - F2. induction F2 as [|f f' l l' [SN _] F IH]; constructor; auto.
    + intros now h st E. apply GK. congruence.
    + intros h g k E. apply CK. congruence.
    + rewrite ET'. destruct (first_byte fields t' NE FO) as (c & r & -> & NC & _). exact NC.
Qed.
