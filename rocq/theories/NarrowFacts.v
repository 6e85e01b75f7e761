(** Platforms with a narrow long (for C114). *)
From Verif Require Import Bytes Outcome Stream Tokenizer TagList MailParser Canonicalization Util CStdlib Crypto Signature Validatory BytesFacts StreamFacts SpecText SpecTags SpecMail SpecCanon SpecVerify SpecSig SpecParse
  TagListFacts SigFacts SigProps VerifyFacts VerifyProps SpecPass PassFacts SpecReuse ReuseFacts SpecLooked LookedFacts Narrow SpecNarrow Outcome.
Local Open Scope string_scope. Local Open Scope list_scope.

Lemma bind_ext2 {S} (x x' : S * outcome unit) (k k' : S -> S * outcome unit) : x = x' -> (forall s, k s = k' s) -> sbind x k = sbind x' k'.
Proof. intros -> K. destruct x' as [s [u| | |]]; cbn [sbind]; auto. Qed.
(** The usual platform. *)
Lemma wide_ul s : strtoul_long wide_max s = strtoul s. Proof. reflexivity. Qed.
Lemma wide_l s : strtol_long wide_max s = strtol s. Proof. reflexivity. Qed.
Lemma wide_parse C strict now h st : Signature_Parse_long wide_max C strict now h st = Signature_Parse C strict now h st.
Proof.
  unfold Signature_Parse_long, Signature_Parse. do 9 (apply bind_ext2; [reflexivity|intros ?s]).
  apply bind_ext2.
  { unfold parse_i_long, parse_i. destruct (sg_arc _); reflexivity. }
  intros s10. apply bind_ext2.
  { unfold parse_l_long, parse_l. destruct (tag "l" s10) as [l|]; [|reflexivity]. destruct (Nat.ltb _ _); [reflexivity|]. rewrite wide_ul.
    destruct (strtoul (te_value l)) as [[n r] er]. replace (wide_max <? n)%N with (9223372036854775808 <=? n)%N; [reflexivity|].
    unfold wide_max. destruct (N.leb_spec 9223372036854775808 n), (N.ltb_spec 9223372036854775807 n); auto; lia. }
  intros s11. do 2 (apply bind_ext2; [reflexivity|intros ?s]). reflexivity.
Qed.

Definition alike (r r' : sig_st * outcome unit) : Prop := snd r' = snd r /\ (snd r = Ok tt -> fst (fst r') = fst (fst r)).
Lemma alike_refl r : alike r r. Proof. split; auto. Qed.
Lemma bind_alike x x' k k' : (x' = x \/ snd x = perm /\ snd x' = perm) -> (forall s, x = (s, Ok tt) -> alike (k s) (k' s)) -> alike (sbind x k) (sbind x' k').
Proof.
  intros [->|[A B]] K.
  - destruct x as [s [[]| | |]]; cbn [sbind]; [apply K; reflexivity|apply alike_refl..].
  - destruct x as [s o], x' as [s' o']. cbn [snd] in *. subst. cbn [sbind perm]. split; [reflexivity|discriminate].
Qed.
Section Same.
Variable T : taglist.
Hypothesis GT : good_tags T.
Hypothesis HL : forall v neg m, V T "l" = Some v -> starts_number v neg m -> neg = false /\ (m <= narrow_max)%N.
Hypothesis HI : forall v neg m, V T "i" = Some v -> starts_number v neg m -> neg = false.
Lemma tag_V st n e : sg_tags (fst st) = T -> tag n st = Some e -> V T n = Some (te_value e).
Proof. intros <- E. unfold V. unfold tag in E. rewrite E. reflexivity. Qed.
Lemma same_l st : sg_tags (fst st) = T -> parse_l_long narrow_max st = parse_l st.
Proof.
  intros E. unfold parse_l_long, parse_l. destruct (tag "l" st) as [l|] eqn:TG; [|reflexivity]. apply (tag_V _ _ _ E) in TG. pose proof (GT _ _ TG) as TV.
  destruct (Nat.ltb _ _); [reflexivity|]. unfold strtoul_long, strtoul. rewrite (tag_value_c_str _ TV). pose proof (strto_scan_spec _ TV) as SC.
  destruct (strto_scan (te_value l)) as [[[neg m] r]|].
  - destruct SC as (t & Et & SN & R). destruct (HL _ neg m TG) as [-> B]; [exists t, r; auto|].
    destruct (N.ltb_spec (2 * narrow_max + 1) m) as [X|_]; [unfold narrow_max in *; lia|].
    destruct (N.ltb_spec ULONG_MAX m) as [X|_]; [unfold narrow_max, ULONG_MAX in *; lia|].
    destruct (N.ltb_spec narrow_max m) as [X|_]; [unfold narrow_max in *; lia|].
    destruct (N.leb_spec 9223372036854775808 m) as [X|_]; [unfold narrow_max in *; lia|]. reflexivity.
  - reflexivity.
Qed.
Lemma same_i strict st : sg_tags (fst st) = T -> parse_i_long narrow_max strict st = parse_i strict st \/ snd (parse_i strict st) = perm /\ snd (parse_i_long narrow_max strict st) = perm.
Proof.
  intros E. unfold parse_i_long. destruct (sg_arc (fst st)) eqn:A; [|auto]. unfold parse_i. rewrite A. destruct (tag "i" st) as [i|] eqn:TG; [|auto].
  apply (tag_V _ _ _ E) in TG. pose proof (GT _ _ TG) as TV. unfold strtoul_long, strtoul. rewrite (tag_value_c_str _ TV). pose proof (strto_scan_spec _ TV) as SC.
  destruct (strto_scan (te_value i)) as [[[neg m] r]|]; [|auto].
  destruct SC as (t & Et & SN & R). assert (neg = false) as -> by (apply (HI _ neg m TG); exists t, r; auto).
  destruct (N.ltb_spec (2 * narrow_max + 1) m) as [X|X].
  - right. destruct (N.ltb_spec ULONG_MAX m) as [Y|Y]; cbn [snd fst]; [split; reflexivity|]. split; [|reflexivity].
    destruct (N.ltb_spec 50 m) as [Z|Z]; [rewrite Bool.orb_true_r; reflexivity|unfold narrow_max in X; lia].
  - left. destruct (N.ltb_spec ULONG_MAX m) as [Y|Y]; [unfold narrow_max, ULONG_MAX in *; lia|]. reflexivity.
Qed.
Lemma same_x now st : (0 <= now <= Z.of_N narrow_max)%Z -> sg_tags (fst st) = T -> alike (parse_x now st) (parse_x_long narrow_max now st).
Proof.
  intros B E. unfold parse_x_long, parse_x. destruct (tag "x" st) as [x|] eqn:TG; [|apply alike_refl]. unfold strtol_long, strtol.
  destruct (strto_scan (c_str (te_value x))) as [[[neg m] r]|]; [|apply alike_refl].
  cbv zeta. generalize (if neg then (- Z.of_N m)%Z else Z.of_N m). intros z. unfold narrow_max in *. change (Z.of_N 2147483647) with 2147483647%Z in *. unfold LONG_MAX, LONG_MIN.
  assert (X : forall a er b er', (a <? now)%Z = (b <? now)%Z ->
    alike (let '(v, erange) := (a, er) in if (v <? now)%Z then fail_perm (fst st, snd st || erange) else done (fst st, snd st || erange))
      (let '(v, erange) := (b, er') in if (v <? now)%Z then fail_perm (fst st, snd st || erange) else done (fst st, snd st || erange))).
  { intros a er b er' ->. cbv iota beta. destruct (b <? now)%Z; split; cbn; auto; discriminate. }
  repeat match goal with |- context [if (?a <? ?b)%Z then (_, _) else _] => destruct (Z.ltb_spec a b) end; try lia; apply X;
    match goal with |- (?a <? ?c)%Z = (?b <? ?c)%Z => destruct (Z.ltb_spec a c), (Z.ltb_spec b c) end; auto; lia.
Qed.
End Same.

Lemma narrow_same C strict now h l e : (0 <= now <= Z.of_N narrow_max)%Z -> field_tags h l -> modest_numbers l ->
  alike (Signature_Parse C strict now h (new_signature, e)) (Signature_Parse_long narrow_max C strict now h (new_signature, e)).
Proof.
  intros B (LE & R & N) [ML MI]. destruct (tags_taken [] l _ R N) as (T & P & HE & GE & FN); [intros n _ []|]. cbn [app] in P.
  assert (NT : NoDup (keys T)) by (rewrite <- held_names, HE; exact N).
  assert (HL : forall v neg m, V T "l" = Some v -> starts_number v neg m -> neg = false /\ (m <= narrow_max)%N).
  { intros v neg m Ev. apply ML. rewrite <- HE. apply held_has; auto. }
  assert (HI : forall v neg m, V T "i" = Some v -> starts_number v neg m -> neg = false).
  { intros v neg m Ev. apply MI. rewrite <- HE. apply held_has; auto. }
  pose proof (good_V T GE) as GT.
  assert (PT : parse_tags h (new_signature, e) = ((set_tags T new_signature, e), Ok tt)).
  { unfold parse_tags, substr_from. apply Nat.leb_le in LE. rewrite LE. cbn [slift fst new_signature sg_tags]. rewrite P. reflexivity. }
  unfold Signature_Parse_long, Signature_Parse. rewrite PT. cbn [sbind].
  assert (E1 : sg_tags (fst (set_tags T new_signature, e)) = T) by reflexivity. revert E1. generalize (set_tags T new_signature, e). intros s1 E1.
  assert (K : forall (step : sig_st -> sig_st * outcome unit) k k' s0, same_tags step -> sg_tags (fst s0) = T -> (forall s, sg_tags (fst s) = T -> alike (k s) (k' s)) ->
    alike (sbind (step s0) k) (sbind (step s0) k')).
  { intros step k k' s0 ST E0 KK. apply bind_alike; [auto|]. intros s ES. apply KK. specialize (ST s0). rewrite ES in ST. cbn [fst] in ST. congruence. }
  apply (K (parse_arc strict (h_name h))); [unfold parse_arc; stays|exact E1|]. intros s2 E2.
  apply (K (parse_d strict)); [unfold parse_d; stays|exact E2|]. intros s3 E3.
  apply (K parse_v); [unfold parse_v; stays|exact E3|]. intros s4 E4.
  apply (K parse_a); [unfold parse_a; stays|exact E4|]. intros s5 E5.
  apply (K (parse_b C strict)); [unfold parse_b; stays|exact E5|]. intros s6 E6.
  apply (K (parse_bh C strict)); [unfold parse_bh; stays|exact E6|]. intros s7 E7.
  apply (K parse_c); [unfold parse_c; stays|exact E7|]. intros s8 E8.
  apply (K parse_h); [unfold parse_h; stays|exact E8|]. intros s9 E9.
  assert (SI : same_tags (parse_i strict)) by (unfold parse_i; stays).
  apply bind_alike; [eapply same_i; eauto|]. intros s10 ES. specialize (SI s9). rewrite ES in SI. cbn [fst] in SI. rewrite E9 in SI. rename SI into E10.
  assert (EL : parse_l_long narrow_max s10 = parse_l s10) by (eapply same_l; eauto). rewrite EL.
  apply (K parse_l); [unfold parse_l; stays|exact E10|]. intros s11 E11.
  apply (K parse_q); [unfold parse_q; stays|exact E11|]. intros s12 E12.
  apply (K parse_s); [unfold parse_s; stays|exact E12|]. intros s13 E13.
  eapply same_x; eauto.
Qed.
Lemma narrow_call C strict now h l e v : (0 <= now <= Z.of_N narrow_max)%Z -> field_tags h l -> modest_numbers l ->
  let r := GetSignature C strict now h (new_signature, e) v in let r' := GetSignature_long narrow_max C strict now h (new_signature, e) v in
  fst (fst r') = fst (fst r) /\ snd r' = snd r /\ (snd r = Ok tt -> fst (snd (fst r')) = fst (snd (fst r))).
Proof.
  intros B FT M. destruct (narrow_same C strict now h l e B FT M) as [A1 A2]. cbv zeta. unfold GetSignature, GetSignature_long.
  destruct (Signature_Parse C strict now h (new_signature, e)) as [st o], (Signature_Parse_long narrow_max C strict now h (new_signature, e)) as [st' o']. cbn [fst snd] in *. subst o'.
  destruct o as [[]| | |]; cbn [fst snd]; [|repeat split; discriminate..]. rewrite (A2 eq_refl). destruct (CheckBodyHash C (fst st) v) as [v1 r]. cbn [fst snd]. auto.
Qed.

(** Behind 2038. *)
Definition blocks (k : sig_st -> sig_st * outcome unit) (T : taglist) : Prop := forall st, sg_tags (fst st) = T -> snd (k st) <> Ok tt.
Lemma then_blocks step k T : same_tags step -> blocks k T -> blocks (fun st => sbind (step st) k) T.
Proof. intros S K st E. specialize (S st). destruct (step st) as [s [[]| | |]]; cbn [sbind snd]; try discriminate. apply K. cbn [fst] in S. congruence. Qed.
Lemma first_blocks (step k : sig_st -> sig_st * outcome unit) T : blocks step T -> blocks (fun st => sbind (step st) k) T.
Proof. intros S st E. specialize (S st E). destruct (step st) as [s [[]| | |]]; cbn [sbind snd] in *; try discriminate. congruence. Qed.
Lemma narrow_blocks C strict now h l e : field_tags h l ->
  (forall T, held T = l -> NoDup (keys T) -> good_tags T -> blocks (parse_l_long narrow_max) T \/ blocks (parse_x_long narrow_max now) T) ->
  snd (Signature_Parse_long narrow_max C strict now h (new_signature, e)) <> Ok tt.
Proof.
  intros (LE & R & N) BL. destruct (tags_taken [] l _ R N) as (T & P & HE & GE & FN); [intros n _ []|]. cbn [app] in P.
  assert (NT : NoDup (keys T)) by (rewrite <- held_names, HE; exact N).
  specialize (BL T HE NT (good_V T GE)).
  assert (PT : parse_tags h (new_signature, e) = ((set_tags T new_signature, e), Ok tt)).
  { unfold parse_tags, substr_from. apply Nat.leb_le in LE. rewrite LE. cbn [slift fst new_signature sg_tags]. rewrite P. reflexivity. }
  unfold Signature_Parse_long. rewrite PT. cbn [sbind].
  assert (E1 : sg_tags (fst (set_tags T new_signature, e)) = T) by reflexivity. revert E1. generalize (set_tags T new_signature, e).
  apply (then_blocks (parse_arc strict (h_name h))); [unfold parse_arc; stays|].
  apply (then_blocks (parse_d strict)); [unfold parse_d; stays|].
  apply (then_blocks parse_v); [unfold parse_v; stays|].
  apply (then_blocks parse_a); [unfold parse_a; stays|].
  apply (then_blocks (parse_b C strict)); [unfold parse_b; stays|].
  apply (then_blocks (parse_bh C strict)); [unfold parse_bh; stays|].
  apply (then_blocks parse_c); [unfold parse_c; stays|].
  apply (then_blocks parse_h); [unfold parse_h; stays|].
  apply (then_blocks (parse_i_long narrow_max strict)); [unfold parse_i_long, parse_i; stays|].
  destruct BL as [BL|BX]; [apply first_blocks; exact BL|].
  apply (then_blocks (parse_l_long narrow_max)); [unfold parse_l_long; stays|].
  apply (then_blocks parse_q); [unfold parse_q; stays|].
  apply (then_blocks parse_s); [unfold parse_s; stays|]. exact BX.
Qed.
Lemma V_tag' T n v st : sg_tags (fst st) = T -> V T n = Some v -> exists e, tag n st = Some e /\ te_value e = v.
Proof. intros <- E. unfold V in E. unfold tag. destruct (GetTag (str n) (sg_tags (fst st))) as [e|]; [|discriminate]. injection E as <-. eauto. Qed.
Lemma narrow_late C strict now h l v e : (Z.of_N narrow_max < now)%Z -> field_tags h l -> has l "x" v ->
  snd (Signature_Parse_long narrow_max C strict now h (new_signature, e)) <> Ok tt.
Proof.
  intros B FT HX. apply (narrow_blocks C strict now h l e FT). intros T HE NT _. right. intros st ET. rewrite <- HE in HX. apply (held_has T) in HX; [|exact NT].
  destruct (V_tag' _ _ _ _ ET HX) as (x & TG & _). unfold parse_x_long. rewrite TG. destruct (strtol_long narrow_max (te_value x)) as [z er] eqn:U.
  assert (ZB : (z <= Z.of_N narrow_max)%Z).
  { unfold strtol_long in U. destruct (strto_scan _) as [[[neg m] r]|]; [|injection U as <- _; unfold narrow_max; lia]. cbv zeta in U. revert U. generalize (if neg then (- Z.of_N m)%Z else Z.of_N m). intros y.
    destruct (Z.ltb_spec (Z.of_N narrow_max) y); [intros [= <- _]; unfold narrow_max; lia|]. destruct (Z.ltb_spec y (- Z.of_N narrow_max - 1)); intros [= <- _]; unfold narrow_max in *; lia. }
  cbv zeta. destruct (Z.ltb_spec z now); [discriminate|lia].
Qed.
Lemma narrow_length C strict now h l v e : field_tags h l -> has l "l" v -> digits v -> (narrow_max < dec_value v)%N ->
  snd (Signature_Parse_long narrow_max C strict now h (new_signature, e)) <> Ok tt.
Proof.
  intros FT HX DV B. apply (narrow_blocks C strict now h l e FT). intros T HE NT GT. left. intros st ET. rewrite <- HE in HX. apply (held_has T) in HX; [|exact NT].
  destruct (V_tag' _ _ _ _ ET HX) as (x & TG & Ev). unfold parse_l_long. rewrite TG, Ev. destruct (Nat.ltb _ _); [discriminate|].
  unfold strtoul_long. rewrite (digits_c_str v DV). rewrite <- (app_nil_r v), (strto_scan_digits v [] DV Logic.I).
  destruct (N.ltb_spec (2 * narrow_max + 1) (dec_value v)); cbv beta iota zeta; cbn [snd fst].
  - rewrite Bool.orb_true_r. discriminate.
  - rewrite Bool.orb_false_r. destruct (snd st); [discriminate|]. destruct (N.ltb_spec narrow_max (dec_value v)); [discriminate|lia].
Qed.
