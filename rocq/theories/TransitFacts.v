(** Relays: which changes to a message leave the verdicts on its signatures alone. *)
From Verif Require Import Bytes Outcome Stream Tokenizer QuotedPrintable Base64 TagList MailParser Canonicalization Util CStdlib Crypto
  Signature PublicKey SignatoryOptions Signatory Validatory BytesFacts StreamFacts SpecText SpecTags SpecMail SpecCanon SpecVerify SpecSig SpecTransit QPFacts
  Base64Facts ListFacts MailFacts BodyFacts BodyProps HeaderFacts HeaderProps SelectFacts TagListFacts SigFacts SigProps VerifyFacts VerifyProps
  SignNumbers SignText SignFacts SignMail.

(** ** The fields of a message with a block in front *)
Lemma add_lines_front ls : forall m m1 pre, m_tmp m1 = m_tmp m -> m_headers m1 = pre ++ m_headers m ->
  all_headers (fold_left add_line ls m1) = pre ++ all_headers (fold_left add_line ls m).
Proof.
  induction ls as [|l ls IH]; intros m m1 pre ET EH; cbn [fold_left].
  - unfold all_headers. rewrite ET, EH, app_assoc. reflexivity.
  - apply IH; destruct l as [|c l]; cbn [add_line]; auto; rewrite ?ET; destruct (is_wsp c); cbn [m_tmp m_headers]; auto.
    rewrite EH, app_assoc. reflexivity.
Qed.
Lemma add_lines_at ls m : match ls with (c :: _) :: _ => ~ WSP c | _ => ls = [] end ->
  all_headers (fold_left add_line ls m) = all_headers m ++ all_headers (fold_left add_line ls new_message).
Proof.
  destruct ls as [|l ls]; [intros _; cbn; rewrite app_nil_r; reflexivity|]. destruct l as [|c l]; [discriminate|]. intros NW.
  assert (W : is_wsp c = false) by (destruct (is_wsp c) eqn:W; auto; apply is_wsp_WSP in W; tauto).
  cbn [fold_left]. rewrite !add_field_line by auto. apply add_lines_front; auto. cbn [m_headers]. unfold all_headers, new_message. cbn. rewrite app_nil_r. reflexivity.
Qed.
Lemma header_block_app ls h ls' h' : header_block ls h -> header_block ls' h' -> header_block (ls ++ ls') (h ++ h').
Proof. induction 1; auto. intros X. rewrite <- !app_assoc. cbn [app]. constructor; auto. Qed.

Lemma front_parse ls p t m s : header_block ls p -> at_field t -> parse_all new_message (open_str t) = Ok (m, s) ->
  exists m' s', parse_all new_message (open_str (p ++ t)) = Ok (m', s') /\
    m_headers m' = all_headers (fold_left add_line ls new_message) ++ m_headers m /\
    exists b, message_body t b /\ message_body (p ++ t) b.
Proof.
  intros HB AT P. destruct (message_shape (S (length t)) t ltac:(lia)) as (ls2 & h & rest & HB2 & -> & R).
  assert (A2 : match ls2 with (c :: _) :: _ => ~ WSP c | _ => ls2 = [] end).
  { destruct HB2 as [|l e ls2 t2 NL LF1 LE HB2]; auto. destruct l as [|c l]; [congruence|]. cbn in AT. exact AT. }
  destruct R as [(e & b & LE & ->)|N].
  - destruct (parse_blank ls2 h e b HB2 LE) as (m1 & s1 & P1 & _ & H1 & _). rewrite P in P1. apply Ok_inj in P1. injection P1 as <- <-.
    destruct (parse_blank _ _ e b (header_block_app _ _ _ _ HB HB2) LE) as (m2 & s2 & P2 & _ & H2 & _).
    rewrite <- app_assoc in P2. exists m2, s2. split; [exact P2|]. rewrite H1, H2, fold_left_app. split; [apply add_lines_at; auto|].
    exists b. split; [econstructor; eauto|]. rewrite app_assoc. eapply mb_blank; eauto. apply (header_block_app _ _ _ _ HB HB2).
  - destruct (parse_unended ls2 h rest HB2 N) as (m1 & s1 & P1 & _ & _ & H1). rewrite P in P1. apply Ok_inj in P1. injection P1 as <- <-.
    destruct (parse_unended _ _ rest (header_block_app _ _ _ _ HB HB2) N) as (m2 & s2 & P2 & _ & _ & H2).
    rewrite <- app_assoc in P2. exists m2, s2. split; [exact P2|]. rewrite H1, H2, <- app_assoc, fold_left_app. split.
    + apply add_lines_at. destruct ls2 as [|[|c l] ls2]; [|discriminate A2|exact A2]. cbn [app]. destruct (chop_cr rest) as [|c l] eqn:CH; auto.
      inversion HB2; subst. cbn [app] in AT. destruct rest as [|c1 rest]; [discriminate CH|].
      assert (c1 = c) as ->; [|exact AT]. unfold chop_cr in CH. destruct (rev (c1 :: rest)) as [|z r] eqn:RV; [injection CH as -> _; reflexivity|].
      destruct (z =?c CR); [|injection CH as -> _; reflexivity]. apply (f_equal (@rev _)) in RV. rewrite rev_involutive in RV. cbn [rev] in RV.
      rewrite CH in RV. injection RV as -> _. reflexivity.
    + exists []. split; [econstructor; eauto|]. rewrite app_assoc. eapply mb_none; eauto. apply (header_block_app _ _ _ _ HB HB2).
Qed.

(** ** The hashed fields *)
Definition alike strict mode (f f' : header) : Prop :=
  lower (h_name f) = lower (h_name f') /\ FilterHeader strict mode (h_text f) = FilterHeader strict mode (h_text f').
(** For each name still to come: the two caches hold alike fields, up to fields out of reach. *)
Definition caches_alike strict mode (names : list bytes) (c c' : cache) : Prop :=
  forall n, In n names -> exists pre l', lookup (lower n) c' = pre ++ l' /\ Forall2 (alike strict mode) (lookup (lower n) c) l' /\
    (pre = [] \/ occurrences n names <= length (lookup (lower n) c)).

Lemma Forall2_snoc {A B} (R : A -> B -> Prop) q h l : Forall2 R (q ++ [h]) l -> exists q' h', l = q' ++ [h'] /\ R h h' /\ Forall2 R q q'.
Proof.
  intros F. apply Forall2_app_inv_l in F as (q' & x & F & FX & ->). inversion FX as [|? h' ? y AL NI]; subst. inversion NI; subst. exists q', h'. auto.
Qed.
Lemma hash_alike strict mode names : forall c c', caches_alike strict mode names c c' ->
  hash_headers strict mode names c' = hash_headers strict mode names c.
Proof.
  induction names as [|n names IH]; intros c c' CA; [reflexivity|]. cbn [hash_headers].
  destruct (lower_str strict n) as [n'| | |] eqn:LS; cbn [obind]; auto.
  assert (n' = lower n) as ->. { unfold lower_str in LS. destruct (strict && existsb is_8bit n); [discriminate|]. injection LS as <-. reflexivity. }
  pose proof (CA n (or_introl eq_refl)) as (pre & l' & E & F2 & RE).
  assert (OS : forall m, occurrences m (n :: names) = (if same_name m n then 1 else 0) + occurrences m names).
  { intros m. unfold occurrences. cbn [filter]. destruct (same_name m n); reflexivity. }
  assert (SAME : forall m, same_name m n = true -> lower m = lower n) by (intros m S; apply beqb_eq in S; exact S).
  assert (OTHER : forall m, same_name m n = false -> lower m <> lower n).
  { intros m S EQ. unfold same_name in S. change (map low m) with (lower m) in S. change (map low n) with (lower n) in S. rewrite EQ, beqb_refl in S. discriminate. }
  pose proof (cache_pop_lookup (lower n) c) as P. pose proof (cache_pop_lookup (lower n) c') as P'.
  destruct (cache_pop (lower n) c) as [[h c1]|].
  - destruct P as (q & A & B & D). rewrite A in F2. apply Forall2_snoc in F2 as (q' & h' & -> & AL & F2).
    destruct (cache_pop (lower n) c') as [[h1 c1']|]; [|rewrite P', app_assoc in E; destruct (pre ++ q'); discriminate E].
    destruct P' as (q1 & A' & B' & D'). rewrite A', app_assoc in E. apply app_inj_tail in E as [E1 ->].
    destruct AL as [_ FE]. rewrite FE. destruct (FilterHeader strict mode (h_text h')) as [x| | |]; cbn [obind]; auto.
    rewrite (IH c1 c1'); [reflexivity|]. intros m IM. specialize (CA m (or_intror IM)) as (pre2 & l2 & E2 & F22 & RE2). rewrite OS in RE2.
    destruct (same_name m n) eqn:S.
    + rewrite (SAME m S) in *. rewrite B, B'. rewrite A' in E2. rewrite A in F22, RE2.
      apply Forall2_snoc in F22 as (r' & h2 & -> & AL2 & F22).
      rewrite app_assoc in E2. apply app_inj_tail in E2 as [E2 _]. exists pre2, r'. split; auto. split; auto.
      destruct RE2 as [->|RE2]; auto. right. rewrite app_length in RE2. cbn [length] in RE2. lia.
    + rewrite D, D' by auto. exists pre2, l2. split; auto.
  - rewrite P in F2. inversion F2; subst. rewrite P in RE.
    assert (pre = []) as ->. { destruct RE as [->|RE]; auto. rewrite OS, same_name_refl in RE. cbn in RE. lia. }
    cbn [app] in E. destruct (cache_pop (lower n) c') as [[h1 c1']|]; [destruct P' as (q1 & A' & _); rewrite A' in E; destruct q1; discriminate E|].
    apply IH. intros m IM. specialize (CA m (or_intror IM)) as (pre2 & l2 & E2 & F22 & RE2). rewrite OS in RE2. exists pre2, l2. split; auto. split; auto.
    destruct RE2 as [->|RE2]; auto. right. lia.
Qed.

Lemma filter_alike strict mode hs hs' n : Forall2 (alike strict mode) hs hs' ->
  Forall2 (alike strict mode) (filter (fun h => beqb (lower (h_name h)) n) hs) (filter (fun h => beqb (lower (h_name h)) n) hs').
Proof.
  induction 1 as [|h h' hs hs' AL F IH]; [constructor|]. cbn [filter]. rewrite (proj1 AL). destruct (beqb _ n); auto.
Qed.
Lemma same_name_lower a b : same_name a b = beqb (lower a) (lower b).
Proof. reflexivity. Qed.
Lemma occurrences_same a b names : lower a = lower b -> occurrences a names = occurrences b names.
Proof. intros E. unfold occurrences. f_equal. apply filter_ext. intros x. rewrite !same_name_lower, E. reflexivity. Qed.

Lemma signed_alike strict h g v v' added hs' :
  Forall (fun f => plain_name strict (h_name f)) (m_headers (v_msg v)) -> Forall (fun f => plain_name strict (h_name f)) (m_headers (v_msg v')) ->
  m_headers (v_msg v') = added ++ hs' -> Forall2 (alike strict (sg_chead g)) (m_headers (v_msg v)) hs' ->
  out_of_reach h_name added (m_headers (v_msg v)) (sg_headers g) ->
  signed_data strict h g v' = signed_data strict h g v.
Proof.
  intros PN PN' E F2 OR. unfold signed_data.
  destruct (build_cache_ok strict _ PN) as (c & B & _). destruct (build_cache_ok strict _ PN') as (c' & B' & _). rewrite B, B'. cbn [obind].
  assert (X : hash_headers strict (sg_chead g) (sg_headers g) c' = hash_headers strict (sg_chead g) (sg_headers g) c); [|rewrite X; reflexivity].
  apply hash_alike. intros n IN.
  apply build_cache_strict in B. apply build_cache_strict in B'.
  destruct (build_cache_lookup (m_headers (v_msg v)) []) as (c1 & B1 & L1). rewrite B in B1. apply Ok_inj in B1. subst c1.
  destruct (build_cache_lookup (m_headers (v_msg v')) []) as (c1 & B1 & L1'). rewrite B' in B1. apply Ok_inj in B1. subst c1.
  rewrite L1, L1'. cbn [lookup app]. rewrite E, filter_app. do 2 eexists. split; [reflexivity|]. split; [apply filter_alike; exact F2|].
  destruct (filter (fun h0 => beqb (lower (h_name h0)) (lower n)) added) as [|f r] eqn:FA; auto. right.
  assert (IF : In f added /\ beqb (lower (h_name f)) (lower n) = true) by (apply (filter_In (fun h0 => beqb (lower (h_name h0)) (lower n))); rewrite FA; left; reflexivity).
  destruct IF as [IF EQ]. apply beqb_eq in EQ. specialize (OR f IF). rewrite (occurrences_same _ n _ EQ) in OR.
  etransitivity; [exact OR|]. apply Nat.eq_le_incl. f_equal. apply filter_ext. intros x. rewrite same_name_lower, EQ. reflexivity.
Qed.

(** ** Names after construction *)
Lemma collect_plain strict w hs l : collect strict w hs = Ok l -> Forall (fun f => plain_name strict (h_name f)) hs.
Proof.
  revert l. induction hs as [|h hs IH]; intros l; cbn [collect]; [constructor|].
  destruct (lower_str strict (h_name h)) as [n| | |] eqn:LS; cbn [obind]; try discriminate.
  apply lower_str_Ok in LS as [_ PN]. destruct (collect strict w hs) as [l1| | |]; cbn [obind]; try discriminate. intros _. constructor; eauto.
Qed.
Lemma validatory_plain strict ty t v : new_validatory strict ty (open_str t) = Ok v -> ty <> V_NONE ->
  Forall (fun f => plain_name strict (h_name f)) (m_headers (v_msg v)).
Proof.
  intros NV TY. pose proof (new_validatory_spec _ _ _ _ NV) as (m & s & P & M & _ & _). rewrite M. clear M.
  revert NV. unfold new_validatory. rewrite P. cbn [obind].
  destruct ty; [| |congruence]; destruct (collect strict _ _) as [l| | |] eqn:CO; cbn [obind]; try discriminate; intros _; eapply collect_plain; eauto.
Qed.
Lemma validatory_plain_iff strict ty t m s : parse_all new_message (open_str t) = Ok (m, s) -> ty <> V_NONE ->
  Forall (fun f => plain_name strict (h_name f)) (m_headers m) -> exists v, new_validatory strict ty (open_str t) = Ok v.
Proof.
  intros P TY F. apply new_validatory_total. intros -> m1 s1 P1 _. rewrite P in P1. apply Ok_inj in P1. injection P1 as <- <-.
  eapply Forall_impl; [|exact F]. intros f PN. exact PN.
Qed.

(** ** The body hash *)
Lemma body_verdict C strict ty t v t' v' b b' g : in_use strict ty t v -> in_use strict ty t' v' -> message_body t b -> message_body t' b' ->
  (forall out, canonical_body (is_relaxed (sg_cbody g)) b out -> canonical_body (is_relaxed (sg_cbody g)) b' out) ->
  snd (CheckBodyHash C g v') = snd (CheckBodyHash C g v).
Proof.
  intros U U' MB MB' CB. destruct (canonical_exists (is_relaxed (sg_cbody g)) b) as (out & CO).
  destruct (CheckBodyHash_spec C strict ty t v g b out U MB CO) as (v1 & E1 & _).
  destruct (CheckBodyHash_spec C strict ty t' v' g b' out U' MB' (CB _ CO)) as (v2 & E2 & _). rewrite E1, E2. reflexivity.
Qed.
(** The signature object and the outcome. *)
Definition outcome_of {V S R} (x : V * S * R) : S * R := (snd (fst x), snd x).
Lemma get_verdict C strict ty t v t' v' b b' now h st :
  new_validatory strict ty (open_str t) = Ok v -> new_validatory strict ty (open_str t') = Ok v' -> message_body t b -> message_body t' b' ->
  (forall out mode, sg_cbody (fst (fst (Signature_Parse C strict now h st))) = mode ->
     canonical_body (is_relaxed mode) b out -> canonical_body (is_relaxed mode) b' out) ->
  outcome_of (GetSignature C strict now h st v') = outcome_of (GetSignature C strict now h st v).
Proof.
  intros NV NV' MB MB' CB. apply in_use_fresh in NV. apply in_use_fresh in NV'.
  destruct (GetSignature_spec C strict ty t v now h st NV) as (v1 & _ & E). destruct (GetSignature_spec C strict ty t' v' now h st NV') as (v2 & _ & E').
  destruct (Signature_Parse C strict now h st) as [st1 [[]| | |]]; rewrite E, E'; unfold outcome_of; cbn [fst snd]; auto.
  f_equal. eapply (body_verdict C strict ty t v t' v' b b'); eauto.
Qed.

(** ** Fields put in front *)
Definition field_at (f : header) (g : list bytes) : Prop := h_text f = joined g /\ named (h_text f) (h_name f) (h_voff f).
Lemma wanted_app ty a b : filter (wanted ty) (a ++ b) = filter (wanted ty) a ++ filter (wanted ty) b.
Proof. apply filter_app. Qed.

Lemma front_kept C strict ty t ls p v v' : header_block ls p -> at_field t -> ty <> V_NONE ->
  new_validatory strict ty (open_str t) = Ok v -> new_validatory strict ty (open_str (p ++ t)) = Ok v' ->
  exists added, m_headers (v_msg v') = added ++ m_headers (v_msg v) /\
    concat (map (fun f => h_text f ++ CRLF) added) = with_crlf ls /\
    (exists more, v_sigs v' = more ++ v_sigs v /\ incl more added) /\
    (forall now h st, outcome_of (GetSignature C strict now h st v') = outcome_of (GetSignature C strict now h st v)) /\
    (forall h g k, out_of_reach h_name added (m_headers (v_msg v)) (sg_headers g) ->
       CheckSignature C strict h g k v' = CheckSignature C strict h g k v).
Proof.
  intros HB AT TY NV NV'. pose proof (validatory_plain _ _ _ _ NV TY) as PN. pose proof (validatory_plain _ _ _ _ NV' TY) as PN'.
  pose proof (new_validatory_spec _ _ _ _ NV) as (m & s & P & M & _ & S). pose proof (new_validatory_spec _ _ _ _ NV') as (m' & s' & P' & M' & _ & S').
  destruct (front_parse ls p t m s HB AT P) as (m2 & s2 & P2 & EH & b & MB & MB'). rewrite P' in P2. apply Ok_inj in P2. injection P2 as <- <-.
  exists (all_headers (fold_left add_line ls new_message)). rewrite M, M'. split; [exact EH|]. split; [apply rejoin_fields; eapply header_block_nonempty; eauto|].
  split; [|split].
  - rewrite S, S', EH, wanted_app. eexists. split; [reflexivity|]. intros x IX. apply filter_In in IX. tauto.
  - intros now h st. eapply get_verdict; eauto.
  - intros h g k OR. unfold CheckSignature. rewrite (signed_alike strict h g v v' (all_headers (fold_left add_line ls new_message)) (m_headers m) PN PN'); auto.
    + rewrite M'. exact EH.
    + rewrite M. clear. induction (m_headers m); constructor; auto. split; reflexivity.
    + rewrite M. exact OR.
Qed.

(** ** Other line ends *)
Lemma canonical_same_lines r b b' out : same_lines b b' -> canonical_body r b out -> canonical_body r b' out.
Proof.
  intros (n & n' & E) CB.
  assert (W : forall x k, without_cr (x ++ concat (repeat [LF] k)) = without_cr x ++ repeat LF k).
  { intros x k. unfold without_cr. rewrite filter_app. f_equal. induction k as [|k IH]; [reflexivity|]. cbn [repeat concat app filter]. rewrite IH. reflexivity. }
  assert (FE : forall k, Forall (fun e => e = CRLF \/ e = [LF]) (repeat [LF] k)) by (intros k; apply Forall_forall; intros x IX; apply repeat_spec in IX; auto).
  destruct (canonical_exists r b') as (out' & CB').
  pose proof (canonical_blank_lines r b (repeat [LF] n) out (FE n) CB) as K. pose proof (canonical_blank_lines r b' (repeat [LF] n') out' (FE n') CB') as K'.
  eapply canonical_newlines in K; [|rewrite W, E, <- W; reflexivity]. 
  assert (out = out') as ->; auto. apply canonical_out in K, K'. congruence.
Qed.
Lemma ends_kept C strict ty t t' v : other_line_ends t t' -> ty <> V_NONE -> new_validatory strict ty (open_str t) = Ok v ->
  exists v', new_validatory strict ty (open_str t') = Ok v' /\ m_headers (v_msg v') = m_headers (v_msg v) /\ v_sigs v' = v_sigs v /\
    (forall now h st, outcome_of (GetSignature C strict now h st v') = outcome_of (GetSignature C strict now h st v)) /\
    (forall h g k, CheckSignature C strict h g k v' = CheckSignature C strict h g k v).
Proof.
  intros O TY NV. destruct O as [ls h h' e e' b b' HB HB' LE LE' SL].
  pose proof (validatory_plain _ _ _ _ NV TY) as PN. pose proof (new_validatory_spec _ _ _ _ NV) as (m & s & P & M & _ & S).
  destruct (parse_blank ls h e b HB LE) as (m1 & s1 & P1 & _ & H1 & _). rewrite P in P1. apply Ok_inj in P1. injection P1 as <- <-.
  destruct (parse_blank ls h' e' b' HB' LE') as (m' & s' & P' & _ & H' & _).
  assert (EH : m_headers m' = m_headers m) by congruence.
  destruct (validatory_plain_iff strict ty _ m' s' P' TY) as (v' & NV'); [rewrite EH, <- M; exact PN|].
  pose proof (new_validatory_spec _ _ _ _ NV') as (m2 & s2 & P2 & M2 & _ & S2). rewrite P' in P2. apply Ok_inj in P2. injection P2 as <- <-.
  exists v'. split; auto. rewrite M, M2. split; auto. split; [rewrite S, S2, EH; reflexivity|]. split.
  - intros now x st. eapply (get_verdict C strict ty _ v _ v' b b'); eauto; [econstructor; eauto..|]. intros out mode _. apply canonical_same_lines. exact SL.
  - intros x g k. unfold CheckSignature, signed_data. rewrite M, M2, EH. reflexivity.
Qed.

(** ** Refolding *)
Definition refolded_field (f f' : header) : Prop :=
  same_name (h_name f) (h_name f') = true /\ (h_text f = h_text f' \/ same_field (h_text f) (h_text f')).

Lemma trim_8bit strict t pre post : t = pre ++ COLON :: post -> ~ In COLON pre -> plain_name strict (h_name (header_of t)) ->
  strict && existsb is_8bit pre = false.
Proof.
  intros -> N PN. destruct strict; auto. unfold plain_name, header_of in PN. rewrite find_char_app in PN by auto. cbn [h_name andb] in *.
  rewrite firstn_app, firstn_all, Nat.sub_diag in PN. cbn [firstn] in PN. rewrite app_nil_r in PN.
  destruct (existsb is_8bit pre) eqn:E; auto. exfalso. apply existsb_exists in E as (c & IC & E8).
  assert (NW : is_wsp c = false). { unfold is_wsp. destruct (c =?c SP) eqn:C1; [apply ceqb_eq in C1; subst; discriminate E8|]. destruct (c =?c HT) eqn:C2; [apply ceqb_eq in C2; subst; discriminate E8|]. reflexivity. }
  assert (IT : In c (trim_wsp pre)); [|apply Bool.not_true_iff_false in PN; apply PN; apply existsb_exists; eauto].
  destruct (trim_wsp_spec pre) as (w1 & w2 & EQ & F1 & F2 & _). rewrite EQ in IC. apply in_app_or in IC as [IC|IC].
  - rewrite Forall_forall in F1. apply F1 in IC. apply is_wsp_WSP in IC. congruence.
  - apply in_app_or in IC as [IC|IC]; auto. rewrite Forall_forall in F2. apply F2 in IC. apply is_wsp_WSP in IC. congruence.
Qed.

Lemma FilterHeader_plain strict mode t : plain_name strict (h_name (header_of t)) -> FilterHeader strict mode t = FilterHeader false mode t.
Proof.
  intros PN. destruct mode; [reflexivity|]. unfold FilterHeader. destruct (find_char COLON t) as [k|] eqn:F; auto.
  apply find_char_Some in F as (pre & post & E & L & N). assert (X : lower_str strict (firstn k t) = lower_str false (firstn k t)); [|rewrite X; reflexivity].
  unfold lower_str. cbn [andb]. rewrite E, firstn_app, <- L, firstn_all, Nat.sub_diag. cbn [firstn]. rewrite app_nil_r.
  rewrite (trim_8bit strict t pre post E N PN). reflexivity.
Qed.
Lemma parsed_header_of t m s : parse_all new_message (open_str t) = Ok (m, s) -> Forall (fun f => f = header_of (h_text f)) (m_headers m).
Proof.
  intros P. assert (X : exists ls, Forall (fun l => l <> []) ls /\ m_headers m = all_headers (fold_left add_line ls new_message)).
  { destruct (message_shape (S (length t)) t ltac:(lia)) as (ls & h & rest & HB & -> & R). pose proof (header_block_nonempty _ _ HB) as NE.
    destruct R as [(e & b & LE & ->)|N].
    - destruct (parse_blank ls h e b HB LE) as (m1 & s1 & P1 & _ & H1 & _). rewrite P in P1. apply Ok_inj in P1. injection P1 as <- <-. eauto.
    - destruct (parse_unended ls h rest HB N) as (m1 & s1 & P1 & _ & _ & H1). rewrite P in P1. apply Ok_inj in P1. injection P1 as <- <-.
      eexists. split; [|exact H1]. apply Forall_app. split; auto. destruct (chop_cr rest); constructor; [discriminate|constructor]. }
  destruct X as (ls & NE & ->). destruct (fields_of ls NE) as (gs & -> & _). apply Forall_forall. intros f IF. apply in_map_iff in IF as (g & <- & _).
  rewrite header_of_text. reflexivity.
Qed.
Lemma refold_alike strict f f' : f = header_of (h_text f) -> f' = header_of (h_text f') -> plain_name strict (h_name f) -> plain_name strict (h_name f') ->
  refolded_field f f' -> alike strict RELAXED f f'.
Proof.
  intros E E' PN PN' [SN T]. split; [apply beqb_eq in SN; exact SN|]. rewrite E in PN. rewrite E' in PN'.
  rewrite (FilterHeader_plain strict RELAXED (h_text f) PN), (FilterHeader_plain strict RELAXED (h_text f') PN'). destruct T as [T|SF]; [rewrite T; reflexivity|]. destruct (header_refold _ _ SF) as (out & -> & ->). reflexivity.
Qed.
Lemma refold_alike_all strict hs hs' : Forall (fun f => f = header_of (h_text f)) hs -> Forall (fun f => f = header_of (h_text f)) hs' ->
  Forall (fun f => plain_name strict (h_name f)) hs -> Forall (fun f => plain_name strict (h_name f)) hs' ->
  Forall2 refolded_field hs hs' -> Forall2 (alike strict RELAXED) hs hs'.
Proof.
  intros A B P Q F. induction F as [|f f' hs hs' R F IH]; [constructor|]. inversion A; subst. inversion B; subst. inversion P; subst. inversion Q; subst.
  constructor; auto. apply refold_alike; auto.
Qed.
Lemma refolding_kept C strict ty t t' v v' b b' : ty <> V_NONE ->
  new_validatory strict ty (open_str t) = Ok v -> new_validatory strict ty (open_str t') = Ok v' ->
  message_body t b -> message_body t' b' -> same_words b b' ->
  Forall2 refolded_field (m_headers (v_msg v)) (m_headers (v_msg v')) ->
  (forall now h st, sg_cbody (fst (fst (Signature_Parse C strict now h st))) = RELAXED ->
     outcome_of (GetSignature C strict now h st v') = outcome_of (GetSignature C strict now h st v)) /\
  (forall h g k, sg_chead g = RELAXED -> CheckSignature C strict h g k v' = CheckSignature C strict h g k v).
Proof.
  intros TY NV NV' MB MB' (k & k' & n & n' & LB & LB' & SW) F2.
  pose proof (validatory_plain _ _ _ _ NV TY) as PN. pose proof (validatory_plain _ _ _ _ NV' TY) as PN'.
  pose proof (new_validatory_spec _ _ _ _ NV) as (m & s & P & M & _ & _). pose proof (new_validatory_spec _ _ _ _ NV') as (m' & s' & P' & M' & _ & _).
  split.
  - intros now h st E. eapply (get_verdict C strict ty t v t' v' b b'); eauto. intros out mode ME CB. rewrite E in ME. subst mode.
    apply (relaxed_same_iff b b' k k' out LB LB' CB). eauto.
  - intros h g p E. unfold CheckSignature. rewrite (signed_alike strict h g v v' [] (m_headers (v_msg v')) PN PN'); auto.
    + rewrite E. apply refold_alike_all; auto; rewrite ?M, ?M'; eapply parsed_header_of; eauto.
    + intros f [].
Qed.

(** ** Only the fields of the listed names matter *)
Lemma named_kept C strict ty t t' v v' h g k : ty <> V_NONE ->
  new_validatory strict ty (open_str t) = Ok v -> new_validatory strict ty (open_str t') = Ok v' ->
  (forall n, In n (sg_headers g) -> filter (fun f => same_name (h_name f) n) (m_headers (v_msg v')) = filter (fun f => same_name (h_name f) n) (m_headers (v_msg v))) ->
  CheckSignature C strict h g k v' = CheckSignature C strict h g k v.
Proof.
  intros TY NV NV' SEL. pose proof (validatory_plain _ _ _ _ NV TY) as PN. pose proof (validatory_plain _ _ _ _ NV' TY) as PN'.
  unfold CheckSignature. assert (X : signed_data strict h g v' = signed_data strict h g v); [|rewrite X; reflexivity]. unfold signed_data.
  destruct (build_cache_ok strict _ PN) as (c & B & _). destruct (build_cache_ok strict _ PN') as (c' & B' & _). rewrite B, B'. cbn [obind].
  assert (X : hash_headers strict (sg_chead g) (sg_headers g) c' = hash_headers strict (sg_chead g) (sg_headers g) c); [|rewrite X; reflexivity].
  apply hash_alike. intros n IN. apply build_cache_strict in B. apply build_cache_strict in B'.
  destruct (build_cache_lookup (m_headers (v_msg v)) []) as (c1 & B1 & L1). rewrite B in B1. apply Ok_inj in B1. subst c1.
  destruct (build_cache_lookup (m_headers (v_msg v')) []) as (c1 & B1 & L1'). rewrite B' in B1. apply Ok_inj in B1. subst c1.
  rewrite L1, L1'. cbn [lookup app]. specialize (SEL n IN). exists [], (filter (fun f => beqb (lower (h_name f)) (lower n)) (m_headers (v_msg v'))). split; [reflexivity|].
  split; auto. change (filter (fun f => beqb (lower (h_name f)) (lower n)) (m_headers (v_msg v'))) with (filter (fun f => same_name (h_name f) n) (m_headers (v_msg v'))).
  rewrite SEL. change (filter (fun f => same_name (h_name f) n) (m_headers (v_msg v))) with (filter (fun f => beqb (lower (h_name f)) (lower n)) (m_headers (v_msg v))).
  generalize (filter (fun f => beqb (lower (h_name f)) (lower n)) (m_headers (v_msg v))). intros l. induction l; constructor; auto. split; reflexivity.
Qed.
