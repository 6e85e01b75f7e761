(** The library on a source that fails. *)
From Verif Require PassFacts.
From Verif Require Import Bytes Outcome Stream MailParser Canonicalization Util Crypto Signature PublicKey SignatoryOptions Signatory Validatory
  SpecText SpecMail SpecVerify SpecBad BytesFacts StreamFacts MailFacts BodyFacts BodyProps VerifyFacts TransitFacts SharedFacts FailingReads Base64 Examples VerifyExamples.

(** ** With the usual reading it is the model *)
Lemma usual : (forall C strict clock o y, create_with getline sread C strict clock o y = CreateSignature C strict clock o y) /\
  (forall strict ty s, validatory_with getline strict ty s = new_validatory strict ty s) /\
  (forall C strict now h st v, get_signature_with sread C strict now h st v = GetSignature C strict now h st v).
Proof. repeat split. Qed.

(** ** The header *)
Lemma take_line_has t : In LF t -> snd (take_line t) = true.
Proof.
  induction t as [|c t IH]; [intros []|]. cbn [take_line]. destruct (c =?c LF) eqn:E; [reflexivity|].
  intros [->|I]; [rewrite ceqb_refl in E; discriminate|]. specialize (IH I). destruct (take_line t). exact IH.
Qed.
Lemma line_has s : In LF (s_rest s) -> getline_bad s = getline s.
Proof. intros I. unfold getline_bad, getline. rewrite take_line_has by exact I. destruct (good s); reflexivity. Qed.
Lemma end_LF l e : line_end l e -> In LF e.
Proof. intros [?|? ?]; [right; left; reflexivity|left; reflexivity]. Qed.
Lemma line_bad m s p l e t : St s p (l ++ e ++ t) -> line_end l e -> ParseLine_with getline_bad m s = Message_ParseLine m s.
Proof.
  intros (_ & R & _) LE. unfold ParseLine_with. rewrite line_has; [reflexivity|]. rewrite R. apply in_or_app. right. apply in_or_app. left. eapply end_LF; eauto.
Qed.
Lemma block_bad ls h : header_block ls h -> forall f m s p t, St s p (h ++ t) -> good s = true -> m_done m = false ->
  length (h ++ t) < f ->
  exists f' s', parse_loop_with getline_bad f m s = parse_loop_with getline_bad f' (fold_left add_line ls m) s' /\ St s' (rev h ++ p) t /\
    good s' = true /\ length t < f' /\ m_done (fold_left add_line ls m) = false.
Proof.
  induction 1 as [|l e ls h NE N LE HB IH]; intros f m s p t H G D L.
  - exists f, s. auto.
  - destruct f as [|f]; [lia|]. cbn [parse_loop_with fold_left]. rewrite <- !app_assoc in H.
    rewrite (line_bad _ _ _ _ _ _ H LE). destruct (ParseLine_line m s p l e (h ++ t) H NE N LE) as (s1 & P & H1 & G1). rewrite P, add_line_done, D. cbn [negb andb].
    assert (LL : length (h ++ t) < f).
    { assert (0 < length l) by (destruct l; [contradiction|cbn; lia]). rewrite <- !app_assoc, !app_length in L. rewrite app_length. lia. }
    destruct (IH f (add_line m l) s1 _ t H1 G1 ltac:(rewrite add_line_done; exact D) LL) as (f' & s' & E & H' & X).
    exists f', s'. split; [exact E|]. split; [|exact X]. rewrite app_assoc, rev_app_distr, <- app_assoc. exact H'.
Qed.

Lemma line_eof m s p t : St s p t -> good s = true -> ~ In LF t ->
  exists s', ParseLine_with getline_bad m s = (false, mkMessage (m_tmp m) (-1) (m_headers m ++ opt_list (m_tmp m)) true, s') /\ contents s' = contents s.
Proof.
  intros (P & R & _) G N. unfold ParseLine_with, getline_bad. rewrite G.
  assert (snd (take_line (s_rest s)) = false) as ->.
  { rewrite R. clear - N. induction t as [|c t IH]; [reflexivity|]. cbn [take_line]. destruct (c =?c LF) eqn:E.
    - apply ceqb_eq in E. subst. destruct N. left. reflexivity.
    - specialize (IH (fun I => N (or_intror I))). destruct (take_line t). exact IH. }
  eexists. split; [reflexivity|]. destruct s. apply contents_move. symmetry. apply app_nil_r.
Qed.
Lemma St_contents s p t : St s p t -> contents s = rev p ++ t.
Proof. intros (P & R & _). unfold contents. rewrite P, R. reflexivity. Qed.
Lemma parse_bad chunk p t : kept chunk p t -> exists m s s0,
  parse_with getline_bad new_message (open_str p) = Ok (m, s) /\ parse_all new_message (open_str t) = Ok (m, s0) /\ contents s = p /\ contents s0 = t /\
  ((m_offset m = (-1)%Z) \/
   exists pre k b1 b2, p = pre ++ b1 ++ b2 /\ t = pre ++ b1 /\ length b1 = k * chunk /\ length b2 < chunk /\ m_offset m = Z.of_nat (length pre)).
Proof.
  intros [ls h tail HB N|ls h e k b1 b2 HB LE L1 L2].
  - unfold parse_with, parse_all.
    destruct (block_bad ls h HB (fuel_of (open_str (h ++ tail))) new_message (open_str (h ++ tail)) [] tail) as (f' & s' & E & H' & G' & L' & D'); try reflexivity.
    { repeat split; left; reflexivity. } { unfold fuel_of. cbn [open_str s_rest]. lia. }
    destruct (parse_block ls h HB (fuel_of (open_str h)) new_message (open_str h) [] []) as (f2 & s2 & E2 & H2 & G2 & LL2 & D2); try reflexivity.
    { rewrite app_nil_r. repeat split; left; reflexivity. } { unfold fuel_of. cbn [open_str s_rest]. rewrite app_nil_r. lia. }
    rewrite E, E2. destruct f' as [|f']; [lia|]. destruct f2 as [|f2]; [cbn in LL2; lia|]. cbn [parse_loop_with parse_loop].
    destruct (line_eof (fold_left add_line ls new_message) s' _ _ H' G' N) as (s3 & -> & C3).
    destruct (Message_ParseLine (fold_left add_line ls new_message) s2) as [[ok m2] s4] eqn:PL.
    destruct (ParseLine_eof (fold_left add_line ls new_message) s2 _ H2) as (s5 & E5). rewrite PL in E5. injection E5 as -> -> ->.
    cbn [andb]. eexists _, _, _. split; [reflexivity|]. split; [reflexivity|]. split; [|split].
    + rewrite C3, (St_contents _ _ _ H'), app_nil_r, rev_involutive. reflexivity.
    + apply ParseLine_contents in PL. rewrite PL, (St_contents _ _ _ H2), !app_nil_r, rev_involutive. reflexivity.
    + left. reflexivity.
  - unfold parse_with, parse_all.
    destruct (block_bad ls h HB (fuel_of (open_str (h ++ e ++ b1 ++ b2))) new_message (open_str (h ++ e ++ b1 ++ b2)) [] (e ++ b1 ++ b2)) as (f' & s' & E & H' & G' & L' & D'); try reflexivity.
    { repeat split; left; reflexivity. } { unfold fuel_of. cbn [open_str s_rest]. lia. }
    destruct (parse_block ls h HB (fuel_of (open_str (h ++ e ++ b1))) new_message (open_str (h ++ e ++ b1)) [] (e ++ b1)) as (f2 & s2 & E2 & H2 & G2 & LL2 & D2); try reflexivity.
    { repeat split; left; reflexivity. } { unfold fuel_of. cbn [open_str s_rest]. lia. }
    rewrite E, E2. destruct f' as [|f']; [lia|]. destruct f2 as [|f2]; [lia|]. cbn [parse_loop_with parse_loop].
    rewrite (line_bad _ _ _ [] _ _ H' LE).
    destruct (ParseLine_blank (fold_left add_line ls new_message) s' _ _ _ H' LE) as (s3 & -> & H3 & G3).
    destruct (ParseLine_blank (fold_left add_line ls new_message) s2 _ _ _ H2 LE) as (s4 & -> & H4 & G4).
    cbn [close_block m_done negb andb]. eexists _, _, _. split; [reflexivity|]. split; [reflexivity|]. split; [|split].
    + rewrite (St_contents _ _ _ H3), app_nil_r, rev_app_distr, !rev_involutive, <- app_assoc. reflexivity.
    + rewrite (St_contents _ _ _ H4), app_nil_r, rev_app_distr, !rev_involutive, <- app_assoc. reflexivity.
    + right. exists (h ++ e), k, b1, b2. rewrite <- !app_assoc. repeat split; auto. cbn [m_offset]. rewrite app_nil_r, rev_length, app_length. reflexivity.
Qed.

(** ** The body *)
Lemma read_bad n s p r : St s p r -> good s = true -> n <= length r -> sread_bad n s = sread n s.
Proof.
  intros (_ & R & _) G L. unfold sread_bad. rewrite G, R. destruct (Nat.ltb_spec (length r) n); [lia|reflexivity].
Qed.
Lemma loop_bad chunk mode limit b2 : length b2 < chunk -> forall k f f0 s s0 pr b1 size p l e calls,
  St s pr (b1 ++ b2) -> St s0 pr b1 -> good s = true -> good s0 = true -> length b1 = k * chunk -> k + 1 < f -> k + 1 < f0 ->
  exists r s' s0', body_loop_with sread_bad chunk mode limit f s size p l e calls = Ok (r, s') /\
    body_loop chunk mode limit f0 s0 size p l e calls = Ok (r, s0') /\ contents s' = contents s /\ contents s0' = contents s0.
Proof.
  intros L2. induction k as [|k IH]; intros f f0 s s0 pr b1 size p l e calls H H0 G G0 L F F0.
  - destruct b1; [|discriminate]. destruct f as [|[|f]]; [lia|lia|]. destruct f0 as [|[|f0]]; [lia|lia|].
    cbn [body_loop_with body_loop]. rewrite G, G0. destruct (limit && (size =? 0)%N); [eexists _, _, _; split; [reflexivity|]; split; [reflexivity|]; auto|].
    unfold sread_bad at 1. rewrite G. destruct H as (HP & HR & _). cbn [app] in HR. rewrite HR. destruct (Nat.ltb_spec (length b2) chunk); [|lia].
    destruct (sread_St chunk s0 pr [] H0 G0) as (s1 & E & H1 & B1 & _). rewrite firstn_nil in E. pose proof (sread_contents _ _ _ _ E) as CC. rewrite E.
    cbn [fold_left b_buf b_pending b_lines]. rewrite B1 by (cbn; lia). destruct (emit limit size []) as [out z]. cbn [good Stream.s_eof Stream.s_fail negb andb].
    eexists _, _, _. split; [reflexivity|]. split; [reflexivity|]. split; [|exact CC]. destruct s as [a b c d]. cbn in HR. subst b.
    apply contents_move. symmetry. apply app_nil_r.
  - destruct f as [|f]; [lia|]. destruct f0 as [|f0]; [lia|]. cbn [body_loop_with body_loop]. rewrite G, G0.
    destruct (limit && (size =? 0)%N); [eexists _, _, _; split; [reflexivity|]; split; [reflexivity|]; auto|].
    assert (LB : chunk <= length b1) by (rewrite L; cbn; lia).
    rewrite (read_bad chunk s _ _ H G) by (rewrite app_length; lia).
    destruct (sread_St chunk s _ _ H G) as (s1 & E & H1 & _ & G1). destruct (sread_St chunk s0 _ _ H0 G0) as (s2 & E2 & H2 & _ & G2).
    pose proof (sread_contents _ _ _ _ E) as C1. pose proof (sread_contents _ _ _ _ E2) as C2. rewrite E, E2.
    assert (FN : firstn chunk (b1 ++ b2) = firstn chunk b1) by (rewrite firstn_app; replace (chunk - length b1) with 0 by lia; apply app_nil_r).
    assert (SK : skipn chunk (b1 ++ b2) = skipn chunk b1 ++ b2) by (rewrite skipn_app; replace (chunk - length b1) with 0 by lia; reflexivity).
    rewrite FN, SK in H1. rewrite FN. cbv zeta. destruct (emit limit size _) as [out z].
    match goal with |- exists r s' s0', body_loop_with _ _ _ _ f s1 ?z1 ?z2 ?z3 ?z4 ?z5 = _ /\ _ =>
      destruct (IH f f0 s1 s2 _ (skipn chunk b1) z1 z2 z3 z4 z5 H1 H2) as (r & s' & s0' & EA & EB & CA & CB);
      [apply G1; rewrite app_length; lia|apply G2; lia|rewrite skipn_length, L; cbn; lia|lia|lia|] end.
    rewrite EA, EB. eexists _, _, _. split; [reflexivity|]. split; [reflexivity|]. split; congruence.
Qed.
Lemma body_bad chunk pre b1 b2 k s s0 mode limit size : length b2 < chunk -> length b1 = k * chunk ->
  contents s = pre ++ b1 ++ b2 -> contents s0 = pre ++ b1 -> exists calls ok s' s0',
  body_with sread_bad chunk s mode (Z.of_nat (length pre)) limit size = Ok (calls, ok, s') /\
  CanonicalizationBody_ chunk s0 mode (Z.of_nat (length pre)) limit size = Ok (calls, ok, s0') /\ contents s' = contents s /\ contents s0' = contents s0.
Proof.
  intros L2 L1 C1 C0. unfold body_with, CanonicalizationBody_. destruct (Z.eqb_spec (Z.of_nat (length pre)) (-1)); [lia|]. cbv zeta.
  rewrite !(seek_body _ _ _ C1), !(seek_body _ _ _ C0).
  destruct (loop_bad chunk mode limit b2 L2 k (S (fuel_of (mkStream (rev pre) (b1 ++ b2) false false))) (S (fuel_of (mkStream (rev pre) b1 false false)))
    (mkStream (rev pre) (b1 ++ b2) false false) (mkStream (rev pre) b1 false false) (rev pre) b1 size false 0 true [])
    as ([[c z] e] & s' & s0' & EA & EB & CA & CB); try reflexivity; try exact L1.
  1,2: repeat split; left; reflexivity.
  1,2: unfold fuel_of; cbn [Stream.s_rest]; rewrite ?app_length, L1; nia.
  rewrite EA, EB. cbn [obind]. destruct (negb e || _); [destruct (emit limit z CRLF) as [out z2]|]; eexists _, _, _, _; (split; [reflexivity|]); (split; [reflexivity|]);
    rewrite CA, CB; unfold contents; cbn [Stream.s_prev Stream.s_rest]; rewrite rev_involutive, ?C1, ?C0; auto.
Qed.
(** Both at once. *)
Definition views (p t : bytes) (m : message) (s s0 : istream) : Prop := contents s = p /\ contents s0 = t /\
  ((m_offset m = (-1)%Z) \/ exists pre k b1 b2, p = pre ++ b1 ++ b2 /\ t = pre ++ b1 /\ length b1 = k * buffer_size /\ length b2 < buffer_size /\ m_offset m = Z.of_nat (length pre)).
Lemma views_body p t m s s0 mode limit size : views p t m s s0 -> exists calls ok s' s0',
  body_with sread_bad buffer_size s mode (m_offset m) limit size = Ok (calls, ok, s') /\
  CanonicalizationBody s0 mode (m_offset m) limit size = Ok (calls, ok, s0') /\ views p t m s' s0'.
Proof.
  intros (C & C0 & [O|(pre & k & b1 & b2 & EP & ET & L1 & L2 & O)]).
  - rewrite O. unfold body_with, CanonicalizationBody, CanonicalizationBody_. change (-1 =? -1)%Z with true. cbv iota. cbn [obind].
    destruct mode; cbn [negb orb]; try destruct (emit limit size CRLF) as [out z2]; eexists _, _, _, _; (split; [reflexivity|]); (split; [reflexivity|]); repeat split; auto.
  - rewrite O. destruct (body_bad buffer_size pre b1 b2 k s s0 mode limit size L2 L1) as (calls & ok & s' & s0' & EA & EB & CA & CB); [congruence|congruence|].
    exists calls, ok, s', s0'. split; [exact EA|]. split; [exact EB|]. split; [congruence|]. split; [congruence|]. right. exists pre, k, b1, b2. auto.
Qed.

Lemma signing_bad C strict clock o p t : kept buffer_size p t ->
  snd (CreateSignature_bad C strict clock o (new_signatory (open_str p))) = snd (CreateSignature C strict clock o (new_signatory (open_str t))).
Proof.
  intros K. destruct (parse_bad _ p t K) as (m & s & s0 & EP & ET & V). unfold CreateSignature_bad, create_with, CreateSignature, new_signatory. cbn [y_msg y_file].
  rewrite EP, ET. destruct (views_body p t m s s0 (o_cbody o) (o_signlen o) (o_bodylen o) V) as (calls & ok & s' & s0' & -> & -> & _). reflexivity.
Qed.

(** ** Verifying *)
(** The Validatory [v] works on a source that fails after [p]; [v0] on the message [t]. *)
Definition same_view (strict : bool) (ty : validator_type) (p t : bytes) (v v0 : validatory) : Prop :=
  in_use strict ty t v0 /\ v_msg v = v_msg v0 /\ v_sigs v = v_sigs v0 /\ contents (v_file v) = p.
Lemma validatory_bad strict ty p t : kept buffer_size p t ->
  match new_validatory strict ty (open_str t) with
  | Ok v0 => exists v, new_validatory_bad strict ty (open_str p) = Ok v /\ same_view strict ty p t v v0
  | r => new_validatory_bad strict ty (open_str p) = r
  end.
Proof.
  intros K. destruct (new_validatory strict ty (open_str t)) as [v0| | |] eqn:NV;
    (destruct (parse_bad _ p t K) as (m & s & s0 & EP & ET & V)); pose proof NV as NV'; unfold new_validatory in NV'; rewrite ET in NV';
    unfold new_validatory_bad, validatory_with; rewrite EP; cbn [obind] in *.
  - assert (IU := in_use_fresh _ _ _ _ NV). destruct ty.
    1,2: destruct (collect strict _ (m_headers m)); cbn [obind] in *; try discriminate; injection NV' as <-.
    3: injection NV' as <-.
    1,2,3: eexists; (split; [reflexivity|]); split; [exact IU|]; repeat split; apply V.
  - destruct ty; [| |discriminate]; destruct (collect strict _ (m_headers m)); cbn [obind] in *; congruence.
  - destruct ty; [| |discriminate]; destruct (collect strict _ (m_headers m)); cbn [obind] in *; congruence.
  - destruct ty; [| |discriminate]; destruct (collect strict _ (m_headers m)); cbn [obind] in *; congruence.
Qed.
Lemma verifying_bad C strict ty now p t : kept buffer_size p t -> forall v v0 h st, same_view strict ty p t v v0 ->
  exists v' v0' st' r, GetSignature_bad C strict now h st v = (v', st', r) /\ GetSignature C strict now h st v0 = (v0', st', r) /\
    same_view strict ty p t v' v0'.
Proof.
  intros K v v0 h st (IU & EM & ES & EC). destruct (parse_bad _ p t K) as (m & s & s0 & _ & ET & V).
  destruct IU as (w & NV & WM & WS & WC). pose proof (new_validatory_spec _ _ _ _ NV) as (m' & s' & ET' & M' & _ & _).
  rewrite ET in ET'. injection ET' as <- <-. unfold GetSignature_bad, get_signature_with, GetSignature, body_hash_with, CheckBodyHash.
  assert (X : same_view strict ty p t v v0). { split; [exists w; auto|]. auto. }
  destruct (Signature_Parse C strict now h st) as [st1 [u| | |]]; try (eexists _, _, _, _; (split; [reflexivity|]); split; [reflexivity|exact X]).
  assert (VV : views p t m (v_file v) (v_file v0)). { split; [exact EC|]. split; [exact WC|]. apply V. }
  assert (MV : v_msg v0 = m) by congruence. rewrite EM, MV.
  destruct (views_body p t m _ _ (sg_cbody (fst st1)) (sg_limit (fst st1)) (sg_size (fst st1)) VV) as (calls & ok & s1 & s2 & -> & -> & C1 & C2 & _).
  eexists _, _, _, _. split; [reflexivity|]. split; [reflexivity|]. split.
  - exists w. cbn [v_msg v_sigs v_file]. repeat split; congruence.
  - cbn [v_msg v_sigs v_file]. auto.
Qed.

(** ** There is always something kept *)
Lemma kept_exists chunk p : 0 < chunk -> exists t, kept chunk p t.
Proof.
  intros CH. destruct (message_shape (S (length p)) p (Nat.lt_succ_diag_r _)) as (ls & h & rest & HB & -> & [(e & b & LE & ->)|N]).
  - exists (h ++ e ++ firstn (length b / chunk * chunk) b). rewrite <- (firstn_skipn (length b / chunk * chunk) b) at 1.
    assert (length b / chunk * chunk <= length b) by (rewrite Nat.mul_comm; apply Nat.mul_div_le; lia).
    eapply kept_body; eauto.
    + rewrite firstn_length, Nat.min_l by lia. reflexivity.
    + rewrite skipn_length. pose proof (Nat.div_mod (length b) chunk). pose proof (Nat.mod_upper_bound (length b) chunk). lia.
  - exists h. eapply kept_header; eauto.
Qed.
Lemma kept_unique chunk p t : kept chunk p t -> forall t', kept chunk p t' -> t = t'.
Proof.
  assert (U : forall ls h r ls' h' r', header_block ls h -> header_block ls' h' -> PassFacts.after_header r -> PassFacts.after_header r' ->
    h ++ r = h' ++ r' -> h = h' /\ r = r').
  { intros ls h r ls' h' r' H H' A A' E. destruct (PassFacts.block_unique _ _ _ _ _ _ H H' A A' E) as [_ ->]. apply app_inv_tail in E. auto. }
  assert (A : forall e b, line_end [] e -> PassFacts.after_header (e ++ b)) by (intros e b L; left; eauto).
  intros K t' K'. remember p as p' eqn:EP in K'. destruct K as [ls h tail HB N|ls h e k b1 b2 HB LE L1 L2]; destruct K' as [ls' h' tail' HB' N'|ls' h' e' k' c1 c2 HB' LE' L1' L2'].
  - apply (U _ _ _ _ _ _ HB' HB) in EP as [-> _]; [reflexivity|right; auto|right; auto].
  - apply (U _ _ _ _ _ _ HB' HB) in EP as [_ <-]; [|auto|right; auto]. destruct N. apply in_or_app. left. eapply end_LF; eauto.
  - apply (U _ _ _ _ _ _ HB' HB) in EP as [_ ->]; [|right; auto|auto]. destruct N'. apply in_or_app. left. eapply end_LF; eauto.
  - apply (U _ _ _ _ _ _ HB' HB) in EP as [-> EB]; auto.
    apply (PassFacts.line_unique [] e' (c1 ++ c2) [] e (b1 ++ b2) (fun K => K) (fun K => K) LE' LE) in EB as (_ & -> & EB).
    assert (EL : length c1 = length b1).
    { pose proof (f_equal (@length _) EB) as L. rewrite !app_length in L. rewrite L1, L1' in *. assert (k' = k) by nia. congruence. }
    f_equal. f_equal. assert (X : firstn (length b1) (c1 ++ c2) = firstn (length b1) (b1 ++ b2)) by (rewrite EB; reflexivity).
    rewrite <- EL in X at 1. rewrite !firstn_app, !firstn_all, !Nat.sub_diag, !firstn_O, !app_nil_r in X. symmetry. exact X.
Qed.

(** ** Examples *)
(** What a verifier does, as [verify]. *)
Definition verify_bad (C : crypto) (strict : bool) (p record : bytes) : outcome unit :=
  let* v := new_validatory_bad strict V_DKIM (open_str p) in
  match v_sigs v with
  | [] => perm
  | h :: _ =>
      let '(v1, st1, o) := GetSignature_bad C strict 1 h (new_signature, false) v in
      let* _ := o in
      let '(k, o1) := GetPublicKey C strict (fun _ => Ok (true, record)) (fst st1) new_public_key in
      let* _ := o1 in
      CheckSignature C strict h (fst st1) k v1
  end.
Lemma check_bad C strict ty p t v v0 h g k : same_view strict ty p t v v0 -> CheckSignature C strict h g k v = CheckSignature C strict h g k v0.
Proof. intros (_ & M & _). unfold CheckSignature, signed_data. rewrite M. reflexivity. Qed.
Lemma verify_kept C strict p t record : kept buffer_size p t -> verify_bad C strict p record = verify C strict t record.
Proof.
  intros K. unfold verify_bad, verify. pose proof (validatory_bad strict V_DKIM p t K) as V. destruct (new_validatory strict V_DKIM (open_str t)) as [v0| | |]; [|rewrite V; reflexivity..].
  destruct V as (v & -> & V). cbn [obind]. pose proof V as (_ & _ & S & _). rewrite S. destruct (v_sigs v0) as [|h r]; [reflexivity|].
  destruct (verifying_bad C strict V_DKIM 1 p t K v v0 h (new_signature, false) V) as (v' & v0' & st' & o & -> & -> & V'). destruct o; cbn [obind]; try reflexivity.
  destruct (GetPublicKey _ _ _ _ _) as [k o1]. destruct o1; cbn [obind]; try reflexivity. eapply check_bad; eauto.
Qed.
(** A message with an empty body, signed. *)
Definition bare_open : bytes := esc "DKIM-Signature: v=1; a=rsa-sha256; d=ex.org; s=s1; h=From; bh=" ++ Base64_Encode (toy_hash 32 CRLF) ++ esc "; b=".
Definition bare_b : bytes := Base64_Encode (chr 2 :: toy_hash 32 (sample_from ++ CRLF ++ bare_open) ++ esc "KEY").
Definition bare_message : bytes := (bare_open ++ bare_b) ++ CRLF ++ sample_from ++ CRLF ++ CRLF.
Lemma bare_kept : forall b, length b < buffer_size -> kept buffer_size (bare_message ++ b) bare_message.
Proof.
  intros b L. assert (E : bare_message = with_crlf [bare_open ++ bare_b; sample_from] ++ CRLF ++ []).
  { unfold bare_message, with_crlf. cbn [map concat]. rewrite <- !app_assoc. reflexivity. }
  rewrite E. rewrite <- !app_assoc. cbn [app]. change (CRLF ++ b) with (CRLF ++ [] ++ b).
  replace (with_crlf [bare_open ++ bare_b; sample_from] ++ CRLF) with (with_crlf [bare_open ++ bare_b; sample_from] ++ CRLF ++ []) by (rewrite app_nil_r; reflexivity).
  apply (kept_body buffer_size [bare_open ++ bare_b; sample_from] _ _ 0); [|constructor|reflexivity|exact L].
  assert (EN : with_crlf [bare_open ++ bare_b; sample_from] = (bare_open ++ bare_b) ++ CRLF ++ sample_from ++ CRLF ++ []).
  { unfold with_crlf. cbn [map concat]. rewrite <- !app_assoc. reflexivity. }
  rewrite EN. assert (D : forall x, existsb (Ascii.eqb LF) x = false -> ~ In LF x).
  { intros x X I. assert (existsb (Ascii.eqb LF) x = true) by (apply existsb_exists; exists LF; split; [exact I|reflexivity]). congruence. }
  constructor; [intros K; vm_compute in K; discriminate|apply D; vm_compute; reflexivity|constructor|].
  constructor; [intros K; vm_compute in K; discriminate|apply D; vm_compute; reflexivity|constructor|constructor].
Qed.
Lemma bad_accepted : forall b, length b < buffer_size -> verify_bad toy true (bare_message ++ b) rsa_record = Ok tt.
Proof. intros b L. rewrite (verify_kept toy true _ _ rsa_record (bare_kept b L)). vm_compute. reflexivity. Qed.
