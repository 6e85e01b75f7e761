(** What a verified signature says about its maker: proofs. *)
From Verif Require Import Bytes Outcome Stream Tokenizer QuotedPrintable Base64 TagList MailParser Canonicalization Util CStdlib Crypto
  Signature PublicKey SignatoryOptions Signatory Validatory BytesFacts StreamFacts SpecText SpecTags SpecMail SpecCanon SpecVerify SpecSig SpecOptions SpecSign QPFacts
  Base64Facts ListFacts MailFacts BodyFacts BodyProps HeaderFacts HeaderProps SelectFacts TagListFacts SigFacts SigProps TagPosition VerifyFacts KeyFacts VerifyProps
  SignNumbers SignText SignFacts SignMail SignRound SignProps AddressClean FieldForm BindingFacts BindingList BindingRead SpecBinding.
Local Open Scope string_scope.
Local Open Scope list_scope.

(** ** The list of names *)
Lemma covered_folds t m h fs pre bv post outs x : covered t m h fs RELAXED pre bv post outs x -> cr_folds (pre ++ post) /\ cr_before (pre ++ post).
Proof.
  intros CV. pose proof (covered_texts _ _ _ _ _ _ _ _ _ _ CV) as (LFx & CBx & _ & _). destruct CV as [(s & P) IN SN FS TA NV FO FX].
  destruct (signature_shape _ _ _ _ P IN SN) as (w & w' & W & W' & E & K). destruct (name_letters _ SN) as [NE FL].
  rewrite E in *. rewrite <- app_assoc in *. cbn [app] in *.
  split; [|apply (cr_before_app (w ++ h_name h ++ w') COLON); [exact CBx|discriminate]].
  destruct (FilterHeader_shape _ (lf_crlf_folds _ LFx)) as [Q|(o & Q & SH)]; rewrite FX in Q; [discriminate|]. clear Q.
  assert (WL : forall x, Forall WSP x -> Forall LWSP x) by (intros y; apply Forall_impl; intros c [->| ->]; [left|right; left]; auto).
  assert (NC : ~ In COLON (w ++ h_name h ++ w')).
  { intros I. apply in_app_or in I as [I|I]; [revert I; apply LWSP_colon; auto|]. apply in_app_or in I as [I|I]; [|revert I; apply LWSP_colon; auto].
    apply (in_map low) in I. rewrite Forall_forall in FL. apply FL in I. destruct I as [_ I]. apply I. reflexivity. }
  destruct SH as [(n & RF)|(w0 & r & F0 & ET)].
  - remember ((w ++ h_name h ++ w') ++ COLON :: pre ++ post) as text eqn:ETX.
    destruct RF as [n2 n' w1 w2 v v' N2 C2 L2 U1 F1 F2 FV U2].
    assert (CW : ~ In COLON (n2 ++ w1)).
    { intros I. apply in_app_or in I as [I|I]; auto. revert I. apply LWSP_colon, FWSs_LWSP, F1. }
    rewrite app_assoc in ETX. symmetry in ETX. destruct (first_colon _ _ _ _ NC CW ETX) as [_ ->].
    exact (unfolded_cr _ _ (unfolded_ws w2 v v' F2 FV U2)).
  - exfalso. pose proof (FWSs_LWSP _ F0) as L0. destruct (first_colon _ _ _ _ NC (LWSP_colon _ L0) ET) as [EN _]. rewrite <- EN in L0.
    apply Forall_app in L0 as [_ L0]. apply Forall_app in L0 as [L0 _]. destruct (h_name h) as [|c nm]; [apply NE; reflexivity|].
    apply Forall_inv in L0. apply Forall_inv in FL. destruct FL as [FL _]. rewrite low_lwsp in FL. apply LWSP_is in L0. congruence.
Qed.
Lemma b_name : tag_name (str "b").
Proof. apply name_bytes; [discriminate|reflexivity]. Qed.
Lemma same_list t1 m1 h1 fs1 mode pre1 b1 post1 outs1 x1 t2 m2 h2 fs2 pre2 b2 post2 outs2 x2 l1 l2 names hv :
  covered t1 m1 h1 fs1 mode pre1 b1 post1 outs1 x1 -> covered t2 m2 h2 fs2 mode pre2 b2 post2 outs2 x2 ->
  field_tags h1 l1 -> field_tags h2 l2 -> x1 = x2 ->
  has l1 "h" hv -> rendered_list names hv -> (mode = RELAXED -> Forall word names) ->
  forall v, has l2 "h" v -> nrm false v = nrm false hv -> ValueList v = Ok names.
Proof.
  intros C1 C2 (_ & R1 & ND1) (_ & R2 & ND2) EX I1 RL WD v I2 EN. apply ValueList_rendered.
  pose proof (blanked_tags _ _ R1 _ _ _ _ (cv_tag _ _ _ _ _ _ _ _ _ _ C1) b_name (cv_value _ _ _ _ _ _ _ _ _ _ C1) ND1) as B1.
  pose proof (blanked_tags _ _ R2 _ _ _ _ (cv_tag _ _ _ _ _ _ _ _ _ _ C2) b_name (cv_value _ _ _ _ _ _ _ _ _ _ C2) ND2) as B2.
  assert (KB : forall l u, has l "h" u -> In (str "h", u) (blanked (str "b") l)).
  { intros l u I. unfold blanked. apply in_map_iff. exists (str "h", u). split; [reflexivity|exact I]. }
  destruct mode.
  - assert (EP : pre1 ++ post1 = pre2 ++ post2).
    { pose proof (cv_x _ _ _ _ _ _ _ _ _ _ C1) as X1. pose proof (cv_x _ _ _ _ _ _ _ _ _ _ C2) as X2.
      rewrite FilterHeader_simple in X1, X2. apply Ok_inj in X1, X2.
      assert (SH : forall t m h fs md pre b post outs x, covered t m h fs md pre b post outs x -> exists n, firstn (h_voff h) (h_text h) = n ++ [COLON] /\ ~ In COLON n).
      { clear. intros t m h fs md pre b post outs x [(s & P) IN SN FS TA NV FO FX]. destruct (signature_shape _ _ _ _ P IN SN) as (w & w' & W & W' & E & K).
        destruct (name_letters _ SN) as [NE FL]. exists (w ++ h_name h ++ w'). split; auto.
        assert (WL : forall x, Forall WSP x -> Forall LWSP x) by (intros y; apply Forall_impl; intros c [->| ->]; [left|right; left]; auto).
        intros I. apply in_app_or in I as [I|I]; [revert I; apply LWSP_colon; auto|]. apply in_app_or in I as [I|I]; [|revert I; apply LWSP_colon; auto].
        apply (in_map low) in I. rewrite Forall_forall in FL. apply FL in I. destruct I as [_ I]. apply I. reflexivity. }
      destruct (SH _ _ _ _ _ _ _ _ _ _ C1) as (n1 & E1 & N1). destruct (SH _ _ _ _ _ _ _ _ _ _ C2) as (n2 & E2 & N2).
      rewrite E1, <- app_assoc in X1. rewrite E2, <- app_assoc in X2. cbn [app] in X1, X2. rewrite <- X1, <- X2 in EX.
      apply first_colon in EX as [_ EX]; auto. }
    rewrite EP in B1. pose proof (rendered_unique _ _ _ B1 B2) as EB. pose proof (KB _ _ I1) as J1. rewrite EB in J1.
    unfold blanked in J1. apply in_map_iff in J1 as ([n u] & EQ & J1). cbn [fst snd] in EQ. destruct (beqb n (str "b")) eqn:BN.
    + apply (f_equal fst) in EQ. cbn [fst] in EQ. subst n. discriminate.
    + pose proof (f_equal fst EQ) as Q1. pose proof (f_equal snd EQ) as Q2. cbn [fst snd] in Q1, Q2. subst n u.
      assert (v = hv) by (eapply NoDup_fst_fun; eauto). subst. exact RL.
  - destruct (covered_folds _ _ _ _ _ _ _ _ _ C2) as [CF CB].
    pose proof (rendered_values _ _ R2) as RV. rewrite Forall_forall in RV. pose proof (RV _ I2) as TV. cbn [snd] in TV.
    destruct (value_folds _ _ _ _ B2 (KB _ _ I2) TV CF CB) as [CFv CBv].
    apply (rendered_again names hv RL (WD eq_refl) v false false CFv CBv EN).
Qed.

(** ** The side of the signer *)
Lemma picked_choice o h : picked (map lower (o_headers o)) h = choice o (h_name h).
Proof.
  destruct (choice o (h_name h)) eqn:E.
  - apply picked_chosen, choice_chosen. exact E.
  - apply not_true_iff_false. intros P. apply picked_chosen, choice_chosen in P. congruence.
Qed.
Lemma signed_fields_choice o m : signed_fields o m = filter (fun h => choice o (h_name h)) (rev (m_headers m)).
Proof. unfold signed_fields. apply filter_ext. intros h. apply picked_choice. Qed.
Lemma canon_strict_fun strict mode fs outs outs' : Forall2 (canon_of strict mode) fs outs -> Forall2 (canon_of false mode) fs outs' -> outs = outs'.
Proof.
  intros F. revert outs'. induction F as [|f o fs os E F IH]; intros outs' F'; inversion F' as [|? o' ? os' E' F'']; subst; auto.
  f_equal; auto. unfold canon_of in *. apply FilterHeader_strict in E. rewrite E in E'. apply Ok_inj in E'. exact E'.
Qed.
Lemma signable_word n : signable_name n -> Forall (fun c => ~ WSP c) n -> word n.
Proof.
  intros (NE & _ & F) NW. split; auto. rewrite Forall_forall in *. intros c I. destruct (F c I) as [NC [V|W]]; [|destruct (NW c I W)]. split; auto. apply value_lwsp; auto.
Qed.

Record signer_side (C : crypto) (strict : bool) (clock : nat -> Z) (o : options) (t : bytes) (m : message) (i : nat) (q : sig_options) (outs : list bytes) (d : bytes)
  (t1 : bytes) (m1 : message) (h : header) (pre B post c hv bh z : bytes) : Prop := {
  sd_covered : covered t1 m1 h (signed_fields o m) (o_chead o) pre B post outs c;
  sd_begin : all_begin m1;
  sd_tags : field_tags h (sig_tag_list o q (clock i) hv bh B);
  sd_list : rendered_list (signed_names o m) hv;
  sd_time : valid_time o (clock i);
  sd_name : h_name h = field_name o;
  sd_text : d = with_crlf outs ++ c;
  sd_sound : sound_options strict o q;
  sd_body : exists b out, message_body t b /\ canonical_body (is_relaxed (o_cbody o)) b out /\
    bh = digest C (o_digest o) (cut (o_signlen o) (o_bodylen o) out) /\ (o_signlen o = true -> (o_bodylen o <= N.of_nat (length out))%N);
  sd_made : make_signature C o q (digest C (o_digest o) d) = Ok z;
  sd_b : unspaced B = Base64_Encode z }.

(** For the i-th of the fields [Hs]. *)
Lemma side_of C strict clock o t m H b out outs Hs m' i q : signs_something C -> ~ starts_wsp t -> (exists s, parse_all new_message (open_str t) = Ok (m, s)) ->
  Forall (sound_options strict o) (all_signatures o) -> Forall signable_name (signed_names o m) ->
  signed_message C strict clock o t m H b out outs Hs m' -> nth_error (rev (all_signatures o)) i = Some q ->
  exists h pre B c hv bh z, nth_error (m_headers m') i = Some h /\
    signer_side C strict clock o t m i q outs (with_crlf outs ++ c) (H ++ CRLF ++ t) m' h pre B [] c hv bh z.
Proof.
  intros SG NW (s & PA) SO SN SM NQ.
  assert (ALL : Forall (fun h => begins_field (h_text h)) (map header_of Hs)).
  { pose proof (sm_each _ _ _ _ _ _ _ _ _ _ _ _ SM) as F2.
    assert (SO' : Forall (fun p => sound_options strict o (snd p)) (numbered (rev (all_signatures o)))).
    { apply Forall_forall. intros [j r] I. apply in_combine_r in I. cbn [snd]. rewrite <- in_rev in I. rewrite Forall_forall in SO. auto. }
    clear - F2 SO' SN. induction F2 as [|p x l l' E F IH]; [constructor|]. apply Forall_cons_iff in SO' as [SO1 SO2]. constructor; auto.
    destruct (one_signature_produced _ _ _ _ _ _ _ _ _ E (po_named _ _ (plain_sound _ _ _ SO1)) SN) as (T & B & c & z & hv & P). rewrite (pr_header _ _ _ _ _ _ _ _ _ _ _ _ _ _ P). cbn [h_text].
    destruct (pr_begin _ _ _ _ _ _ _ _ _ _ _ _ _ _ P) as (v & ET & _). rewrite (pr_split _ _ _ _ _ _ _ _ _ _ _ _ _ _ P), ET.
    unfold field_name. destruct (o_arc o =? 0)%N; (eexists _, _; split; [reflexivity|intros [X|X]; discriminate]). }
  destruct SM as [MB CB LIM FO PN EH F2 FN (s' & PA') HM MO].
  destruct (Forall2_nth _ _ _ _ _ F2 (nth_numbered _ _ _ NQ)) as (x & NX & OS). cbn [fst snd] in OS.
  assert (SOq : sound_options strict o q). { rewrite Forall_forall in SO. apply SO. apply nth_error_In in NQ. apply in_rev. exact NQ. }
  destruct (one_signature_produced _ _ _ _ _ _ _ _ _ OS (po_named _ _ (plain_sound _ _ _ SOq)) SN) as (T & B & c & z & hv & P).
  assert (NZ : z <> []) by (eapply make_something; [exact SG|exact (pr_sign _ _ _ _ _ _ _ _ _ _ _ _ _ _ P)]).
  pose proof (pr_header _ _ _ _ _ _ _ _ _ _ _ _ _ _ P) as EHx.
  destruct (pr_begin _ _ _ _ _ _ _ _ _ _ _ _ _ _ P) as (vv & ET & TB). specialize (TB NZ).
  assert (NI : nth_error (m_headers m') i = Some (header_of x)).
  { rewrite HM, nth_error_app1, nth_error_map, NX; [reflexivity|]. rewrite map_length. apply nth_error_Some. congruence. }
  exists (header_of x), vv, B, c, hv, (digest C (o_digest o) (cut (o_signlen o) (o_bodylen o) out)), z. split; auto.
  assert (EX : firstn (S (length (field_name o))) x ++ vv ++ [] = T).
  { rewrite (pr_split _ _ _ _ _ _ _ _ _ _ _ _ _ _ P), ET, app_nil_r, <- app_assoc. cbn [app].
    change (COLON :: vv ++ B) with ([COLON] ++ vv ++ B). rewrite app_assoc.
    replace (S (length (field_name o))) with (length (field_name o ++ [COLON])) by (rewrite app_length; cbn; lia).
    rewrite firstn_app_exact, <- app_assoc. reflexivity. }
  constructor; auto.
  - rewrite EHx. constructor; cbn [h_voff h_text h_name].
    + eauto.
    + rewrite <- EHx. eapply nth_error_In; eauto.
    + unfold signature_name, field_name. destruct (o_arc o =? 0)%N; [left|right]; vm_compute; reflexivity.
    + intros f I. rewrite HM. apply in_or_app. right. unfold signed_fields in I. apply filter_In in I as [I _]. apply in_rev. exact I.
    + exact TB.
    + apply (pr_b_value _ _ _ _ _ _ _ _ _ _ _ _ _ _ P NZ).
    + clear - FO. induction FO as [|f out fs os E F IH]; constructor; auto. unfold canon_of in *. eapply FilterHeader_strict; eauto.
    + rewrite EX. eapply FilterHeader_strict. exact (pr_canon _ _ _ _ _ _ _ _ _ _ _ _ _ _ P).
  - unfold all_begin. rewrite HM. apply Forall_app. split; auto. eapply message_begins; eauto.
  - eapply produced_tags; eauto using plain_sound.
  - exact (pr_h _ _ _ _ _ _ _ _ _ _ _ _ _ _ P).
  - exact (pr_time _ _ _ _ _ _ _ _ _ _ _ _ _ _ P).
  - rewrite EHx. reflexivity.
  - exists b, out. auto.
  - exact (pr_sign _ _ _ _ _ _ _ _ _ _ _ _ _ _ P).
  - exact (pr_b _ _ _ _ _ _ _ _ _ _ _ _ _ _ P).
Qed.
Lemma side_signed C strict clock o t m i q outs d : signs_something C -> signed_text C strict clock o t m i q outs d ->
  exists t1 m1 h pre B post c hv bh z, signer_side C strict clock o t m i q outs d t1 m1 h pre B post c hv bh z.
Proof.
  intros SG [NW (s & PA) SO SN WD NQ FO (y & H & m' & s' & h & pre & b & post & c & CS & PA' & NI & TA & NB & FX & ED)].
  rewrite <- signed_listed in SN. destruct (signed_parts _ _ _ _ _ _ _ _ _ NW PA CS (plain_sounds _ _ _ SO) SN) as (b0 & out & outs' & Hs & m2 & SM).
  pose proof (sm_parse _ _ _ _ _ _ _ _ _ _ _ _ SM) as (s2 & PA2). rewrite PA' in PA2. apply Ok_inj in PA2. apply (f_equal fst) in PA2. cbn [fst] in PA2. subst m2.
  pose proof (sm_outs _ _ _ _ _ _ _ _ _ _ _ _ SM) as FO'. rewrite <- signed_fields_choice in FO. pose proof (canon_strict_fun _ _ _ _ _ FO' FO). subst outs'.
  destruct (side_of _ _ _ _ _ _ _ _ _ _ _ _ _ _ SG NW (ex_intro _ _ PA) SO SN SM NQ) as (h' & pre' & B & c' & hv & bh & z & NI' & SS).
  rewrite NI in NI'. injection NI' as <-.
  pose proof (sd_covered _ _ _ _ _ _ _ _ _ _ _ _ _ _ _ _ _ _ _ _ SS) as CV. destruct (sd_tags _ _ _ _ _ _ _ _ _ _ _ _ _ _ _ _ _ _ _ _ SS) as (_ & RT & ND).
  destruct (tag_at_unique _ _ _ _ _ _ _ _ _ RT ND b_name (cv_tag _ _ _ _ _ _ _ _ _ _ CV) TA (cv_value _ _ _ _ _ _ _ _ _ _ CV)) as (-> & -> & <-).
  rewrite (cv_x _ _ _ _ _ _ _ _ _ _ CV) in FX. apply Ok_inj in FX. subst c'. subst d.
  do 10 eexists. exact SS.
Qed.

(** ** The side of the verifier *)
Lemma wanted_signature ty h : wanted ty h = true -> signature_name (h_name h).
Proof. unfold wanted, wanted_name, signature_name. destruct ty; auto. discriminate. Qed.
Lemma verifier_side C strict ty t v h now e0 g e1 pre b post d : new_validatory strict ty (open_str t) = Ok v -> In h (v_sigs v) ->
  Signature_Parse C strict now h (new_signature, e0) = ((g, e1), Ok tt) -> tag_at (str "b") (skipn (h_voff h) (h_text h)) pre b post ->
  authenticated h g v pre post d ->
  exists outs x l, covered t (v_msg v) h (selection h_name (m_headers (v_msg v)) [] (sg_headers g)) (sg_chead g) pre b post outs x /\
    field_tags h l /\ d = with_crlf outs ++ x.
Proof.
  intros NV IN SP TA (outs & x & F & E & ->). destruct (new_validatory_spec _ _ _ _ NV) as (m & s & P & EM & _ & ES). rewrite EM in *.
  rewrite ES in IN. apply filter_In in IN as [IN W].
  destruct (b_position _ _ _ _ _ _ _ SP) as ((pre' & b' & post' & TA' & NB) & U). destruct (U _ _ _ _ _ _ TA' NB TA) as (-> & -> & ->).
  destruct (Parse_has_tags _ _ _ _ _ _ SP) as (l & FT). exists outs, x, l. split; auto. constructor; auto.
  - eauto.
  - eapply wanted_signature; eauto.
  - intros f I. eapply selection_In; eauto.
Qed.

(** The same text signed and verified. *)
Lemma binding C strict clock o t m i q outs d strict' ty t' v h now e0 g e1 pre b post : signs_something C ->
  signed_text C strict clock o t m i q outs d -> new_validatory strict' ty (open_str t') = Ok v -> In h (v_sigs v) ->
  Signature_Parse C strict' now h (new_signature, e0) = ((g, e1), Ok tt) -> tag_at (str "b") (skipn (h_voff h) (h_text h)) pre b post ->
  authenticated h g v pre post d -> (o_chead o = RELAXED /\ sg_chead g = RELAXED) \/ ~ starts_wsp t' ->
  bound C clock o t m i q outs t' (v_msg v) g now.
Proof.
  intros SG ST NV IN SP TA AU MD. destruct (side_signed _ _ _ _ _ _ _ _ _ _ SG ST) as (t1 & m1 & h1 & pre1 & B1 & post1 & c1 & hv & bh & z & SS).
  destruct (verifier_side _ _ _ _ _ _ _ _ _ _ _ _ _ _ NV IN SP TA AU) as (outs2 & x2 & l2 & CV2 & FT2 & ED).
  pose proof (sd_covered _ _ _ _ _ _ _ _ _ _ _ _ _ _ _ _ _ _ _ _ SS) as CV1. pose proof (sd_text _ _ _ _ _ _ _ _ _ _ _ _ _ _ _ _ _ _ _ _ SS) as ED1.
  assert (AB : (o_chead o = RELAXED /\ sg_chead g = RELAXED) \/ (all_begin m1 /\ all_begin (v_msg v))).
  { destruct MD as [MD|NW]; [left; auto|right]. split; [exact (sd_begin _ _ _ _ _ _ _ _ _ _ _ _ _ _ _ _ _ _ _ _ SS)|].
    destruct (cv_parse _ _ _ _ _ _ _ _ _ _ CV2) as (s2 & P2). exact (message_begins _ _ _ P2 NW). }
  rewrite ED1 in ED. destruct (same_stream _ _ _ _ _ _ _ _ _ _ _ _ _ _ _ _ _ _ _ _ CV1 CV2 AB ED) as (EX & EO & EN & EP).
  pose proof (sd_tags _ _ _ _ _ _ _ _ _ _ _ _ _ _ _ _ _ _ _ _ SS) as FT1.
  pose proof (same_tags _ _ _ _ _ _ _ _ _ _ _ _ _ _ _ _ _ _ _ _ _ _ CV1 CV2 FT1 FT2 EP) as SAME.
  rewrite (sd_name _ _ _ _ _ _ _ _ _ _ _ _ _ _ _ _ _ _ _ _ SS) in EN. symmetry in EN.
  destruct (same_read C strict strict' o q (clock i) hv bh B1 (signed_names o m) h l2 now e0 g e1
    (sd_sound _ _ _ _ _ _ _ _ _ _ _ _ _ _ _ _ _ _ _ _ SS) (sd_time _ _ _ _ _ _ _ _ _ _ _ _ _ _ _ _ _ _ _ _ SS) FT2 SP SAME EN) as [EM K].
  rewrite EM in *. specialize (EO eq_refl). subst outs2.
  assert (WD : o_chead o = RELAXED -> Forall word (signed_names o m)).
  { intros R. rewrite signed_listed. pose proof (su_words _ _ _ _ _ _ _ _ _ _ ST R) as W. pose proof (su_names _ _ _ _ _ _ _ _ _ _ ST) as S.
    rewrite Forall_forall in *. intros n I. apply signable_word; auto. }
  assert (HH : has (sig_tag_list o q (clock i) hv bh B1) "h" hv) by apply tl_h.
  specialize (K (same_list _ _ _ _ _ _ _ _ _ _ _ _ _ _ _ _ _ _ _ _ _ _ _ CV1 CV2 FT1 FT2 EX HH (sd_list _ _ _ _ _ _ _ _ _ _ _ _ _ _ _ _ _ _ _ _ SS) WD)).
  destruct K as [RB TM]. destruct RB. constructor; auto.
  - rewrite <- signed_listed. constructor; auto.
  - exact (cv_outs _ _ _ _ _ _ _ _ _ _ CV2).
  - intros b0 out0 MB0 CB0. destruct (sd_body _ _ _ _ _ _ _ _ _ _ _ _ _ _ _ _ _ _ _ _ SS) as (b1 & out1 & MB1 & CB1 & EB & LIM).
    pose proof (message_body_unique _ _ _ MB0 MB1). subst b1. apply canonical_out in CB0, CB1. assert (EO : out0 = out1) by congruence. clear CB0 CB1. subst out0. split; [congruence|auto].
Qed.

(** Every signature is made for such a text. *)
Lemma signer_text C strict clock o t y H m s : signs_something C -> ~ starts_wsp t -> parse_all new_message (open_str t) = Ok (m, s) ->
  CreateSignature C strict clock o (new_signatory (open_str t)) = (y, Ok H) -> Forall (sound_options strict o) (all_signatures o) ->
  Forall signable_name (listed_names h_name o (m_headers m)) ->
  (o_chead o = RELAXED -> Forall (Forall (fun c => ~ WSP c)) (listed_names h_name o (m_headers m))) ->
  exists m' s', parse_all new_message (open_str (H ++ CRLF ++ t)) = Ok (m', s') /\
  forall i q, nth_error (rev (all_signatures o)) i = Some q ->
  exists h pre b post outs d x, nth_error (m_headers m') i = Some h /\ tag_at (str "b") (skipn (h_voff h) (h_text h)) pre b post /\
    signed_text C strict clock o t m i q outs d /\ make_signature C o q (digest C (o_digest o) d) = Ok x /\ unspaced b = Base64_Encode x.
Proof.
  intros SG NW PA CS SO SN WD. pose proof SN as SN'. rewrite <- signed_listed in SN'.
  destruct (signed_parts _ _ _ _ _ _ _ _ _ NW PA CS (plain_sounds _ _ _ SO) SN') as (b & out & outs & Hs & m' & SM).
  destruct (sm_parse _ _ _ _ _ _ _ _ _ _ _ _ SM) as (s' & PA'). exists m', s'. split; auto. intros i q NQ.
  destruct (side_of _ _ _ _ _ _ _ _ _ _ _ _ _ _ SG NW (ex_intro _ _ PA) SO SN' SM NQ) as (h & pre & B & c & hv & bh & z & NI & SS).
  pose proof (sd_covered _ _ _ _ _ _ _ _ _ _ _ _ _ _ _ _ _ _ _ _ SS) as CV.
  exists h, pre, B, [], outs, (with_crlf outs ++ c), z. split; auto. split; [exact (cv_tag _ _ _ _ _ _ _ _ _ _ CV)|]. split.
  - constructor; auto.
    + eauto.
    + rewrite <- signed_fields_choice. exact (cv_outs _ _ _ _ _ _ _ _ _ _ CV).
    + do 9 eexists. split; [exact CS|]. split; [exact PA'|]. split; [exact NI|]. split; [exact (cv_tag _ _ _ _ _ _ _ _ _ _ CV)|].
      split; [exact (cv_value _ _ _ _ _ _ _ _ _ _ CV)|]. split; [exact (cv_x _ _ _ _ _ _ _ _ _ _ CV)|reflexivity].
  - split; [exact (sd_made _ _ _ _ _ _ _ _ _ _ _ _ _ _ _ _ _ _ _ _ SS)|exact (sd_b _ _ _ _ _ _ _ _ _ _ _ _ _ _ _ _ _ _ _ _ SS)].
Qed.

(** With an unforgeable key. *)
Lemma authentic C strict' ty t' v0 v h now e0 g e1 v' r st p0 p (owner : bool -> (nat -> Z) -> options -> bytes -> nat -> Prop) : signs_something C ->
  new_validatory strict' ty (open_str t') = Ok v0 -> in_use strict' ty t' v -> In h (v_sigs v0) -> small_field h ->
  GetSignature C strict' now h (new_signature, e0) v = (v', (g, e1), Ok tt) ->
  PublicKey_Parse C st r p0 = (p, Ok tt) -> CheckSignature C strict' h g p v' = Ok tt ->
  (forall d, accepted C g p (digest C (sg_digest g) d) ->
   exists strict clock o t m i q outs, owner strict clock o t i /\ signed_text C strict clock o t m i q outs d /\
     ((o_chead o = RELAXED /\ sg_chead g = RELAXED) \/ ~ starts_wsp t')) ->
  exists strict clock o t m i q outs, owner strict clock o t i /\
    CheckSignature C strict' h g p v' = Ok tt /\ bound C clock o t m i q outs t' (v_msg v0) g now /\
    forall b out b' out', message_body t b -> canonical_body (is_relaxed (o_cbody o)) b out ->
      message_body t' b' -> canonical_body (is_relaxed (o_cbody o)) b' out' ->
      digest C (o_digest o) (cut (o_signlen o) (o_bodylen o) out) = digest C (o_digest o) (cut (o_signlen o) (o_bodylen o) out').
Proof.
  intros SG NV IU IN SM GS KP CS UF. destruct (GetSignature_spec C strict' ty t' v now h (new_signature, e0) IU) as (v2 & IU2 & G).
  destruct (Signature_Parse C strict' now h (new_signature, e0)) as [[g1 e2] r1] eqn:SP. destruct r1 as [[]| | |]; rewrite GS in G.
  2-4: apply (f_equal snd) in G; discriminate.
  pose proof (f_equal (fun x => fst (fst x)) G) as G1. pose proof (f_equal (fun x => snd (fst x)) G) as G2. pose proof (f_equal snd G) as G3.
  cbn [fst snd] in G1, G2, G3. subst v2. apply (f_equal fst) in G2 as G2'. cbn [fst] in G2'. subst g1. apply (f_equal snd) in G2. cbn [snd] in G2. subst e2.
  destruct (CheckSignature_authenticates _ _ _ _ _ _ _ SP SM) as (pre & b & post & TA & NB & _ & K).
  destruct (K _ _ _ _ _ _ KP CS) as (d & AU & AC).
  destruct IU2 as (v00 & NV2 & EM2 & _). rewrite NV in NV2. apply Ok_inj in NV2. subst v00.
  assert (AU' : authenticated h g v0 pre post d) by (unfold authenticated in *; rewrite EM2 in AU; exact AU).
  destruct (UF d AC) as (strict & clock & o & t & m & i & q & outs & OW & ST & MD).
  pose proof (binding _ _ _ _ _ _ _ _ _ _ _ _ _ _ _ _ _ _ _ _ _ _ SG ST NV IN SP TA AU' MD) as BD.
  exists strict, clock, o, t, m, i, q, outs. split; auto. split; auto. split; auto.
  intros b1 out1 b2 out2 MB1 CB1 MB2 CB2. destruct (bd_body _ _ _ _ _ _ _ _ _ _ _ _ BD b1 out1 MB1 CB1) as [E1 _]. rewrite <- E1.
  destruct (bd_terms _ _ _ _ _ _ _ _ _ _ _ _ BD). destruct (CheckBodyHash_iff C strict' ty t' v g b2 out2 IU MB2) as [X _]; [rewrite st_cbody; auto|].
  rewrite (proj1 X) by congruence. rewrite st_digest, st_limit. unfold cut. destruct (o_signlen o); auto. rewrite st_size; auto.
Qed.
