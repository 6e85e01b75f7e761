(** The tags and the lines of the fields that signing produces: proofs. *)
From Verif Require Import Bytes Outcome Stream Tokenizer QuotedPrintable Base64 TagList MailParser Canonicalization Util CStdlib Crypto
  Signature PublicKey SignatoryOptions Signatory Validatory BytesFacts StreamFacts SpecText SpecTags SpecMail SpecCanon SpecVerify SpecSig SpecOptions SpecSign
  SpecBase64 SpecFields QPFacts Base64Facts Base64Bits ListFacts MailFacts BodyFacts BodyProps HeaderFacts HeaderProps SelectFacts TagListFacts SigFacts SigProps TagPosition VerifyFacts
  VerifyProps SignNumbers SignText SignFacts SignMail SignRound SignProps ListExact OptionsFacts.
Local Open Scope string_scope.
Local Open Scope list_scope.

(** ** Tags *)
Lemma shown_number tags n z : has tags n (fmt_lu_time z) -> has_number tags n (shown_time z).
Proof.
  intros H. exists (fmt_lu_time z). split; auto. split; [apply fmt_lu_digits|]. unfold fmt_lu_time. rewrite fmt_lu_value. reflexivity.
Qed.
Lemma tag_order_list o q now hv bh B : map fst (sig_tag_list o q now hv bh B) = tag_order o.
Proof.
  unfold sig_tag_list, tag_list, tag_order, opt_b, opt_tag.
  destruct (o_arc o =? 0)%N, (o_tssign o), (o_exsign o), (o_identity o), (o_signlen o); reflexivity.
Qed.
Lemma produced_says C strict o now hashed names bh q H T B c x hv : produced C strict o now hashed names bh q H T B c x hv -> x <> [] ->
  plain_options o q -> says o q now names bh x (sig_tag_list o q now hv bh B).
Proof.
  intros P NX SO. constructor.
  - apply tag_order_list.
  - intros A. unfold sig_tag_list. rewrite A. change (0 =? 0)%N with true. apply tl_v. reflexivity.
  - intros A. exists (fmt_lu (o_arc o)). split; [|split; [apply fmt_lu_digits|apply fmt_lu_value]]. apply N.eqb_neq in A.
    unfold sig_tag_list. rewrite A. apply tl_inst. reflexivity.
  - rewrite <- Algorithm_text. apply tl_a.
  - eexists. split; [apply tl_c|]. constructor.
  - intros E. apply shown_number. unfold sig_tag_list, opt_b. rewrite E. apply tl_opt_t. reflexivity.
  - intros E. pose proof (pr_time _ _ _ _ _ _ _ _ _ _ _ _ _ _ P E) as I. unfold in_int64, LONG_MIN, LONG_MAX in I. lia.
  - intros E. apply shown_number. unfold sig_tag_list, opt_b. rewrite E. apply tl_opt_x. reflexivity.
  - apply tl_d.
  - apply tl_s.
  - intros E. exists (qp_encode (o_identity o)). split.
    + apply tl_opt_i. destruct (o_identity o); [congruence|reflexivity].
    + apply qp_decode_grammar. apply qp_round_trip.
  - intros E. exists (fmt_lu (o_bodylen o)). split; [|split; [apply fmt_lu_digits|apply fmt_lu_value]].
    unfold sig_tag_list, opt_b. rewrite E. apply tl_opt_l. reflexivity.
  - eexists. split; [apply tl_h|]. exact (pr_h _ _ _ _ _ _ _ _ _ _ _ _ _ _ P).
  - eexists. split; [apply tl_bh|]. apply encode_bits.
  - eexists. split; [apply tl_b|]. rewrite (pr_b _ _ _ _ _ _ _ _ _ _ _ _ _ _ P). apply encode_bits.
Qed.

Lemma fields_say C strict clock o t y H m s b out : signs_something C -> parse_all new_message (open_str t) = Ok (m, s) ->
  CreateSignature C strict clock o (new_signatory (open_str t)) = (y, Ok H) ->
  Forall (plain_options o) (all_signatures o) -> Forall signable_name (listed_names h_name o (m_headers m)) ->
  message_body t b -> canonical_body (is_relaxed (o_cbody o)) b out ->
  exists fields, H = joined fields /\ length fields = length (all_signatures o) /\
  forall i q x, nth_error (rev (all_signatures o)) i = Some q -> nth_error fields i = Some x ->
  exists tags d z, field_tags (header_of x) tags /\ h_name (header_of x) = field_name o /\ make_signature C o q d = Ok z /\
    says o q (clock i) (listed_names h_name o (m_headers m)) (digest C (o_digest o) (cut (o_signlen o) (o_bodylen o) out)) z tags.
Proof.
  intros SG PA CS SO SN MB CB. rewrite <- signed_listed in *.
  destruct (create_spec _ _ _ _ _ _ _ _ _ PA CS) as (b' & out' & outs & Hs & MB' & CB' & _ & _ & _ & _ & EH & F2).
  rewrite (message_body_unique t b b' MB MB') in CB. apply canonical_out in CB. apply canonical_out in CB'. rewrite <- CB' in CB. subst out'.
  exists Hs. split; auto. split. { apply Forall2_length in F2. rewrite <- F2. unfold numbered. rewrite combine_length, seq_length, rev_length. lia. }
  intros i q x NQ NX.
  destruct (Forall2_nth _ _ _ _ _ F2 (nth_numbered _ _ _ NQ)) as (x' & NX' & OS). rewrite NX in NX'. injection NX' as <-. cbn [fst snd] in OS.
  assert (SQ : plain_options o q).
  { rewrite Forall_forall in SO. apply SO. rewrite in_rev. eapply nth_error_In; eauto. }
  destruct (one_signature_produced _ _ _ _ _ _ _ _ _ OS (po_named _ _ SQ) SN) as (T & B & c & z & hv & P).
  assert (NZ : z <> []) by (eapply make_something; [exact SG|exact (pr_sign _ _ _ _ _ _ _ _ _ _ _ _ _ _ P)]).
  eexists. eexists. exists z. split; [eapply produced_tags; eauto|]. split; [rewrite (pr_header _ _ _ _ _ _ _ _ _ _ _ _ _ _ P); reflexivity|].
  split; [exact (pr_sign _ _ _ _ _ _ _ _ _ _ _ _ _ _ P)|]. eapply produced_says; eauto.
Qed.

(** With an identity, a forwarder's field has two tags i=. *)
Lemma two_instances o q now hv bh B : o_arc o <> 0%N -> o_identity o <> [] -> ~ NoDup (map fst (sig_tag_list o q now hv bh B)).
Proof.
  intros A ID. rewrite tag_order_list. unfold tag_order. apply N.eqb_neq in A. rewrite A. destruct (o_identity o) as [|c r]; [congruence|].
  destruct (o_tssign o), (o_exsign o), (o_signlen o); cbn [map app]; intros ND; inversion ND as [|x l NI _]; subst; apply NI; cbn [In]; tauto.
Qed.
Lemma refused_twice C strict now h l e0 : h_voff h <= length (h_text h) -> rendered_tags l (skipn (h_voff h) (h_text h)) -> ~ NoDup (map fst l) ->
  snd (Signature_Parse C strict now h (new_signature, e0)) = perm.
Proof.
  intros V RT ND. destruct (TagList_refused [] _ _ RT (or_introl ND)) as (tags & E). unfold Signature_Parse, parse_tags.
  unfold substr_from. destruct (Nat.leb_spec (h_voff h) (length (h_text h))); [|lia]. cbn [slift fst new_signature sg_tags]. rewrite E. reflexivity.
Qed.
(** ** Lines *)
Definition opn (P : ascii -> Prop) (t : bytes) : Prop :=
  forall a b, t = a ++ LF :: b -> (exists a', a = a' ++ [CR]) /\ first_ok P b.
Definition lf_less (t : bytes) : Prop := last_ok (fun c => c <> LF) t.

Lemma last_ok_app (P : ascii -> Prop) x y : (y = [] -> last_ok P x) -> last_ok P y -> last_ok P (x ++ y).
Proof. unfold last_ok. rewrite rev_app_distr. intros A B. destruct y as [|c y] using rev_ind; [cbn [rev app]; auto|]. rewrite rev_app_distr in *. exact B. Qed.
Lemma opn_app P x y : opn P x -> opn P y -> (y = [] \/ (exists c r, y = c :: r /\ P c) \/ lf_less x) -> opn P (x ++ y).
Proof.
  intros A B J a b E. symmetry in E. apply app_eq_app in E as (l & [[-> E2]|[-> E2]]).
  - destruct (B l b E2) as [(a' & ->) F]. split; auto. exists (x ++ a'). apply app_assoc.
  - destruct l as [|c l]; cbn [app] in E2.
    + destruct (B [] b (eq_sym E2)) as [(a' & X) _]. destruct a'; discriminate.
    + injection E2 as <- ->. destruct (A a l eq_refl) as [CRa F]. split; auto. destruct l as [|d l]; auto. cbn [app].
      destruct J as [->|[(c & r & -> & Pc)|L]]; [exact Logic.I|exact Pc|].
      exfalso. unfold lf_less, last_ok in L. rewrite rev_app_distr in L. cbn in L. congruence.
Qed.

Lemma opn_suffix P x y : opn P (x ++ y) -> last_ok (fun c => c <> CR) x -> opn P y.
Proof.
  intros A L a b E. destruct (A (x ++ a) b) as [(a' & E1) F]; [rewrite E, <- app_assoc; reflexivity|]. split; auto.
  destruct a as [|c a] using rev_ind.
  - exfalso. rewrite app_nil_r in E1. subst x. unfold last_ok in L. rewrite rev_app_distr in L. cbn in L. congruence.
  - rewrite app_assoc in E1. apply app_inj_tail in E1 as [_ ->]. exists a. reflexivity.
Qed.
Lemma opn_prefix P x y : opn P (x ++ y) -> opn P x.
Proof.
  intros A a b E. destruct (A a (b ++ y)) as [X F]; [rewrite E, <- app_assoc; reflexivity|]. split; auto. destruct b; auto. exact Logic.I.
Qed.
Lemma opn_plain P x : ~ In LF x -> opn P x.
Proof. intros N a b ->. exfalso. apply N. apply in_or_app. right. left. reflexivity. Qed.
Lemma lf_less_plain x : ~ In LF x -> lf_less x.
Proof.
  intros N. unfold lf_less, last_ok. destruct x as [|c x] using rev_ind; [exact Logic.I|]. rewrite rev_app_distr. cbn. intros ->. apply N. apply in_or_app. right. left. reflexivity.
Qed.
Lemma opn_mono (P Q : ascii -> Prop) x : (forall c, P c -> Q c) -> opn P x -> opn Q x.
Proof. intros I A a b E. destruct (A a b E) as [X F]. split; auto. destruct b; auto. apply I. exact F. Qed.
Lemma opn_closed P x : opn P x -> lf_less x -> line_starts P x.
Proof.
  intros A L a b E. destruct (A a b E) as [(a' & ->) F]. destruct b as [|c b].
  - exfalso. unfold lf_less, last_ok in L. rewrite E, rev_app_distr in L. cbn in L. congruence.
  - exists a', c, b. auto.
Qed.
(** Lines joined by CRLF. *)
Lemma opn_joined (l : bytes) (g : list bytes) : ~ In LF l -> Forall (fun x => continuation x /\ ~ In LF x) g -> opn WSP (joined (l :: g)) /\ lf_less (joined (l :: g)).
Proof.
  intros NL F. revert l NL. induction F as [|k g [(c & r & Ek & Wc) NK] F IH]; intros l NL.
  - split; [apply opn_plain|apply lf_less_plain]; auto.
  - rewrite joined_cons2. destruct (IH k NK) as [A B].
    assert (E : exists z, joined (k :: g) = c :: z) by (subst k; destruct g; eexists; reflexivity). destruct E as (z & E). rewrite E in A, B. rewrite E. clear E.
    split.
    + apply opn_app; [apply opn_plain; auto| |right; right; apply lf_less_plain; auto].
      intros a b X. unfold CRLF in X. cbn [app] in X. destruct a as [|x a]; cbn [app] in X; [discriminate|]. injection X as <- X.
      destruct a as [|x a]; cbn [app] in X.
      * injection X as <-. split; [exists []; reflexivity|exact Wc].
      * injection X as <- X. destruct (A a b X) as [(a' & ->) FF]. split; auto. exists (CR :: LF :: a'). reflexivity.
    + apply last_ok_app; [discriminate|]. apply last_ok_app; [discriminate|exact B].
Qed.
Lemma folded_opn x : folded_text x -> opn WSP x /\ lf_less x.
Proof.
  intros (l & g & -> & NL & F). apply opn_joined; auto. eapply Forall_impl; [|exact F]. intros k [(r & ->) N]. split; auto. exists HT, r. split; auto. right; reflexivity.
Qed.

(** The name of a field. *)
Lemma WSP_not_CR w : Forall WSP w -> last_ok (fun c => c <> CR) w.
Proof.
  intros F. unfold last_ok. apply Forall_rev in F. destruct (rev w) as [|c r]; [exact Logic.I|]. inversion F as [|? ? [->| ->] _]; subst; cbn; discriminate.
Qed.
Lemma message_names t m s' h : parse_all new_message (open_str t) = Ok (m, s') -> In h (m_headers m) -> opn WSP (h_name h).
Proof.
  intros P I. destruct (message_fields' t) as (ls & hd & rest & m' & s2 & HB & ET & P' & _ & gs & F2 & FL & _ & G).
  rewrite P in P'. apply Ok_inj in P'. injection P' as <- _.
  assert (NL : Forall (fun l => ~ In LF l) (concat gs)).
  { apply block_no_lf in HB. destruct G as [[_ ->]|(_ & l & [N [->|[-> _]]] & ->)]; auto; apply Forall_app; (split; [exact HB|]);
      destruct l as [|c l]; constructor; auto. intros X. apply N. apply in_or_app. left. exact X. }
  clear - I F2 FL NL. revert I. induction F2 as [|f g fs gs [E NM] F2 IH]; intros I; [destruct I|].
  inversion FL; subst. cbn [concat] in NL. apply Forall_app in NL as [N1 N2]. destruct I as [<-|I]; auto.
  assert (O : opn WSP (joined g)).
  { destruct g as [|l g]; [contradiction|]. inversion N1; subst. apply opn_joined; auto. clear - H1 H4.
    cbn [field_lines] in H1. induction H1; inversion H4; subst; constructor; auto. }
  inversion NM as [t0 NC E1 E2 E3|w1 n w2 r NC W1 W2 T E1 E2 E3]; [apply opn_plain; auto|].
  rewrite <- E1 in O. apply opn_prefix in O. apply opn_suffix in O; [|apply WSP_not_CR; auto]. apply opn_prefix in O. rewrite <- E2. exact O.
Qed.
Lemma opn_lower (P : ascii -> Prop) x : (forall c, P c -> P (tolower c)) -> opn P x -> opn P (lower x).
Proof.
  intros PL A a b E. unfold lower in E. apply map_eq_app in E as (l1 & l2 & -> & <- & E). destruct l2 as [|c l2]; [discriminate|]. cbn [map] in E. injection E as Ec <-.
  assert (c = LF). { apply ceqb_eq. assert (K : forall c, implb (tolower c =?c LF) (c =?c LF) = true) by (apply byte_sweep; vm_compute; reflexivity). specialize (K c). rewrite Ec, ceqb_refl in K. exact K. }
  subst c. destruct (A l1 l2 eq_refl) as [(a' & ->) F]. split. { exists (map tolower a'). rewrite map_app. reflexivity. } destruct l2; auto. cbn. apply PL. exact F.
Qed.
Lemma WSP_lower c : WSP c -> WSP (tolower c). Proof. intros [->| ->]; [left|right]; reflexivity. Qed.
Lemma lf_less_lower x : lf_less x -> lf_less (lower x).
Proof.
  unfold lf_less, last_ok, lower. rewrite <- map_rev. destruct (rev x) as [|c r]; auto. cbn. intros N E. apply N.
  apply ceqb_eq. assert (K : forall c, implb (tolower c =?c LF) (c =?c LF) = true) by (apply byte_sweep; vm_compute; reflexivity). specialize (K c). rewrite E, ceqb_refl in K. exact K.
Qed.

(** Text that may be followed by ':' or ';'. *)
Definition sep_ok (P : ascii -> Prop) (x : bytes) : Prop := opn P x /\ ((P COLON /\ P SEMI) \/ lf_less x).
Lemma sep_app (P : ascii -> Prop) c x y : c = COLON \/ c = SEMI -> sep_ok P x -> sep_ok P y -> sep_ok P (x ++ c :: y).
Proof.
  intros Ec [A A2] [B B2]. assert (NC : c <> LF) by (destruct Ec as [->| ->]; discriminate). split.
  - apply opn_app; auto.
    + change (c :: y) with ([c] ++ y). apply opn_app; [apply opn_plain; intros [X|[]]; auto|exact B|right; right; apply lf_less_plain; intros [X|[]]; auto].
    + right. destruct A2 as [[PC PS]|L]; auto. left. exists c, y. split; auto. destruct Ec as [->| ->]; auto.
  - destruct B2 as [Q|L]; auto. right. apply last_ok_app; [discriminate|]. change (c :: y) with ([c] ++ y). apply last_ok_app; [intros _; exact NC|exact L].
Qed.
Lemma sep_lead P x y : opn P x -> lf_less x -> sep_ok P y -> sep_ok P (x ++ y).
Proof.
  intros A L [B B2]. split; [apply opn_app; auto|]. destruct B2 as [Q|M]; auto. right. apply last_ok_app; auto.
Qed.
Lemma sep_folded (P : ascii -> Prop) x : (forall c, WSP c -> P c) -> folded_text x -> sep_ok P x.
Proof. intros W F. apply folded_opn in F as [A B]. split; auto. eapply opn_mono; eauto. Qed.
Lemma sep_nil P : sep_ok P []. Proof. split; [apply opn_plain; auto|right; exact Logic.I]. Qed.

Section Lines.
  Variable P : ascii -> Prop.
  Hypothesis PW : forall c, WSP c -> P c.
  Lemma lead_folded x y : folded_text x -> sep_ok P y -> sep_ok P (x ++ y).
  Proof. intros F S. apply folded_opn in F as [A B]. apply sep_lead; auto. eapply opn_mono; eauto. Qed.
  Lemma names_sep names : Forall (sep_ok P) names -> forall first t, h_layout first names t ->
    sep_ok P t /\ (first = false -> exists y, t = COLON :: y /\ sep_ok P y \/ t = []).
  Proof.
    induction 1 as [|n r Sn F IH]; intros first t H; inversion H as [|? ? ? w t' W H' E1 E2]; subst.
    - split; [apply sep_nil|]. intros _. exists []. auto.
    - destruct (IH false t' H') as [A B]. destruct (B eq_refl) as (y & [[-> Sy]| ->]); clear B;
      assert (SW : sep_ok P (w ++ n ++ COLON :: y) \/ True) by auto; clear SW.
      + assert (X : sep_ok P (w ++ n ++ COLON :: y)).
        { destruct W as [->| ->]; cbn [app]; [apply sep_app; auto|]. change (CR :: LF :: HT :: SP :: n ++ COLON :: y) with ((CRLF ++ [HT; SP]) ++ n ++ COLON :: y).
          apply lead_folded; [|apply sep_app; auto]. apply fold_space_folded. right; right; right; auto. }
        destruct first; [split; [exact X|discriminate]|]. split; [|intros _; eexists; left; split; [reflexivity|exact X]].
        change ([COLON] ++ w ++ n ++ COLON :: y) with ([] ++ COLON :: w ++ n ++ COLON :: y). apply sep_app; auto using sep_nil.
      + rewrite app_nil_r. assert (X : sep_ok P (w ++ n)).
        { destruct W as [->| ->]; auto. apply lead_folded; auto. apply fold_space_folded. right; right; right; auto. }
        destruct first; [split; [exact X|discriminate]|]. split; [|intros _; eexists; left; split; [reflexivity|exact X]].
        change ([COLON] ++ w ++ n) with ([] ++ COLON :: w ++ n). apply sep_app; auto using sep_nil.
  Qed.
  Lemma entries_sep l : Forall (fun e => sep_ok P (entry_text e)) l -> sep_ok P (entries_text l).
  Proof.
    induction 1 as [|e l G F IH]; [apply sep_nil|]. destruct l as [|e2 l]; [exact G|]. rewrite entries_cons by discriminate. apply sep_app; auto.
  Qed.
  Lemma entry_sep e : fold_space (e_w1 e) -> ~ In LF (e_name e) -> fold_space (e_w3 e) -> sep_ok P (e_value e) -> sep_ok P (entry_text e).
  Proof.
    intros A B D S. unfold entry_text. apply lead_folded; [apply fold_space_folded; auto|]. apply lead_folded; [apply folded_plain; auto|].
    change (EQUALS :: e_w3 e ++ e_value e) with ([EQUALS] ++ e_w3 e ++ e_value e). apply lead_folded; [apply folded_plain; intros [X|[]]; discriminate|].
    apply lead_folded; auto. apply fold_space_folded; auto.
  Qed.
  Lemma plain_sep v : ~ In LF v -> sep_ok P v.
  Proof. intros N. split; [apply opn_plain; auto|right; apply lf_less_plain; auto]. Qed.
  Lemma values_no_lf v : Forall value_byte v -> ~ In LF v.
  Proof. intros F. eapply Forall_not_In; [exact F|]. intros V. apply value_byte_LF in V. congruence. Qed.
  Lemma one_signature_lines C strict o now hashed names bh q x : one_signature C strict o now hashed names bh q = Ok x ->
    ~ In LF (so_domain q) -> ~ In LF (so_selector q) -> Forall (sep_ok P) names ->
    (exists r, x = field_name o ++ COLON :: r) /\ line_starts P x.
  Proof.
    intros OS ND NS F. unfold one_signature in OS.
    destruct (sig_template o q now names bh) as [T| | |] eqn:ET; cbn [obind] in OS; try discriminate.
    destruct (FilterHeader strict (o_chead o) T) as [c| | |] eqn:EF; cbn [obind] in OS; try discriminate.
    destruct (make_signature C o q (digest C (o_digest o) (hashed ++ c))) as [z| | |] eqn:EM; cbn [obind] in OS; try discriminate.
    cbv zeta in OS. apply Ok_inj in OS. destruct (template_text o q now names bh T ET) as (_ & t & HL & TT). specialize (TT [] t eq_refl).
    destruct (names_sep names F true t HL) as [St _]. destruct (field_name_plain o) as (_ & _ & NLF).
    assert (SE : sep_ok P (entries_text (sig_entries o q now [] t bh))).
    { apply entries_sep. unfold sig_entries.
      assert (SPf : fold_space [SP]) by (right; left; auto). assert (NLf : fold_space (CRLF ++ [HT])) by (right; right; left; auto). assert (NIf : fold_space []) by (left; auto).
      assert (NM : forall n, find_char LF (str n) = None -> ~ In LF (str n)) by (intros n; apply find_char_None).
      assert (SPE : forall n v, find_char LF (str n) = None -> ~ In LF v -> sep_ok P (entry_text (sp_entry n v))) by (intros; apply entry_sep; cbn [sp_entry e_w1 e_name e_w3 e_value]; auto using plain_sep).
      assert (NLE : forall n v, find_char LF (str n) = None -> ~ In LF v -> sep_ok P (entry_text (nl_entry n v))) by (intros; apply entry_sep; cbn [nl_entry e_w1 e_name e_w3 e_value]; auto using plain_sep).
      assert (FD : forall k, ~ In LF (fmt_lu k)) by (intros; apply values_no_lf, digits_bytes, fmt_lu_digits).
      assert (DT : forall k, ~ In LF (fmt_lu_time k)) by (intros; apply FD).
      repeat (apply Forall_app; split).
      - constructor; [|constructor; [|constructor; [|constructor]]].
        + apply entry_sep; cbn [e_w1 e_name e_w3 e_value]; auto; unfold tag_instance; destruct (o_arc o =? 0)%N; cbn [fst snd]; try (apply NM; reflexivity).
          * apply plain_sep, find_char_None. reflexivity.
          * apply plain_sep, FD.
        + apply SPE; auto. apply find_char_None. destruct (so_alg (o_main o)), (o_digest o); reflexivity.
        + apply SPE; auto. apply find_char_None. unfold mode_pair. destruct (o_chead o), (o_cbody o); reflexivity.
      - destruct (o_tssign o); auto.
      - destruct (o_exsign o); auto.
      - auto.
      - destruct (o_identity o) as [|i0 ir]; auto. constructor; auto. apply SPE; auto. apply values_no_lf. exact (qp_output_safe (i0 :: ir)).
      - destruct (o_signlen o); auto.
      - constructor; [|constructor; [|constructor]]; [apply entry_sep; cbn [e_w1 e_name e_w3 e_value]; auto; apply NM; reflexivity|].
        apply NLE; auto. apply values_no_lf, b64_bytes. }
    assert (SB : folded_text (fold_b (S (length (Base64_Encode z))) 3 (Base64_Encode z))).
    { destruct z as [|z0 zr]; [apply folded_plain; intros []|]. apply (fold_b_value (z0 :: zr)). discriminate. }
    set (B := fold_b _ _ _) in *. set (ent := entries_text (sig_entries o q now [] t bh)) in *.
    set (tail := (CRLF ++ HT :: str "b=") ++ B).
    assert (EX : x = field_name o ++ COLON :: ent ++ SEMI :: tail).
    { rewrite <- OS, TT. subst tail. change (str "b=") with (str "b" ++ [EQUALS]). repeat (rewrite <- ?app_assoc; cbn [app]). reflexivity. }
    assert (FT : folded_text tail).
    { subst tail. apply folded_app; auto. apply folded_crlf; auto. intros [X|[X|[X|[]]]]; discriminate. }
    split; [eauto|].
    assert (SX : sep_ok P x).
    { rewrite EX. apply sep_app; [auto|apply plain_sep; auto|]. apply sep_app; auto. apply sep_folded; auto. }
    apply opn_closed; [exact (proj1 SX)|]. apply folded_opn in FT as [_ L].
    replace x with ((field_name o ++ COLON :: ent ++ [SEMI]) ++ tail).
    - apply last_ok_app; [discriminate|exact L].
    - rewrite EX. repeat (rewrite <- ?app_assoc; cbn [app]). reflexivity.
  Qed.
End Lines.

Lemma fields_lines (P : ascii -> Prop) C strict clock o t y H m s : (forall c, WSP c -> P c) -> parse_all new_message (open_str t) = Ok (m, s) ->
  CreateSignature C strict clock o (new_signatory (open_str t)) = (y, Ok H) ->
  Forall (fun q => ~ In LF (so_domain q) /\ ~ In LF (so_selector q)) (all_signatures o) -> Forall (sep_ok P) (signed_names o m) ->
  exists fields, H = joined fields /\ length fields = length (all_signatures o) /\
  Forall (fun x => (exists r, x = field_name o ++ COLON :: r) /\ line_starts P x) fields.
Proof.
  intros PW PA CS ND F. destruct (create_spec _ _ _ _ _ _ _ _ _ PA CS) as (b' & out' & outs & Hs & _ & _ & _ & _ & _ & _ & EH & F2).
  exists Hs. split; auto. split. { apply Forall2_length in F2. rewrite <- F2. unfold numbered. rewrite combine_length, seq_length, rev_length. lia. }
  assert (N2 : Forall (fun p => ~ In LF (so_domain (snd p)) /\ ~ In LF (so_selector (snd p))) (numbered (rev (all_signatures o)))).
  { apply Forall_forall. intros [i q] I. apply in_combine_r in I. cbn [snd]. rewrite <- in_rev in I. rewrite Forall_forall in ND. auto. }
  clear ND. revert N2 F2. generalize (digest C (o_digest o) (cut (o_signlen o) (o_bodylen o) out')), (numbered (rev (all_signatures o))). clear EH. intros bh l N2 F2. induction F2 as [|p x l0 l' E F2 IH]; constructor; inversion N2 as [|? ? [N3 N4] N5]; subst; auto.
  eapply one_signature_lines; eauto.
Qed.

(** Options that calls of the setters lead to. *)
Lemma sig_op_well C m q : named_well q -> named_well (fst (run_sig_op C m q)).
Proof.
  intros [A B]. destruct m; cbn [run_sig_op].
  - destruct (so_key_fields C key q) as (_ & D & S). split; [rewrite D|rewrite S]; auto.
  - split; auto.
  - destruct (setdomain_spec d q) as [[D E]|[D E]]; rewrite E; split; cbn; auto.
  - destruct (setselector_spec s q) as [[D E]|[D E]]; rewrite E; split; cbn; auto.
  - split; auto.
Qed.
Lemma update_nth_Forall {A} (P : A -> Prop) n x l : P x -> Forall P l -> Forall P (update_nth n x l).
Proof.
  intros Px F. unfold update_nth. rewrite <- (firstn_skipn n l) in F. apply Forall_app in F as [F1 F2]. apply Forall_app. split; auto.
  destruct (skipn n l); auto. inversion F2; subst. constructor; auto.
Qed.
Lemma ops_well C l : forall o, Forall named_well (all_signatures o) -> Forall named_well (all_signatures (run_ops C l o)).
Proof.
  induction l as [|x l IH]; intros o F; cbn [run_ops]; auto. apply IH. clear IH. unfold all_signatures in *. apply Forall_cons_iff in F as [A B].
  destruct x; cbn [run_op fst o_main o_more]; try (constructor; assumption).
  - pose proof (sig_op_well C m _ A) as K. destruct (run_sig_op C m (o_main o)). constructor; auto.
  - destruct (nth_error (o_more o) n) as [s0|] eqn:E; [|constructor; auto].
    assert (N : named_well s0) by (rewrite Forall_forall in B; apply B; eapply nth_error_In; eauto).
    pose proof (sig_op_well C m _ N) as K. destruct (run_sig_op C m s0). constructor; auto. apply update_nth_Forall; auto.
  - constructor; auto. apply Forall_app. split; auto. constructor; auto. split; left; reflexivity.
Qed.
Lemma history_well C l : Forall named_well (all_signatures (run_ops C l new_options)).
Proof. apply ops_well. constructor; [split; left; reflexivity|constructor]. Qed.
Lemma plain_history C l : let o := run_ops C l new_options in (o_arc o <> 0%N -> o_identity o = []) -> Forall (plain_options o) (all_signatures o).
Proof. intros o AI. eapply Forall_impl; [|apply (history_well C l)]. intros q W. constructor; auto. Qed.
Lemma fields_two_instances C strict clock l t y H m s : let o := run_ops C l new_options in o_arc o <> 0%N -> o_identity o <> [] ->
  signs_something C -> parse_all new_message (open_str t) = Ok (m, s) ->
  CreateSignature C strict clock o (new_signatory (open_str t)) = (y, Ok H) ->
  Forall signable_name (listed_names h_name o (m_headers m)) ->
  exists fields, H = joined fields /\ length fields = length (all_signatures o) /\
  Forall (fun x => h_name (header_of x) = field_name o /\
    forall C' strict' now e0, snd (Signature_Parse C' strict' now (header_of x) (new_signature, e0)) = perm) fields.
Proof.
  intros o A ID SG PA CS SN. rewrite <- signed_listed in SN.
  destruct (create_spec _ _ _ _ _ _ _ _ _ PA CS) as (b' & out' & outs & Hs & _ & _ & _ & _ & _ & _ & EH & F2).
  exists Hs. split; auto. split. { apply Forall2_length in F2. rewrite <- F2. unfold numbered. rewrite combine_length, seq_length, rev_length. lia. }
  assert (W : Forall (fun p => named_well (snd p)) (numbered (rev (all_signatures o)))).
  { apply Forall_forall. intros [i q] I. apply in_combine_r in I. cbn [snd]. rewrite <- in_rev in I. pose proof (history_well C l) as K. rewrite Forall_forall in K. auto. }
  clear EH CS. induction F2 as [|p x l0 l' E F2 IH]; constructor; apply Forall_cons_iff in W as [W1 W2]; auto.
  destruct (one_signature_produced _ _ _ _ _ _ _ _ _ E W1 SN) as (T & B & c & z & hv & P).
  assert (NZ : z <> []) by (eapply make_something; [exact SG|exact (pr_sign _ _ _ _ _ _ _ _ _ _ _ _ _ _ P)]).
  rewrite (pr_header _ _ _ _ _ _ _ _ _ _ _ _ _ _ P). split; [reflexivity|]. intros C' strict' now e0.
  eapply refused_twice; cbn [h_voff h_text]; [|exact (pr_tags _ _ _ _ _ _ _ _ _ _ _ _ _ _ P NZ)|apply two_instances; auto].
  destruct (pr_begin _ _ _ _ _ _ _ _ _ _ _ _ _ _ P) as (v & ET & _). rewrite (pr_split _ _ _ _ _ _ _ _ _ _ _ _ _ _ P), ET, !app_length. cbn [length]. lia.
Qed.
Definition named_safely (q : sig_options) : Prop := ~ In LF (so_domain q) /\ ~ In LF (so_selector q).
Lemma history_safe C l : Forall named_safely (all_signatures (run_ops C l new_options)).
Proof. eapply Forall_impl; [|apply (history_well C l)]. intros q [A B]. split; apply values_no_lf, dotted_or_empty; auto. Qed.

Definition break_byte (c : ascii) : Prop := WSP c \/ c = COLON \/ c = SEMI.
Lemma listed_sep (P : ascii -> Prop) t m s o : (forall c, WSP c -> P c) -> parse_all new_message (open_str t) = Ok (m, s) ->
  (forall n, In n (o_oversign o) -> ~ In LF n) ->
  (forall h, In h (m_headers m) -> choice o (h_name h) = true -> (P COLON /\ P SEMI) \/ lf_less (h_name h)) -> Forall (sep_ok P) (signed_names o m).
Proof.
  intros PW PA OV CH. rewrite signed_listed. unfold listed_names. apply Forall_app. split; apply Forall_map.
  - apply Forall_forall. intros h I. apply filter_In in I as [I C]. rewrite <- in_rev in I. rewrite map_low. split.
    + apply (opn_mono WSP); auto. apply opn_lower; [apply WSP_lower|]. eapply message_names; eauto.
    + destruct (CH h I C) as [X|L]; auto. right. apply lf_less_lower, L.
  - apply Forall_forall. intros n I. rewrite map_low. apply OV in I. split.
    + apply (opn_mono WSP); auto. apply opn_lower; [apply WSP_lower|]. apply opn_plain; auto.
    + right. apply lf_less_lower, lf_less_plain, I.
Qed.
Lemma fields_no_injection C strict clock l t y H : let o := run_ops C l new_options in
  (forall n, In n (o_oversign o) -> ~ In LF n) -> CreateSignature C strict clock o (new_signatory (open_str t)) = (y, Ok H) ->
  exists fields, H = joined fields /\ length fields = length (all_signatures o) /\
  Forall (fun x => (exists r, x = field_name o ++ COLON :: r) /\ line_starts (fun c => WSP c \/ c = COLON \/ c = SEMI) x) fields.
Proof.
  intros o OV CS. destruct (message_fields t) as (_ & _ & _ & m & s & _ & _ & PA & _).
  apply (fields_lines break_byte C strict clock o t y H m s); auto; [left; assumption|apply history_safe|].
  eapply listed_sep; eauto; [left; assumption|]. intros h _ _. left. split; [right; left|right; right]; reflexivity.
Qed.
Lemma fields_unbroken C strict clock l t y H m s : let o := run_ops C l new_options in
  (forall n, In n (o_oversign o) -> ~ In LF n) -> parse_all new_message (open_str t) = Ok (m, s) ->
  (forall h, In h (m_headers m) -> chosen o (h_name h) -> last_ok (fun c => c <> LF) (h_name h)) ->
  CreateSignature C strict clock o (new_signatory (open_str t)) = (y, Ok H) ->
  exists fields, H = joined fields /\ length fields = length (all_signatures o) /\
  Forall (fun x => (exists r, x = field_name o ++ COLON :: r) /\ line_starts WSP x) fields.
Proof.
  intros o OV PA CH CS. apply (fields_lines WSP C strict clock o t y H m s); auto; [apply history_safe|].
  eapply listed_sep; eauto. intros h I C1. right. apply CH; auto. apply choice_chosen, C1.
Qed.
Lemma fields_unbroken' C strict clock l t y H m s : let o := run_ops C l new_options in
  (forall n, In n (o_oversign o) -> ~ In LF n) -> parse_all new_message (open_str t) = Ok (m, s) ->
  (forall h, In h (m_headers m) -> chosen o (h_name h) -> forall a, h_name h <> a ++ [LF]) ->
  CreateSignature C strict clock o (new_signatory (open_str t)) = (y, Ok H) ->
  exists fields, H = joined fields /\ length fields = length (all_signatures o) /\
  Forall (fun x => (exists r, x = field_name o ++ COLON :: r) /\ line_starts WSP x) fields.
Proof.
  intros o OV PA CH. apply fields_unbroken with (m := m) (s := s); auto. intros h I CN. specialize (CH h I CN). unfold last_ok.
  destruct (h_name h) as [|c r] using rev_ind; [exact Logic.I|]. rewrite rev_app_distr. cbn. intros ->. exact (CH r eq_refl).
Qed.

(** ** Times *)
Lemma shown_small z : (0 <= z < 9223372036854775808)%Z -> shown_time z = Z.to_N z.
Proof. intros B. unfold shown_time. rewrite Z.mod_small; auto. lia. Qed.
Lemma fields_times C strict clock o t y H m s : signs_something C -> parse_all new_message (open_str t) = Ok (m, s) ->
  CreateSignature C strict clock o (new_signatory (open_str t)) = (y, Ok H) ->
  Forall (plain_options o) (all_signatures o) -> Forall signable_name (listed_names h_name o (m_headers m)) ->
  o_tssign o = true -> o_exsign o = true -> o_exabs o = false -> (0 < o_ex o)%Z ->
  (forall i, 0 <= if (o_ts o =? -1)%Z then clock i else o_ts o)%Z ->
  exists fields, H = joined fields /\ length fields = length (all_signatures o) /\
  forall i x, nth_error fields i = Some x -> exists tags a b, field_tags (header_of x) tags /\ has_number tags "t" a /\ has_number tags "x" b /\
    (a < b)%N /\ (o_ts o = (-1)%Z -> (clock i < Z.of_N b)%Z).
Proof.
  intros SG PA CS SO SN T1 X1 XA XP NN. destruct (message_body_exists t) as (b & MB).
  set (out := out_fun (is_relaxed (o_cbody o)) (canon_list (is_relaxed (o_cbody o)) b)).
  assert (CB : canonical_body (is_relaxed (o_cbody o)) b out) by (apply canonical_out; reflexivity).
  destruct (fields_say C strict clock o t y H m s b out SG PA CS SO SN MB CB) as (fields & E & L & K). exists fields. split; auto. split; auto.
  intros i x NX. assert (exists q, nth_error (rev (all_signatures o)) i = Some q) as (q & NQ).
  { assert (i < length fields) by (apply nth_error_Some; congruence). rewrite L, <- rev_length in H0.
    destruct (nth_error (rev (all_signatures o)) i) eqn:Q; eauto. apply nth_error_None in Q. lia. }
  destruct (K i q x NQ NX) as (tags & d & z & FT & _ & _ & SY). exists tags.
  pose proof (sy_fits _ _ _ _ _ _ _ SY X1) as FI. specialize (NN i). pose proof (sy_t _ _ _ _ _ _ _ SY T1) as HT1. pose proof (sy_x _ _ _ _ _ _ _ SY X1) as HX1.
  assert (EE : expiry o (clock i) = ((if o_ts o =? -1 then clock i else o_ts o) + o_ex o)%Z) by (unfold expiry; rewrite XA, T1; reflexivity).
  rewrite shown_small in HT1 by lia. rewrite shown_small in HX1 by lia. eexists; eexists. split; [exact FT|]. split; [exact HT1|]. split; [exact HX1|].
  split; [lia|]. intros TS. rewrite Z2N.id by lia. rewrite EE, TS. cbn. lia.
Qed.
Lemma shown_wrapped z : (- 9223372036854775808 <= z < 9223372036854775808)%Z ->
  Z.of_N (shown_time z) = (if z <? 0 then z + 18446744073709551616 else z)%Z.
Proof.
  intros B. unfold shown_time. rewrite Z2N.id by (apply Z.mod_pos_bound; lia). destruct (Z.ltb_spec z 0).
  - symmetry. apply (Z.mod_unique z 18446744073709551616 (-1)); lia.
  - apply Z.mod_small. lia.
Qed.
Lemma fields_times_exact C strict clock o t y H m s : signs_something C -> parse_all new_message (open_str t) = Ok (m, s) ->
  CreateSignature C strict clock o (new_signatory (open_str t)) = (y, Ok H) ->
  Forall (plain_options o) (all_signatures o) -> Forall signable_name (listed_names h_name o (m_headers m)) ->
  o_tssign o = true -> o_exsign o = true ->
  exists fields, H = joined fields /\ length fields = length (all_signatures o) /\
  forall i x, nth_error fields i = Some x ->
  let made := (if o_ts o =? -1 then clock i else o_ts o)%Z in let ends := (if o_exabs o then o_ex o else made + o_ex o)%Z in
  (- 9223372036854775808 <= made < 9223372036854775808)%Z ->
  exists tags a b, field_tags (header_of x) tags /\ has_number tags "t" a /\ has_number tags "x" b /\
    ((a < b)%N <-> (0 <= made /\ (ends < 0 \/ made < ends) \/ made < 0 /\ ends < 0 /\ made < ends)%Z).
Proof.
  intros SG PA CS SO SN T1 X1. destruct (message_body_exists t) as (b & MB).
  set (out := out_fun (is_relaxed (o_cbody o)) (canon_list (is_relaxed (o_cbody o)) b)).
  assert (CB : canonical_body (is_relaxed (o_cbody o)) b out) by (apply canonical_out; reflexivity).
  destruct (fields_say C strict clock o t y H m s b out SG PA CS SO SN MB CB) as (fields & E & L & K). exists fields. split; auto. split; auto.
  intros i x NX made ends BM. assert (exists q, nth_error (rev (all_signatures o)) i = Some q) as (q & NQ).
  { assert (i < length fields) by (apply nth_error_Some; congruence). rewrite L, <- rev_length in H0.
    destruct (nth_error (rev (all_signatures o)) i) eqn:Q; eauto. apply nth_error_None in Q. lia. }
  destruct (K i q x NQ NX) as (tags & d & z & FT & _ & _ & SY). exists tags.
  pose proof (sy_fits _ _ _ _ _ _ _ SY X1) as FI. pose proof (sy_t _ _ _ _ _ _ _ SY T1) as HT1. pose proof (sy_x _ _ _ _ _ _ _ SY X1) as HX1.
  assert (EE : expiry o (clock i) = ends) by (unfold expiry, ends, made; rewrite T1; destruct (o_exabs o); reflexivity).
  rewrite EE in FI, HX1. fold made in HT1. do 2 eexists. split; [exact FT|]. split; [exact HT1|]. split; [exact HX1|].
  pose proof (shown_wrapped _ BM) as W1. pose proof (shown_wrapped _ FI) as W2. rewrite N2Z.inj_lt, W1, W2.
  destruct (Z.ltb_spec made 0), (Z.ltb_spec ends 0); lia.
Qed.
