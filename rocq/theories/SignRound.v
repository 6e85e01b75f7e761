(** A generated signature verifies. *)
From Verif Require Import Bytes Outcome Stream Tokenizer QuotedPrintable Base64 TagList MailParser Canonicalization Util CStdlib Crypto
  Signature PublicKey SignatoryOptions Signatory Validatory BytesFacts StreamFacts SpecText SpecTags SpecMail SpecCanon SpecVerify SpecSig SpecOptions SpecSign QPFacts
  Base64Facts ListFacts MailFacts BodyFacts BodyProps HeaderFacts HeaderProps SelectFacts TagListFacts SigFacts SigProps TagPosition VerifyFacts VerifyProps
  SignNumbers SignText SignFacts SignMail.

Definition signed_fields (o : options) (m : message) : list header := filter (picked (map lower (o_headers o))) (rev (m_headers m)).
Definition signed_names (o : options) (m : message) : list bytes := map lname (signed_fields o m) ++ map lower (o_oversign o).

(** What CreateSignature computes. *)
Lemma create_spec C strict clock o t y H m s : parse_all new_message (open_str t) = Ok (m, s) ->
  CreateSignature C strict clock o (new_signatory (open_str t)) = (y, Ok H) ->
  exists b out outs Hs, message_body t b /\ canonical_body (is_relaxed (o_cbody o)) b out /\
    (o_signlen o = true -> (o_bodylen o <= N.of_nat (length out))%N) /\
    Forall2 (canon_of strict (o_chead o)) (signed_fields o m) outs /\
    Forall (fun h => plain_name strict (h_name h)) (m_headers m) /\ Forall (plain_name strict) (o_oversign o) /\
    H = joined Hs /\
    Forall2 (fun p x => one_signature C strict o (clock (fst p)) (with_crlf outs) (signed_names o m)
                          (digest C (o_digest o) (cut (o_signlen o) (o_bodylen o) out)) (snd p) = Ok x)
      (numbered (rev (all_signatures o))) Hs.
Proof.
  intros PA CS. unfold CreateSignature, new_signatory in CS. cbn [y_msg y_file] in CS. rewrite PA in CS.
  destruct (message_body_exists t) as (b & MB). set (r := is_relaxed (o_cbody o)).
  set (out := out_fun r (canon_list r b)). assert (CB : canonical_body r b out) by (apply canonical_out; reflexivity).
  assert (BA : body_at s (m_offset m) b).
  { eapply message_body_at; eauto. transitivity (contents (open_str t)); [|reflexivity]. unfold parse_all in PA. eapply parse_loop_contents; eauto. }
  exists b, out. 
  assert (X : exists chunks ok s1, CanonicalizationBody s (o_cbody o) (m_offset m) (o_signlen o) (o_bodylen o) = Ok (chunks, ok, s1) /\
    concat chunks = cut (o_signlen o) (o_bodylen o) out /\ (ok = true -> o_signlen o = true -> (o_bodylen o <= N.of_nat (length out))%N)).
  { unfold CanonicalizationBody, cut. destruct (o_signlen o).
    - destruct (body_limited buffer_size s (o_cbody o) (m_offset m) b out buffer_pos BA CB (o_bodylen o)) as (calls & s' & E & K). rewrite E.
      do 3 eexists. split; [reflexivity|]. split; auto. intros L _. apply N.leb_le. exact L.
    - destruct (body_canonical buffer_size s (o_cbody o) (m_offset m) b out buffer_pos BA CB (o_bodylen o)) as (calls & s' & E & K). rewrite E.
      do 3 eexists. split; [reflexivity|]. split; auto. discriminate. }
  destruct X as (chunks & ok & s1 & E & K & LIM). rewrite E in CS. destruct ok; [|discriminate].
  apply (f_equal snd) in CS. cbn [snd] in CS. cbv zeta in CS.
  destruct (omap (lower_str strict) (o_headers o)) as [ts| | |] eqn:OT; cbn [obind] in CS; try discriminate. apply omap_lower in OT as [-> _].
  destruct (sign_headers strict (o_chead o) (map lower (o_headers o)) (rev (m_headers m))) as [[d names]| | |] eqn:SH; cbn [obind] in CS; try discriminate.
  apply sign_headers_spec in SH as (-> & PN & outs & FO & ->).
  destruct (omap (lower_str strict) (o_oversign o)) as [ov| | |] eqn:OV; cbn [obind] in CS; try discriminate. apply omap_lower in OV as [-> PO].
  apply (all_sigs_spec _ _ _ _ _ _ _ _ _ _ []) in CS; auto. destruct CS as (Hs & EH & F2). exists outs, Hs.
  unfold digest_chunks in F2. rewrite K in F2. repeat (split; [assumption || auto|]).
  - rewrite <- (rev_involutive (m_headers m)). apply Forall_rev. exact PN.
  - exact F2.
Qed.

Definition sig_type (o : options) : validator_type := if (o_arc o =? 0)%N then V_DKIM else V_ARC.

Lemma signable_lower n : signable_name n -> signable_name (lower n).
Proof.
  intros (NE & [T1 T2] & F). unfold lower. split; [destruct n; [congruence|discriminate]|].
  assert (W : forall c, ~ WSP c -> ~ WSP (tolower c)).
  { intros c NW X. apply NW. apply is_wsp_WSP. apply is_wsp_WSP in X.
    assert (Y : forall c, implb (is_wsp (tolower c)) (is_wsp c) = true) by (apply byte_sweep; vm_compute; reflexivity).
    specialize (Y c). rewrite X in Y. exact Y. }
  split.
  - split; [destruct n; cbn; auto|]. unfold last_ok in *. rewrite <- map_rev. destruct (rev n); cbn; auto.
  - apply Forall_map. eapply Forall_impl; [|exact F]. intros c [NC V].
    assert (Y : forall c, implb (negb (c =?c COLON) && (is_valchar c || is_wsp c)) (negb (tolower c =?c COLON) && (is_valchar (tolower c) || is_wsp (tolower c))) = true)
      by (apply byte_sweep; vm_compute; reflexivity).
    specialize (Y c). rewrite (ceqb_false c COLON) in Y by auto.
    assert (Z1 : is_valchar c || is_wsp c = true) by (destruct V as [V|V]; [apply value_byte_b in V|apply is_wsp_WSP in V]; rewrite V, ?orb_true_r; reflexivity).
    rewrite Z1 in Y. cbn [negb andb implb] in Y. apply andb_true_iff in Y as [Y1 Y2]. apply negb_true_iff in Y1. split.
    + intros E. rewrite E, ceqb_refl in Y1. discriminate.
    + apply orb_true_iff in Y2 as [Y2|Y2]; [left; apply value_byte_b; auto|right; apply is_wsp_WSP; auto].
Qed.
Lemma signable_plain strict n : signable_name n -> plain_name strict n.
Proof.
  intros (_ & _ & F). unfold plain_name. rewrite seven_bit, andb_false_r; auto. eapply Forall_impl; [|exact F].
  intros c [_ [[[A B] _]|[->| ->]]]; [lia|vm_compute; reflexivity|vm_compute; reflexivity].
Qed.
Lemma same_name_lower a b : same_name (lower a) b = same_name a b.
Proof. unfold same_name. rewrite !map_low, lower_idem. reflexivity. Qed.
Lemma same_name_lower' a b : same_name a (lower b) = same_name a b.
Proof. unfold same_name. rewrite !map_low, lower_idem. reflexivity. Qed.
Lemma signed_names_signable o m : sound_fields h_name o (m_headers m) -> Forall signable_name (signed_names o m).
Proof.
  intros [SN SO _]. unfold signed_names. apply Forall_app. split; apply Forall_map, Forall_forall.
  - intros h I. apply filter_In in I as [I P]. apply in_rev in I. apply picked_chosen in P. apply signable_lower. auto.
  - intros n I. apply signable_lower. apply (SO n I).
Qed.
Lemma signed_names_from o m : sound_fields h_name o (m_headers m) -> exists n, In n (signed_names o m) /\ same_name n (str "from") = true.
Proof.
  intros [_ _ [(h & I & P & S)|(n & I & S)]].
  - exists (lname h). split; [|unfold lname; rewrite same_name_lower; auto]. apply in_or_app. left. apply in_map. apply filter_In.
    split; [apply in_rev in I; auto|apply picked_chosen; auto].
  - exists (lower n). split; [|rewrite same_name_lower; auto]. apply in_or_app. right. apply in_map. auto.
Qed.
Lemma field_name_wanted o h : h_name h = field_name o -> wanted (sig_type o) h = true.
Proof. intros E. unfold wanted, wanted_name, sig_type. rewrite E. unfold field_name. destruct (o_arc o =? 0)%N; vm_compute; reflexivity. Qed.
Lemma field_name_7bit strict o : plain_name strict (field_name o).
Proof. unfold plain_name, field_name. destruct (o_arc o =? 0)%N; rewrite andb_comm; reflexivity. Qed.
Lemma one_at (l : bytes) c a : forall l' a', l ++ c :: a = l' ++ c :: a' -> ~ In c l -> ~ In c l' -> l = l' /\ a = a'.
Proof.
  induction l as [|x l IH]; intros [|y l'] a' E N N'; cbn [app] in E; injection E as; subst.
  - auto.
  - destruct N'. left; auto.
  - destruct N. left; auto.
  - destruct (IH l' a') as [-> ->]; auto; intros I; [apply N|apply N']; right; auto.
Qed.
Lemma serves_allows C o s p names bh x g : serves C o s p -> read_back o s names bh x g -> key_allows g p = true.
Proof.
  intros SV RB. unfold key_allows. rewrite (rb_digest _ _ _ _ _ _ RB), (rb_alg _ _ _ _ _ _ RB), (sv_alg _ _ _ _ SV).
  apply andb_true_iff. split; [apply andb_true_iff; split|].
  - destruct (sv_digest _ _ _ _ SV) as [->|I]; [reflexivity|]. destruct (pk_digests p) as [|d l] eqn:E; [reflexivity|]. rewrite <- E in *.
    rewrite E. rewrite <- E. apply existsb_exists. exists (o_digest o). split; auto. apply digest_eqb_eq. reflexivity.
  - destruct (so_alg s); reflexivity.
  - rewrite (rb_arc _ _ _ _ _ _ RB), (rb_domain _ _ _ _ _ _ RB). destruct (o_arc o =? 0)%N eqn:A; [|reflexivity]. cbn [negb orb].
    apply N.eqb_eq in A. pose proof (rb_mdomain _ _ _ _ _ _ RB A) as M. destruct (memb (str "s") (pk_flags p)) eqn:S; [|reflexivity]. cbn [negb orb].
    apply memb_In in S. pose proof (sv_strict _ _ _ _ SV S A) as X. apply beqb_eq. destruct (o_identity o) as [|i0 i] eqn:OI.
    + destruct M as [_ ->]. reflexivity.
    + destruct (X ltac:(discriminate)) as (loc & dom & E & NI & D). destruct M as (dom' & E' & NI' & ->). rewrite E in E'.
      apply one_at in E' as [_ <-]; auto.
Qed.
Lemma make_nonempty C o s p md x : serves C o s p -> make_signature C o s md = Ok x ->
  x <> [] /\ forall g names bh, read_back o s names bh x g -> verify_digest C g p md = Ok tt.
Proof.
  intros SV. pose proof (sv_pair _ _ _ _ SV) as PR. unfold make_signature. destruct (so_alg s) eqn:A.
  - destruct PR as (k & q & -> & Q & V). destruct (c_rsa_sign C (o_digest o) md k) as [x'|] eqn:RS; [|discriminate]. intros [= <-].
    destruct (V md x' RS) as [NX VX]. split; auto. intros g names bh RB. unfold verify_digest.
    rewrite (rb_alg _ _ _ _ _ _ RB), A, Q, (rb_digest _ _ _ _ _ _ RB), (rb_b _ _ _ _ _ _ RB), VX. reflexivity.
  - destruct PR as (L & L2 & V). assert (RD : forall n k, length k = n -> c_read n k = Ok k).
    { intros n k <-. unfold c_read. rewrite firstn_app_exact. destruct (Nat.leb (length k) (S (length k))) eqn:LE; [reflexivity|apply Nat.leb_gt in LE; lia]. }
    rewrite (RD 64 _ L). cbn [obind]. destruct (c_ed_sign C md (so_ed s)) as [x'|] eqn:ES; [|discriminate]. intros [= <-].
    destruct (V md x' ES) as [LX VX]. split; [intros ->; discriminate|]. intros g names bh RB. unfold verify_digest.
    rewrite (rb_alg _ _ _ _ _ _ RB), A, (rb_b _ _ _ _ _ _ RB), (RD 64 _ LX). cbn [obind]. rewrite (RD 32 _ L2). cbn [obind]. rewrite VX. reflexivity.
Qed.

Lemma Forall2_length {A B} (R : A -> B -> Prop) l l' : Forall2 R l l' -> length l = length l'.
Proof. induction 1; cbn; congruence. Qed.
Lemma Forall2_nth {A B} (R : A -> B -> Prop) l l' i a : Forall2 R l l' -> nth_error l i = Some a -> exists b, nth_error l' i = Some b /\ R a b.
Proof.
  intros F. revert i. induction F as [|x y l l' E F IH]; intros [|i]; cbn; try discriminate; eauto. intros [= <-]. eauto.
Qed.
Lemma nth_numbered {A} (l : list A) i a : nth_error l i = Some a -> nth_error (numbered l) i = Some (i, a).
Proof.
  unfold numbered. intros E. enough (X : forall k, nth_error (combine (seq k (length l)) l) i = Some (k + i, a)) by apply (X 0).
  revert i E. induction l as [|x l IH]; intros [|i] E k; cbn in *; try discriminate.
  - injection E as <-. rewrite Nat.add_0_r. reflexivity.
  - rewrite IH; auto. rewrite Nat.add_succ_r. reflexivity.
Qed.

(** The parts of a signed message. *)
Record signed_message (C : crypto) (strict : bool) (clock : nat -> Z) (o : options) (t : bytes) (m : message) (H : bytes)
  (b out : bytes) (outs : list bytes) (Hs : list bytes) (m' : message) : Prop := {
  sm_body : message_body (H ++ CRLF ++ t) b;
  sm_canon : canonical_body (is_relaxed (o_cbody o)) b out;
  sm_len : o_signlen o = true -> (o_bodylen o <= N.of_nat (length out))%N;
  sm_outs : Forall2 (canon_of strict (o_chead o)) (signed_fields o m) outs;
  sm_plain : Forall (fun h => plain_name strict (h_name h)) (m_headers m');
  sm_text : H = joined Hs;
  sm_each : Forall2 (fun p x => one_signature C strict o (clock (fst p)) (with_crlf outs) (signed_names o m)
                          (digest C (o_digest o) (cut (o_signlen o) (o_bodylen o) out)) (snd p) = Ok x)
      (numbered (rev (all_signatures o))) Hs;
  sm_names : Forall (fun x => h_name (header_of x) = field_name o) Hs;
  sm_parse : exists s', parse_all new_message (open_str (H ++ CRLF ++ t)) = Ok (m', s');
  sm_headers : m_headers m' = map header_of Hs ++ m_headers m;
  sm_own : message_body t b;
  sm_lines : Forall (fun x => folded_text x /\ begins_own x) Hs }.

Lemma signed_parts C strict clock o t y H m s : ~ starts_wsp t -> parse_all new_message (open_str t) = Ok (m, s) ->
  CreateSignature C strict clock o (new_signatory (open_str t)) = (y, Ok H) ->
  Forall (plain_options o) (all_signatures o) -> Forall signable_name (signed_names o m) ->
  exists b out outs Hs m', signed_message C strict clock o t m H b out outs Hs m'.
Proof.
  intros NW PA CS SO SN. destruct (create_spec _ _ _ _ _ _ _ _ _ PA CS) as (b & out & outs & Hs & MB & CB & LIM & FO & PN & PO & EH & F2).
  assert (FP : Forall (fun x => folded_text x /\ begins_own x /\ h_name (header_of x) = field_name o) Hs).
  { assert (SO' : Forall (fun p => plain_options o (snd p)) (numbered (rev (all_signatures o)))).
    { apply Forall_forall. intros [i q] I. apply in_combine_r in I. cbn [snd]. rewrite <- in_rev in I. rewrite Forall_forall in SO. auto. }
    clear - F2 SO' SN. induction F2 as [|p x l l' E F IH]; [constructor|]. inversion SO'; subst. constructor; auto.
    destruct (one_signature_produced _ _ _ _ _ _ _ _ _ E (po_named _ _ H1) SN) as (T & B & c & z & hv & P). split; [apply (pr_fold _ _ _ _ _ _ _ _ _ _ _ _ _ _ P)|].
    split; [eapply one_signature_begins; eauto|]. rewrite (pr_header _ _ _ _ _ _ _ _ _ _ _ _ _ _ P). reflexivity. }
  assert (FB : Forall (fun x => folded_text x /\ begins_own x) Hs) by (eapply Forall_impl; [|exact FP]; intros z (Z1 & Z2 & Z3); auto).
  assert (FN : Forall (fun x => h_name (header_of x) = field_name o) Hs) by (eapply Forall_impl; [|exact FP]; intros z (Z1 & Z2 & Z3); auto).
  assert (NE : Hs <> []).
  { intros ->. apply Forall2_length in F2. unfold numbered, all_signatures in F2. rewrite combine_length, seq_length, rev_length in F2. cbn [length] in F2. lia. }
  assert (ET : H ++ CRLF ++ t = with_crlf Hs ++ t) by (rewrite EH, app_assoc, joined_crlf by auto; reflexivity).
  destruct (prefix_parse Hs t m s FB NW PA) as (m' & s' & PA' & HM).
  exists b, out, outs, Hs, m'. constructor; auto.
  - rewrite ET. apply prefix_body; auto.
  - rewrite HM. apply Forall_app. split; auto. apply Forall_map. eapply Forall_impl; [|exact FN]. intros x E. cbn beta in E |- *. rewrite E. apply field_name_7bit.
  - exists s'. rewrite ET. exact PA'.
Qed.

Lemma choice_chosen o n : choice o n = true <-> chosen o n.
Proof.
  unfold choice, chosen. destruct n as [|c n]; [split; [discriminate|intros [X _]; congruence]|]. destruct (o_headers o) as [|w l].
  - split; auto. intros _. split; [discriminate|auto].
  - rewrite existsb_exists. split.
    + intros (x & I & S). split; [discriminate|]. right. eauto.
    + intros [_ [X|(x & I & S)]]; [discriminate|eauto].
Qed.
Lemma signed_listed o m : signed_names o m = listed_names h_name o (m_headers m).
Proof.
  unfold signed_names, listed_names, signed_fields. f_equal.
  - transitivity (map lname (filter (fun h => choice o (h_name h)) (rev (m_headers m)))).
    2: { apply map_ext. intros h. unfold lname. symmetry. apply map_low. }
    f_equal. apply filter_ext. intros h. destruct (choice o (h_name h)) eqn:E.
    + apply picked_chosen, choice_chosen. exact E.
    + apply not_true_iff_false. intros P. apply picked_chosen, choice_chosen in P. congruence.
Qed.

Lemma round_trip C strict clock o t y H m s : ~ starts_wsp t -> parse_all new_message (open_str t) = Ok (m, s) ->
  CreateSignature C strict clock o (new_signatory (open_str t)) = (y, Ok H) ->
  Forall (sound_options strict o) (all_signatures o) -> sound_fields h_name o (m_headers m) ->
  exists v fields, new_validatory strict (sig_type o) (open_str (H ++ CRLF ++ t)) = Ok v /\
    H = joined fields /\ m_headers (v_msg v) = map header_of fields ++ m_headers m /\
    v_sigs v = map header_of fields ++ filter (wanted (sig_type o)) (m_headers m) /\
    length fields = length (all_signatures o) /\
  forall i q, nth_error (rev (all_signatures o)) i = Some q ->
  exists h, nth_error (v_sigs v) i = Some h /\
  forall v1 p now e0, in_use strict (sig_type o) (H ++ CRLF ++ t) v1 -> serves C o q p -> small_field h ->
    (o_exsign o = true -> (now <= expiry o (clock i))%Z) -> (o_signlen o = true -> e0 = false) ->
  exists v2 g e1, GetSignature C strict now h (new_signature, e0) v1 = (v2, (g, e1), Ok tt) /\
    CheckSignature C strict h g p v2 = Ok tt /\
    sg_selector g = so_selector q /\ sg_domain g = map low (so_domain q) /\
    key_query g = so_selector q ++ str "._domainkey." ++ map low (so_domain q) /\
    sg_headers g = listed_names h_name o (m_headers m) /\ sg_chead g = o_chead o /\ sg_cbody g = o_cbody o.
Proof.
  intros NW PA CS SO SF. pose proof (signed_names_signable o m SF) as SN.
  destruct (signed_parts _ _ _ _ _ _ _ _ _ NW PA CS (plain_sounds _ _ _ SO) SN) as (b & out & outs & Hs & m' & SM).
  destruct SM as [MB CB LIM FO PN EH F2 FN (s' & PA') HM].
  destruct (new_validatory_total strict (sig_type o) (H ++ CRLF ++ t)) as (v & EV).
  { intros ST m2 s2 P2 _. rewrite PA' in P2. injection P2 as <- <-. eapply Forall_impl; [|exact PN]. intros h X. cbn beta in X. unfold plain_name in X. rewrite ST in X. exact X. }
  destruct (new_validatory_spec _ _ _ _ EV) as (m2 & s2 & P2 & EM & EC & ES). rewrite PA' in P2. injection P2 as <- <-.
  assert (ES' : v_sigs v = map header_of Hs ++ filter (wanted (sig_type o)) (m_headers m)).
  { rewrite ES, HM, filter_app. f_equal. clear - FN. induction FN as [|x l E F IH]; [reflexivity|]. cbn [map filter].
    rewrite (field_name_wanted o) by auto. rewrite IH. reflexivity. }
  exists v, Hs. split; auto. split; auto. split; [rewrite EM; exact HM|]. split; auto.
  split. { apply Forall2_length in F2. rewrite <- F2. unfold numbered. rewrite combine_length, seq_length, rev_length. lia. }
  intros i q NQ. destruct (Forall2_nth _ _ _ _ _ F2 (nth_numbered _ _ _ NQ)) as (x & NX & OS). cbn [fst snd] in OS.
  exists (header_of x). split. { rewrite ES', nth_error_app1, nth_error_map, NX; [reflexivity|]. rewrite map_length. apply nth_error_Some. congruence. }
  intros v1 p now e0 IU SV SMALL EXP ERR.
  assert (SOq : sound_options strict o q). { rewrite Forall_forall in SO. apply SO. apply nth_error_In in NQ. apply in_rev. exact NQ. }
  destruct (one_signature_produced _ _ _ _ _ _ _ _ _ OS (po_named _ _ (plain_sound _ _ _ SOq)) SN) as (T & B & c & z & hv & P).
  destruct (make_nonempty _ _ _ _ _ _ SV (pr_sign _ _ _ _ _ _ _ _ _ _ _ _ _ _ P)) as [NZ VZ].
  destruct (produced_parses _ _ _ _ _ _ _ _ _ _ _ _ _ _ now e0 P NZ SOq (signed_names_from o m SF) EXP ERR) as (g & e1 & SP & RB).
  destruct (GetSignature_spec C strict _ _ v1 now (header_of x) (new_signature, e0) IU) as (v2 & IU2 & GS). rewrite SP in GS. cbn [fst] in GS.
  assert (BH : snd (CheckBodyHash C g v1) = Ok tt).
  { apply (CheckBodyHash_iff C strict _ _ v1 g b out IU MB); rewrite ?(rb_cbody _ _ _ _ _ _ RB); auto.
    rewrite (rb_bh _ _ _ _ _ _ RB), (rb_digest _ _ _ _ _ _ RB), (rb_limit _ _ _ _ _ _ RB). unfold cut. destruct (o_signlen o) eqn:SL; [|reflexivity].
    rewrite (rb_size _ _ _ _ _ _ RB) by auto. reflexivity. }
  rewrite BH in GS. exists v2, g, e1. split; [exact GS|]. split; [|unfold key_query; rewrite (rb_selector _ _ _ _ _ _ RB), (rb_domain _ _ _ _ _ _ RB), (rb_headers _ _ _ _ _ _ RB), signed_listed, (rb_chead _ _ _ _ _ _ RB), (rb_cbody _ _ _ _ _ _ RB); auto 8].
  unfold CheckSignature. rewrite (serves_allows _ _ _ _ _ _ _ _ SV RB).
  destruct (signed_data_b C strict now (header_of x) e0 g e1 SP SMALL) as (pre & bb & post & TA & NB & _ & SD). rewrite SD.
  pose proof (pr_header _ _ _ _ _ _ _ _ _ _ _ _ _ _ P) as EHx. rewrite EHx in TA |- *. cbn [h_voff h_text] in *.
  destruct (pr_begin _ _ _ _ _ _ _ _ _ _ _ _ _ _ P) as (vv & ET & TB). specialize (TB NZ).
  destruct (produced_tags _ _ _ _ _ _ _ _ _ _ _ _ _ _ P NZ (plain_sound _ _ _ SOq)) as (_ & RT & ND). rewrite EHx in RT. cbn [h_voff h_text] in RT.
  destruct (tag_at_unique _ _ _ _ _ _ _ _ _ RT ND (name_bytes (str "b") ltac:(discriminate) eq_refl) TA TB NB) as (-> & -> & ->).
  destruct IU2 as (v0 & EV0 & EM0 & _). rewrite EV in EV0. injection EV0 as <-. rewrite EM0, EM.
  destruct (build_cache_ok strict (m_headers m') PN) as (ch & BC & CA). rewrite BC. cbn [obind].
  rewrite (rb_headers _ _ _ _ _ _ RB), (rb_chead _ _ _ _ _ _ RB).
  rewrite (hash_ok strict (o_chead o) (m_headers m') (signed_names o m)) with (before := []) (outs := outs); auto.
  2: { eapply Forall_impl; [|exact SN]. intros n X. apply signable_plain. exact X. }
  2: { rewrite HM. unfold signed_names, signed_fields. rewrite selection_signed; auto.
       - intros a a' S. apply picked_same. auto.
       - intros n I. apply in_map_iff in I as (n0 & <- & I0). destruct (sf_over _ _ _ SF n0 I0) as (_ & NF & CH). split.
         + apply Forall_map. eapply Forall_impl; [|exact FN]. intros x0 E. cbn beta in E |- *. rewrite E, same_name_lower', same_name_sym. exact NF.
         + intros h I S. apply picked_chosen. rewrite same_name_lower' in S. auto. }
  cbn [obind]. assert (EX : firstn (S (length (field_name o))) x ++ vv ++ [] = T).
  { rewrite (pr_split _ _ _ _ _ _ _ _ _ _ _ _ _ _ P), ET, app_nil_r, <- app_assoc. cbn [app].
    change (COLON :: vv ++ B) with ([COLON] ++ vv ++ B). rewrite app_assoc.
    replace (S (length (field_name o))) with (length (field_name o ++ [COLON])) by (rewrite app_length; cbn; lia).
    rewrite firstn_app_exact, <- app_assoc. reflexivity. }
  rewrite EX, (pr_canon _ _ _ _ _ _ _ _ _ _ _ _ _ _ P). cbn [obind]. rewrite (rb_digest _ _ _ _ _ _ RB).
  apply (VZ g _ _ RB).
Qed.
