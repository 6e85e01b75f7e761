(** C56: exactly when a field that signing produced is read. *)
From Verif Require Import Bytes Outcome Stream Tokenizer QuotedPrintable Base64 TagList MailParser Canonicalization Util CStdlib Crypto
  Signature PublicKey SignatoryOptions Signatory Validatory BytesFacts StreamFacts SpecText SpecTags SpecMail SpecCanon SpecVerify SpecSig SpecOptions SpecSign
  SpecBase64 SpecFields SpecLegible QPFacts Base64Facts Base64Bits ListFacts MailFacts BodyFacts BodyProps HeaderFacts HeaderProps SelectFacts TagListFacts SigFacts SigProps TagPosition VerifyFacts
  VerifyProps SignNumbers SignText SignFacts SignMail SignRound SignProps ListExact OptionsFacts FieldsProps MadeFacts SignExamples Examples.
Local Open Scope string_scope.
Local Open Scope list_scope.

Lemma a_text_read d k : (exists d2 k2, a_value (a_text d k) d2 k2) <-> (k = ED25519 -> d = SHA256).
Proof.
  split.
  - intros (d2 & k2 & A) ->. destruct d; auto. exfalso. inversion A.
  - intros E. destruct k; [destruct d; repeat econstructor|]. rewrite E by auto. repeat econstructor.
Qed.
Lemma strtoul_fmt n r rest er : strtoul (fmt_lu n) = (r, rest, er) -> ((n <= ULONG_MAX)%N /\ r = n /\ rest = [] /\ er = false) \/ ((ULONG_MAX < n)%N /\ r = ULONG_MAX /\ er = true).
Proof.
  unfold strtoul. rewrite (digits_scan _ (fmt_lu_digits n)), fmt_lu_value. destruct (N.ltb_spec ULONG_MAX n) as [L|L]; intros [= <- <- <-]; auto.
Qed.

Section Read.
  Context (C C' : crypto) (strict strict' : bool) (o : options) (made now : Z) (hashed : bytes) (names : list bytes) (bh : bytes) (q : sig_options)
    (H T B c x hv : bytes) (e0 : bool).
  Hypothesis P : produced C strict o made hashed names bh q H T B c x hv.
  Hypothesis NX : x <> [].
  Hypothesis PO : plain_options o q.

  Lemma produced_read : snd (Signature_Parse C' strict' now (header_of H) (new_signature, e0)) = Ok tt <-> legible strict' o q names made now e0.
  Proof.
    pose proof (produced_tags _ _ _ _ _ _ _ _ _ _ _ _ _ _ P NX PO) as FT.
    destruct (field_tags_parse _ _ FT) as (tags & PT & HV & LV & GT). set (L := sig_tag_list o q made hv bh B) in *.
    assert (HN : h_name (header_of H) = field_name o) by (rewrite (pr_header _ _ _ _ _ _ _ _ _ _ _ _ _ _ P); reflexivity).
    assert (N8 : strict' && existsb is_8bit (field_name o) = false).
    { unfold field_name. destruct (o_arc o =? 0)%N; rewrite andb_comm; reflexivity. }
    pose proof (field_name_arc o) as FA.
    assert (VA : V tags "a" = Some (Algorithm2String (so_alg (o_main o)) (o_digest o))) by (apply HV; apply tl_a).
    assert (VH : V tags "h" = Some hv) by (apply HV; apply tl_h).
    assert (VD : V tags "d" = Some (so_domain q)) by (apply HV; apply tl_d).
    pose proof (ValueList_rendered _ _ (pr_h _ _ _ _ _ _ _ _ _ _ _ _ _ _ P)) as VL.
    assert (VI : V tags "i" = if (o_arc o =? 0)%N then match o_identity o with [] => None | _ => Some (qp_encode (o_identity o)) end else Some (fmt_lu (o_arc o))).
    { destruct (N.eqb_spec (o_arc o) 0) as [A|A].
      - destruct (o_identity o) as [|i0 ir] eqn:OI.
        + apply LV. apply tl_no_i; [apply negb_false_iff, N.eqb_eq; exact A|rewrite OI; reflexivity].
        + rewrite <- OI. apply HV. apply tl_opt_i. rewrite OI. reflexivity.
      - apply HV. unfold L, sig_tag_list. destruct (N.eqb_spec (o_arc o) 0) as [Z|Z]; [congruence|]. apply tl_inst. reflexivity. }
    assert (VLL : V tags "l" = if o_signlen o then Some (fmt_lu (o_bodylen o)) else None).
    { destruct (o_signlen o) eqn:OL; [apply HV; apply tl_opt_l; rewrite OL; reflexivity|apply LV; apply tl_no_l; rewrite OL; reflexivity]. }
    assert (VX : V tags "x" = if o_exsign o then Some (fmt_lu_time (expiry o made)) else None).
    { destruct (o_exsign o) eqn:OX; [apply HV; apply tl_opt_x; rewrite OX; reflexivity|apply LV; apply tl_no_x; rewrite OX; reflexivity]. }
    assert (XR : o_exsign o = true -> strtol (fmt_lu_time (expiry o made)) =
      ((if (expiry o made <? 0)%Z then 9223372036854775807 else expiry o made)%Z, (expiry o made <? 0)%Z)).
    { intros OX. pose proof (pr_time _ _ _ _ _ _ _ _ _ _ _ _ _ _ P OX) as I64. unfold in_int64 in I64. apply andb_true_iff in I64 as [I1 I2].
      apply Z.leb_le in I1, I2. destruct (time_read (expiry o made) (conj I1 I2)) as (z & er & E & _ & -> & ->). exact E. }
    split.
    - destruct (Signature_Parse C' strict' now (header_of H) (new_signature, e0)) as [st r] eqn:SP. cbn [snd]. intros ->.
      apply (Parse_field _ _ _ _ _ _ L FT) in SP as (tags2 & PT2 & K). rewrite PT in PT2. injection PT2 as <-. rewrite HN in K.
      inversion K as [d a dg al b bh2 ch cb hv2 hs loc mdom inst ei size lim sel ex K8 Kd Kv Ka Kav Kb Kb2 Kbh Kc Kh Khv Kf Ki Kl Kq Ks Kx ES].
      clear K ES K8 Kv Kc Kq. rewrite VD in Kd. injection Kd as <-. rewrite VA in Ka. injection Ka as <-. rewrite VH in Kh. injection Kh as <-.
      rewrite VL in Khv. injection Khv as <-. rewrite FA, VI in Ki. rewrite VLL in Kl. rewrite VX in Kx. constructor.
      + apply a_text_read. rewrite <- Algorithm_text. eauto.
      + exact Kf.
      + destruct (N.eqb_spec (o_arc o) 0) as [A|A]; [lia|]. cbn [negb] in Ki. destruct Ki as (_ & _ & IR & i & rest & [= <-] & SU).
        unfold in_range_N in IR. apply strtoul_fmt in SU as [(_ & -> & _)|(_ & -> & _)]; [lia|]. unfold ULONG_MAX in IR. lia.
      + intros NI. destruct (N.eqb_spec (o_arc o) 0) as [A|A]; [|destruct (NI (po_instance _ _ PO A))]. cbn [negb] in Ki.
        destruct Ki as (_ & _ & Ki). destruct (o_identity o) as [|i0 ir] eqn:OI; [congruence|]. rewrite <- OI in *.
        destruct Ki as (raw & QD & NA & S8 & -> & ID). rewrite qp_round_trip in QD. injection QD as QD. exists loc, raw. rewrite !map_low.
        split; auto. split; auto. split; auto. intros ->. apply eight_seven. exact S8.
      + intros OL. rewrite OL in Kl. destruct Kl as (_ & EE & SU & SZ & _). apply orb_false_iff in EE as [EE _]. split; auto.
        apply strtoul_fmt in SU as [(_ & -> & _)|(_ & _ & X)]; [exact SZ|discriminate].
      + intros OX. rewrite OX in Kx. destruct Kx as (v & S & LE). rewrite (XR OX) in S. injection S as <- _. exact LE.
    - intros [Ga Gf Gn Gi Gl Gt].
      apply a_text_read in Ga as (dg & al & AV). rewrite <- Algorithm_text in AV.
      assert (KI : exists loc mdom inst, (if negb (o_arc o =? 0)%N then
           loc = [] /\ mdom = [] /\ in_range_N 1 50 inst /\ exists i rest, V tags "i" = Some i /\ strtoul i = (inst, rest, false)
         else inst = 0%N /\ false = false /\
           match V tags "i" with
           | None => loc = [] /\ mdom = lower (so_domain q)
           | Some i => exists raw, qp_decode i false = Ok (loc ++ AT :: raw) /\ ~ In AT loc /\
                         strict' && existsb is_8bit raw = false /\ mdom = lower raw /\ in_domain mdom (lower (so_domain q))
           end)).
      { rewrite VI. destruct (N.eqb_spec (o_arc o) 0) as [A|A]; cbn [negb].
        - destruct (o_identity o) as [|i0 ir] eqn:OI.
          + exists [], (lower (so_domain q)), 0%N. auto.
          + destruct Gi as (loc & dom & EI & NA & ID & S7); [discriminate|]. exists loc, (lower dom), 0%N. split; auto. split; auto. exists dom.
            rewrite qp_round_trip, EI. rewrite !map_low in ID. split; auto. split; auto. split; auto. destruct strict'; auto. cbn [andb]. apply seven_bit. auto.
        - exists [], [], (o_arc o). split; auto. split; auto. split; [unfold in_range_N; lia|]. exists (fmt_lu (o_arc o)), []. split; auto.
          rewrite strtoul_digits; [|apply fmt_lu_digits|]; rewrite fmt_lu_value; [reflexivity|]. unfold ULONG_MAX. lia. }
      destruct KI as (loc & mdom & inst & KI).
      assert (KL : exists size, match V tags "l" with
        | None => size = 0%N /\ o_signlen o = false
        | Some l => length l <= 76 /\ (e0 || false = false) /\ strtoul l = (size, [], false) /\ (size < 9223372036854775808)%N /\ o_signlen o = true
        end).
      { rewrite VLL. destruct (o_signlen o) eqn:OL; [|exists 0%N; auto]. destruct (Gl eq_refl) as [B63 ->]. exists (o_bodylen o). split; [|split; [reflexivity|split; [|split; auto]]].
        - assert (length (fmt_lu (o_bodylen o)) <= 20); [|lia]. apply fmt_lu_length; [|lia]. eapply N.lt_trans; [exact B63|]. vm_compute. reflexivity.
        - rewrite strtoul_digits; [|apply fmt_lu_digits|]; rewrite fmt_lu_value; [reflexivity|]. unfold ULONG_MAX. lia. }
      destruct KL as (size & KL).
      assert (KX : exists ex, match V tags "x" with None => ex = false | Some v => exists z, strtol v = (z, ex) /\ (now <= z)%Z end).
      { rewrite VX. destruct (o_exsign o) eqn:OX; [|exists false; reflexivity]. rewrite (XR eq_refl). eexists. eexists. split; [reflexivity|]. auto. }
      destruct KX as (ex & KX).
      assert (SOK : sig_ok C' strict' now (field_name o) tags e0
        (mkSig tags dg al (b64d C' (unspaced B)) (b64d C' (unspaced (Base64_Encode bh))) (o_chead o) (o_cbody o) (lower (so_domain q)) names
           loc mdom size (o_signlen o) (so_selector q) (same_name (field_name o) arc_name) inst, e0 || false || ex)).
      { apply (sig_ok_intro C' strict' now (field_name o) tags e0 (so_domain q) (Algorithm2String (so_alg (o_main o)) (o_digest o)) dg al
          B (Base64_Encode bh) (o_chead o) (o_cbody o) hv names loc mdom inst false size (o_signlen o) (so_selector q) ex); auto.
        - rewrite FA. intros A. apply HV. unfold L, sig_tag_list. apply negb_false_iff in A. rewrite A. apply tl_v. reflexivity.
        - apply HV. apply tl_b.
        - apply (pr_b_value _ _ _ _ _ _ _ _ _ _ _ _ _ _ P NX).
        - apply HV. apply tl_bh.
        - assert (VC : V tags "c" = Some (mode_pair o)) by (apply HV; apply tl_c). rewrite VC. constructor.
        - rewrite FA. exact KI.
        - left. apply LV. apply tl_no_q.
        - apply HV. apply tl_s. }
      rewrite <- HN in SOK. assert (E : exists st, Signature_Parse C' strict' now (header_of H) (new_signature, e0) = (st, Ok tt)).
      { eexists. apply (Parse_field C' strict' now (header_of H) e0 _ L FT). exists tags. split; [exact PT|exact SOK]. }
      destruct E as (st & ->). reflexivity.
  Qed.
End Read.

Lemma fields_read C strict clock o t y H m s : signs_something C -> parse_all new_message (open_str t) = Ok (m, s) ->
  CreateSignature C strict clock o (new_signatory (open_str t)) = (y, Ok H) ->
  Forall (plain_options o) (all_signatures o) -> Forall signable_name (listed_names h_name o (m_headers m)) ->
  exists fields, H = joined fields /\ length fields = length (all_signatures o) /\
  forall i q x, nth_error (rev (all_signatures o)) i = Some q -> nth_error fields i = Some x ->
  forall C' strict' now e0, snd (Signature_Parse C' strict' now (header_of x) (new_signature, e0)) = Ok tt <->
    legible strict' o q (listed_names h_name o (m_headers m)) (clock i) now e0.
Proof.
  intros SG PA CS SO SN. rewrite <- signed_listed in *.
  destruct (create_spec _ _ _ _ _ _ _ _ _ PA CS) as (b' & out' & outs & Hs & MB' & CB' & _ & _ & _ & _ & EH & F2).
  exists Hs. split; auto. split. { apply Forall2_length in F2. rewrite <- F2. unfold numbered. rewrite combine_length, seq_length, rev_length. lia. }
  intros i q x NQ NX C' strict' now e0.
  destruct (Forall2_nth _ _ _ _ _ F2 (nth_numbered _ _ _ NQ)) as (x' & NX' & OS). rewrite NX in NX'. injection NX' as <-. cbn [fst snd] in OS.
  assert (SQ : plain_options o q).
  { rewrite Forall_forall in SO. apply SO. rewrite in_rev. eapply nth_error_In; eauto. }
  destruct (one_signature_produced _ _ _ _ _ _ _ _ _ OS (po_named _ _ SQ) SN) as (T & B & c & z & hv & P).
  assert (NZ : z <> []) by (eapply make_something; [exact SG|exact (pr_sign _ _ _ _ _ _ _ _ _ _ _ _ _ _ P)]).
  eapply produced_read; eauto.
Qed.
