(** Signatures made on the way (for C108). *)
From Verif Require Import Bytes Outcome Stream Base64 TagList MailParser Canonicalization Util Crypto Signature PublicKey SignatoryOptions Signatory
  Validatory BytesFacts SpecText SpecTags SpecMail SpecCanon SpecVerify SpecSig SpecKey SpecOptions SpecSign SpecTransit SpecTransport SpecRelay SelectFacts ListFacts MailFacts
  BodyFacts HeaderFacts VerifyFacts VerifyProps SignText SignFacts SignMail SignRound ToolFacts TransitFacts TransportFacts AddressClean.

Section Way.
Context (C : crypto) (strict : bool).

Lemma crlf_app a b : with_crlf (a ++ b) = with_crlf a ++ with_crlf b.
Proof using. unfold with_crlf. rewrite map_app, concat_app. reflexivity. Qed.
Lemma signed_block clock o t y H m s : ~ starts_wsp t -> parse_all new_message (open_str t) = Ok (m, s) ->
  CreateSignature C strict clock o (new_signatory (open_str t)) = (y, Ok H) ->
  Forall (sound_options strict o) (all_signatures o) -> sound_fields h_name o (m_headers m) ->
  exists ls m' s' X, header_block ls (H ++ CRLF) /\ with_crlf ls = H ++ CRLF /\ parse_all new_message (open_str (H ++ CRLF ++ t)) = Ok (m', s') /\
    m_headers m' = X ++ m_headers m /\ Forall (fun h => h_name h = field_name o) X.
Proof using.
  intros NW PA CS SO SF.
  destruct (signed_parts _ _ _ _ _ _ _ _ _ NW PA CS (plain_sounds _ _ _ SO) (signed_names_signable _ _ SF)) as (b & out & outs & Hs & m' & SM).
  destruct (signed_begins _ _ _ _ _ _ _ _ _ NW PA CS SO SF) as (fields & EH & NE & FO & LF & ET & _).
  destruct (own_all fields FO) as (gs & -> & O).
  assert (EL : with_crlf (concat gs) = H ++ CRLF).
  { rewrite app_assoc in ET. apply app_inv_tail in ET. rewrite ET, with_crlf_groups by auto. reflexivity. }
  destruct (sm_parse _ _ _ _ _ _ _ _ _ _ _ _ SM) as (s' & P').
  exists (concat gs), m', s', (map header_of Hs). split; [rewrite <- EL; apply header_block_crlf, own_lines_block; auto|]. split; [exact EL|]. split; [exact P'|].
  split; [exact (sm_headers _ _ _ _ _ _ _ _ _ _ _ _ SM)|]. apply Forall_map. exact (sm_names _ _ _ _ _ _ _ _ _ _ _ _ SM).
Qed.
Lemma passed_front t l2 : forall l1 u, passed C strict t (l1 ++ l2) u -> exists u2 p ls, passed C strict t l2 u2 /\ u = p ++ u2 /\ header_block ls p /\
  with_crlf ls = put_front l1 /\
  (only_signers l1 -> forall m2 s2, parse_all new_message (open_str u2) = Ok (m2, s2) -> exists m s X, parse_all new_message (open_str u) = Ok (m, s) /\
    m_headers m = X ++ m_headers m2 /\ Forall (fun h => exists o clock H, In (Signer o clock H) l1 /\ h_name h = field_name o) X).
Proof using.
  induction l1 as [|a l1 IH]; intros u P.
  - exists u, [], []. split; [exact P|]. split; [reflexivity|]. split; [constructor|]. split; [reflexivity|]. intros _ m2 s2 PA. exists m2, s2, []. auto.
  - cbn [app] in P. inversion P as [|l u1 o clock H y m s P1 NW PA CS SO SF E1 E2|l u1 ls p P1 HB E1 E2]; subst.
    + destruct (IH u1 P1) as (u2 & p & ls & P2 & -> & HB & EL & K).
      destruct (signed_block _ _ _ _ _ _ _ NW PA CS SO SF) as (ls' & m' & s' & X & HB' & EL' & PA' & HM & FN).
      exists u2, ((H ++ CRLF) ++ p), (ls' ++ ls). split; [exact P2|]. split; [rewrite <- !app_assoc; reflexivity|]. split; [apply header_block_app; auto|].
      split; [rewrite crlf_app, EL', EL; reflexivity|].
      intros OS m2 s2 PA2. inversion OS as [|? ? _ OS']; subst. destruct (K OS' m2 s2 PA2) as (m1 & s1 & X1 & PA1 & HM1 & FN1). rewrite PA1 in PA. apply Ok_inj in PA. injection PA as -> ->.
      exists m', s', (X ++ X1). split; [exact PA'|]. split; [rewrite HM, HM1, app_assoc; reflexivity|]. apply Forall_app. split.
      * eapply Forall_impl; [|exact FN]. intros h E. exists o, clock, H. split; [left; reflexivity|exact E].
      * eapply Forall_impl; [|exact FN1]. intros h (o' & c' & H' & I & E). exists o', c', H'. split; [right; exact I|exact E].
    + destruct (IH u1 P1) as (u2 & p' & ls' & P2 & -> & HB' & EL' & K).
      exists u2, (p ++ p'), (ls ++ ls'). split; [exact P2|]. split; [rewrite <- !app_assoc; reflexivity|]. split; [apply header_block_app; auto|].
      split; [rewrite crlf_app, EL'; reflexivity|].
      intros OS. inversion OS as [|? ? (o & c & H & E) _]; discriminate.
Qed.
Lemma way_all t l1 o clock H l2 u v : passed C strict t (l1 ++ Signer o clock H :: l2) u -> new_validatory strict (sig_type o) (open_str u) = Ok v ->
  exists u1 m1 s1 ls fields, passed C strict t l2 u1 /\ parse_all new_message (open_str u1) = Ok (m1, s1) /\ H = joined fields /\ length fields = length (all_signatures o) /\
    with_crlf ls = put_front l1 /\ arrives_signed C strict clock o u ls fields (m_headers m1) v /\
    (only_signers l1 -> exists X, m_headers (v_msg v) = X ++ map header_of fields ++ m_headers m1 /\
       Forall (fun h => exists o clock H, In (Signer o clock H) l1 /\ h_name h = field_name o) X).
Proof using.
  intros P NV. destruct (passed_front _ _ _ _ P) as (u2 & p & ls & P2 & -> & HB & EL & K).
  inversion P2 as [|l u1 o' clock' H' y m s P1 NW PA CS SO SF E1 E2|]; subst.
  destruct (signed_begins _ _ _ _ _ _ _ _ _ NW PA CS SO SF) as (fields & EH & NE & FO & LF & ET & v1 & NV1 & HV1).
  exists u1, m, s, ls, fields. split; [exact P1|]. split; [exact PA|]. split; [exact EH|]. split; [exact LF|]. split; [exact EL|]. split.
  - apply (front_accepted C strict clock o u1 y H m s (H ++ CRLF ++ u1) v1 v1 ls p v fields (m_headers m)); auto.
    + clear. induction (m_headers m); constructor; auto. apply same_name_id.
    + rewrite ET. destruct (first_byte fields u1 NE FO) as (c & r & -> & NC & _). exact NC.
  - intros OS. pose proof (new_validatory_spec _ _ _ _ NV1) as (m2 & s2 & PA2 & M2 & _ & _). destruct (K OS m2 s2 PA2) as (m3 & s3 & X & PA3 & HM3 & FN).
    pose proof (new_validatory_spec _ _ _ _ NV) as (m4 & s4 & P4 & M4 & _ & _). rewrite PA3 in P4. apply Ok_inj in P4. injection P4 as <- <-.
    exists X. rewrite M4, HM3, <- M2, HV1. auto.
Qed.
(** Every signature made on the way is accepted at the end. *)
Lemma way_kept t l1 o clock H l2 u v : passed C strict t (l1 ++ Signer o clock H :: l2) u -> new_validatory strict (sig_type o) (open_str u) = Ok v ->
  exists u1 m1 s1 ls fields, passed C strict t l2 u1 /\ parse_all new_message (open_str u1) = Ok (m1, s1) /\ H = joined fields /\ length fields = length (all_signatures o) /\
    with_crlf ls = put_front l1 /\ arrives_signed C strict clock o u ls fields (m_headers m1) v.
Proof using.
  intros P NV. destruct (way_all _ _ _ _ _ _ _ _ P NV) as (u1 & m1 & s1 & ls & fields & A & B & D & E & F & G & _).
  exists u1, m1, s1, ls, fields. auto 10.
Qed.
(** There is a validator of any type for what a signer sends. *)
Lemma way_last t o clock H l u ty : passed C strict t (Signer o clock H :: l) u -> exists v, new_validatory strict ty (open_str u) = Ok v.
Proof using.
  intros P. inversion P as [|l' u1 o' clock' H' y m s P1 NW PA CS SO SF E1 E2|]; subst. apply new_validatory_total. intros ST m' s' PA' _.
  destruct (signed_parts _ _ _ _ _ _ _ _ _ NW PA CS (plain_sounds _ _ _ SO) (signed_names_signable _ _ SF)) as (b & out & outs & Hs & m2 & SM).
  destruct (sm_parse _ _ _ _ _ _ _ _ _ _ _ _ SM) as (s2 & P2). rewrite P2 in PA'. apply Ok_inj in PA'. injection PA' as <- <-.
  eapply Forall_impl; [|exact (sm_plain _ _ _ _ _ _ _ _ _ _ _ _ SM)]. intros h. unfold plain_name. rewrite ST. auto.
Qed.
(** When only signers follow, none of which makes fields with an oversigned name. *)
Lemma way_signers t l1 o clock H l2 u : passed C strict t (l1 ++ Signer o clock H :: l2) u -> only_signers l1 -> spared o l1 ->
  exists v fields before after, new_validatory strict (sig_type o) (open_str u) = Ok v /\ H = joined fields /\ length fields = length (all_signatures o) /\ v_sigs v = before ++ map header_of fields ++ after /\
    forall i q, nth_error (rev (all_signatures o)) i = Some q ->
    exists h, nth_error (map header_of fields) i = Some h /\
    forall w k now e0, in_use strict (sig_type o) u w -> serves C o q k -> small_field h ->
       (o_exsign o = true -> (now <= expiry o (clock i))%Z) -> (o_signlen o = true -> e0 = false) ->
    exists w2 g e1, GetSignature C strict now h (new_signature, e0) w = (w2, (g, e1), Ok tt) /\ CheckSignature C strict h g k w2 = Ok tt /\
      key_query g = so_selector q ++ str "._domainkey." ++ map low (so_domain q).
Proof using.
  intros P OS SP.
  assert (V : exists v, new_validatory strict (sig_type o) (open_str u) = Ok v).
  { destruct l1 as [|a l1]; cbn [app] in P; [eapply way_last; exact P|]. inversion OS as [|? ? (o1 & c1 & H1 & ->) _]; subst. eapply way_last; exact P. }
  destruct V as (v & NV). destruct (way_all _ _ _ _ _ _ _ _ P NV) as (u1 & m1 & s1 & ls & fields & P1 & PA1 & EH & LF & EL & (added & more & HV & EA & SV & IM & K) & KX).
  exists v, fields, more, (filter (wanted (sig_type o)) (m_headers m1)). split; [exact NV|]. split; [exact EH|]. split; [exact LF|]. split; [exact SV|].
  destruct (KX OS) as (X & HX & FX). rewrite HV in HX. apply app_inv_tail in HX. subst X.
  assert (NOV : forall f n, In f added -> In n (o_oversign o) -> same_name (h_name f) n = false).
  { intros f n IF IN. rewrite Forall_forall in FX. destruct (FX f IF) as (o1 & c1 & H1 & I1 & ->). eapply SP; eauto. }
  intros i q NQ. destruct (K NOV i q NQ) as (h & _ & N2 & J). exists h. split; [exact N2|]. exact J.
Qed.
End Way.
