(** When the fields that signing produces are one header field each (for C68). *)
From Verif Require Import Bytes Outcome Stream Tokenizer QuotedPrintable Base64 TagList MailParser Canonicalization Util CStdlib Crypto
  Signature PublicKey SignatoryOptions Signatory Validatory BytesFacts StreamFacts SpecText SpecTags SpecMail SpecCanon SpecVerify SpecSig SpecOptions SpecSign
  SpecBase64 SpecFields SpecPass PassFacts QPFacts Base64Facts Base64Bits ListFacts MailFacts BodyFacts BodyProps HeaderFacts HeaderProps SelectFacts TagListFacts SigFacts SigProps TagPosition VerifyFacts
  VerifyProps SignNumbers SignText SignFacts SignMail SignRound SignProps ListExact OptionsFacts FieldsProps Examples SignExamples FieldsExamples Outcome.
Local Open Scope string_scope.
Local Open Scope list_scope.

Lemma not_WSP c : c = COLON \/ c = SEMI -> ~ WSP c.
Proof. intros [->| ->] [X|X]; discriminate X. Qed.
(** A name with something else than a line end around it. *)
Lemma line_inside u n c w : last_ok (fun c => c <> CR) u -> ~ WSP c -> line_starts WSP (u ++ n ++ c :: w) -> line_starts WSP n.
Proof.
  intros LU NW LS a b E. destruct (LS (u ++ a) (b ++ c :: w)) as (a' & d & b' & E1 & E2 & Wd).
  { rewrite E. rewrite <- !app_assoc. reflexivity. }
  destruct b as [|d' b]; cbn [app] in E2; injection E2 as X Y; subst; [contradiction|].
  destruct a as [|x a] using rev_ind.
  - rewrite app_nil_r in E1. subst u. unfold last_ok in LU. rewrite rev_app_distr in LU. cbn in LU. congruence.
  - rewrite app_assoc in E1. apply app_inj_tail in E1 as [_ ->]. exists a, d, b. auto.
Qed.
Lemma line_starts_opn x : line_starts WSP x <-> opn WSP x /\ lf_less x.
Proof.
  split; [|intros [A B]; apply opn_closed; auto]. intros L. split.
  - intros a b E. destruct (L a b E) as (a' & c & b' & -> & -> & W). split; [eauto|exact W].
  - unfold lf_less, last_ok. destruct x as [|c x] using rev_ind; [exact Logic.I|]. rewrite rev_app_distr. cbn. intros ->.
    destruct (L x [] eq_refl) as (? & ? & ? & _ & E & _). discriminate E.
Qed.
Lemma sep_line x : sep_ok WSP x <-> line_starts WSP x.
Proof.
  rewrite line_starts_opn. split; intros [A B]; split; auto. destruct B as [[X _]|B]; auto. exfalso. exact (not_WSP COLON (or_introl eq_refl) X).
Qed.
Lemma layout_inside names : forall first t, h_layout first names t -> forall n, In n names ->
  exists u w, t = u ++ n ++ w /\ last_ok (fun c => c <> CR) u /\ (w = [] \/ exists r, w = COLON :: r) /\ (first = false -> u <> []).
Proof.
  induction names as [|m r IH]; intros first t H n I; [destruct I|]. inversion H as [|f m' r' w t' W H']; subst.
  destruct I as [->|I].
  - exists ((if first then [] else [COLON]) ++ w), t'. split; [rewrite <- app_assoc; reflexivity|]. split; [|split].
    + destruct first, W as [->| ->]; cbn; try discriminate; exact Logic.I.
    + inversion H'; subst; [auto|]. right. eexists. reflexivity.
    + intros ->. discriminate.
  - destruct (IH false t' H' n I) as (u & w' & -> & L & E & NE). exists ((if first then [] else [COLON]) ++ w ++ m ++ u), w'.
    split; [rewrite <- !app_assoc; reflexivity|]. split; [|split; [exact E|intros ->; discriminate]].
    destruct u as [|x u] using rev_ind; [exfalso; exact (NE eq_refl eq_refl)|]. unfold last_ok in *. rewrite !app_assoc, rev_app_distr in *. exact L.
Qed.
Lemma entries_inside A e1 e2 : exists u w, entries_text (A ++ [e1; e2]) = u ++ entry_text e1 ++ SEMI :: w.
Proof.
  induction A as [|e A (u & w & IH)]; [exists [], (entry_text e2); reflexivity|].
  exists (entry_text e ++ SEMI :: u), w. cbn [app]. rewrite entries_cons by (destruct A; discriminate). rewrite IH. rewrite <- !app_assoc. reflexivity.
Qed.
Lemma one_signature_inside C strict o now hashed names bh q x : one_signature C strict o now hashed names bh q = Ok x -> forall n, In n names ->
  exists u c w, x = u ++ n ++ c :: w /\ last_ok (fun c => c <> CR) u /\ (c = COLON \/ c = SEMI).
Proof.
  intros OS n I. unfold one_signature in OS.
  destruct (sig_template o q now names bh) as [T| | |] eqn:ET; cbn [obind] in OS; try discriminate.
  destruct (FilterHeader strict (o_chead o) T) as [c| | |] eqn:EF; cbn [obind] in OS; try discriminate.
  destruct (make_signature C o q (digest C (o_digest o) (hashed ++ c))) as [z| | |] eqn:EM; cbn [obind] in OS; try discriminate.
  cbv zeta in OS. apply Ok_inj in OS. destruct (template_text o q now names bh T ET) as (_ & t & HL & TT). specialize (TT [] t eq_refl).
  destruct (layout_inside names true t HL n I) as (u & w & Et & L & Ew & _). set (B := fold_b _ _ _) in *.
  unfold sig_entries in TT. rewrite !app_assoc in TT.
  match type of TT with context [entries_text (?A ++ [?e1; ?e2])] => destruct (entries_inside A e1 e2) as (u1 & w1 & EE); rewrite EE in TT end.
  assert (EX : exists u0 w0, x = (u0 ++ [EQUALS]) ++ t ++ SEMI :: w0).
  { exists (field_name o ++ COLON :: u1 ++ (CRLF ++ [HT]) ++ str "h"), (w1 ++ (SEMI :: ((CRLF ++ [HT]) ++ str "b") ++ [EQUALS]) ++ B). rewrite <- OS, TT. unfold entry_text.
    cbn [e_w1 e_name e_w3 e_value app]. repeat (rewrite <- ?app_assoc; cbn [app]). reflexivity. }
  destruct EX as (u0 & w0 & ->). rewrite Et.
  assert (L2 : last_ok (fun c => c <> CR) ((u0 ++ [EQUALS]) ++ u)).
  { apply last_ok_app; [|exact L]. intros _. unfold last_ok. rewrite rev_app_distr. cbn. discriminate. }
  destruct Ew as [->|(r & ->)].
  - exists ((u0 ++ [EQUALS]) ++ u), SEMI, w0. split; [rewrite app_nil_r, <- !app_assoc; reflexivity|auto].
  - exists ((u0 ++ [EQUALS]) ++ u), COLON, (r ++ SEMI :: w0). split; [repeat (rewrite <- ?app_assoc; cbn [app]); reflexivity|auto].
Qed.
Lemma one_signature_named C strict o now hashed names bh q x : one_signature C strict o now hashed names bh q = Ok x -> exists r, x = field_name o ++ COLON :: r.
Proof.
  intros OS. unfold one_signature in OS.
  destruct (sig_template o q now names bh) as [T| | |] eqn:ET; cbn [obind] in OS; try discriminate.
  destruct (FilterHeader strict (o_chead o) T) as [c| | |] eqn:EF; cbn [obind] in OS; try discriminate.
  destruct (make_signature C o q (digest C (o_digest o) (hashed ++ c))) as [z| | |] eqn:EM; cbn [obind] in OS; try discriminate.
  cbv zeta in OS. apply Ok_inj in OS. destruct (template_text o q now names bh T ET) as (_ & t & HL & TT). specialize (TT [] t eq_refl).
  rewrite <- OS, TT, <- app_assoc. eexists. reflexivity.
Qed.
Lemma low_LF c : low c = LF <-> c = LF.
Proof.
  split; [|intros ->; reflexivity]. intros E. apply ceqb_eq. assert (K : forall c, implb (tolower c =?c LF) (c =?c LF) = true) by (apply byte_sweep; vm_compute; reflexivity).
  specialize (K c). change (tolower c) with (low c) in K. rewrite E, ceqb_refl in K. exact K.
Qed.
Lemma lower_line n : line_starts WSP (map low n) <-> line_starts WSP n.
Proof.
  assert (KC : forall c, implb (tolower c =?c CR) (c =?c CR) = true) by (apply byte_sweep; vm_compute; reflexivity).
  assert (KS : forall c, implb (tolower c =?c SP) (c =?c SP) = true) by (apply byte_sweep; vm_compute; reflexivity).
  assert (KH : forall c, implb (tolower c =?c HT) (c =?c HT) = true) by (apply byte_sweep; vm_compute; reflexivity).
  assert (IC : forall c, low c = CR -> c = CR) by (intros c E; apply ceqb_eq; specialize (KC c); change (tolower c) with (low c) in KC; rewrite E, ceqb_refl in KC; exact KC).
  assert (IW : forall c, WSP (low c) -> WSP c).
  { intros c [E|E]; [left|right]; apply ceqb_eq; [specialize (KS c); change (tolower c) with (low c) in KS; rewrite E, ceqb_refl in KS; exact KS|
      specialize (KH c); change (tolower c) with (low c) in KH; rewrite E, ceqb_refl in KH; exact KH]. }
  split; intros L a b E.
  - destruct (L (map low a) (map low b)) as (a' & c & b' & E1 & E2 & W); [rewrite E, map_app; reflexivity|].
    destruct a as [|x a] using rev_ind; [destruct a'; discriminate|]. rewrite map_app in E1. cbn [map] in E1. apply app_inj_tail in E1 as [_ E1].
    destruct b as [|d b]; [discriminate|]. cbn [map] in E2. injection E2 as E2 _. rewrite <- E2 in W. rewrite (IC x E1). exists a, d, b. auto.
  - apply map_eq_app in E as (l1 & l2 & -> & <- & E). destruct l2 as [|c l2]; [discriminate|]. cbn [map] in E. injection E as Ec <-. apply (proj1 (low_LF c)) in Ec. subst c.
    destruct (L l1 l2 eq_refl) as (a' & c & b' & -> & -> & W). exists (map low a'), (low c), (map low b'). split; [rewrite map_app; reflexivity|]. split; [reflexivity|].
    destruct W as [->| ->]; [left|right]; reflexivity.
Qed.

Lemma fields_exact C strict clock l t fs y H : let o := run_ops C l new_options in has_fields t fs ->
  CreateSignature C strict clock o (new_signatory (open_str t)) = (y, Ok H) ->
  exists fields, H = joined fields /\ length fields = length (all_signatures o) /\
  Forall (fun x => (exists r, x = field_name o ++ COLON :: r) /\
    (line_starts WSP x <-> (forall h, In h fs -> chosen o (h_name h) -> forall a, h_name h <> a ++ [LF]) /\ Forall (line_starts WSP) (o_oversign o))) fields.
Proof.
  intros o HF CS. destruct (message_fields t) as (_ & _ & _ & m & s & _ & _ & PA & _).
  rewrite <- (has_fields_unique t _ _ (parse_fields _ _ _ PA) HF).
  assert (NN : (forall h, In h (m_headers m) -> chosen o (h_name h) -> forall a, h_name h <> a ++ [LF]) /\ Forall (line_starts WSP) (o_oversign o) <->
    Forall (line_starts WSP) (signed_names o m)).
  { rewrite signed_listed. unfold listed_names. rewrite Forall_app, !Forall_map.
    assert (A1 : Forall (fun x => line_starts WSP (map low x)) (o_oversign o) <-> Forall (line_starts WSP) (o_oversign o)).
    { split; intros F; (eapply Forall_impl; [|exact F]); intros n; apply lower_line. }
    rewrite A1. apply and_iff_compat_r. split.
    - intros K. apply Forall_forall. intros h I. apply filter_In in I as [I CH]. rewrite <- in_rev in I. apply lower_line, line_starts_opn. split; [eapply message_names; eauto|].
      specialize (K h I (proj1 (choice_chosen _ _) CH)). unfold lf_less, last_ok. destruct (h_name h) as [|c r] using rev_ind; [exact Logic.I|].
      rewrite rev_app_distr. cbn. intros ->. exact (K r eq_refl).
    - intros F h I CH a E. rewrite Forall_forall in F. assert (X : line_starts WSP (map low (h_name h))).
      { apply F. apply filter_In. split; [rewrite <- in_rev; exact I|apply choice_chosen; exact CH]. }
      apply (proj1 (lower_line _)) in X. destruct (X a [] E) as (? & ? & ? & _ & Y & _). discriminate Y. }
  destruct (create_spec _ _ _ _ _ _ _ _ _ PA CS) as (b' & out' & outs & Hs & _ & _ & _ & _ & _ & _ & EH & F2).
  exists Hs. split; auto. split. { apply Forall2_length in F2. rewrite <- F2. unfold numbered. rewrite combine_length, seq_length, rev_length. lia. }
  assert (N2 : Forall (fun p => named_safely (snd p)) (numbered (rev (all_signatures o)))).
  { apply Forall_forall. intros [i q] I. apply in_combine_r in I. cbn [snd]. rewrite <- in_rev in I. pose proof (history_safe C l) as ND. rewrite Forall_forall in ND. apply ND. exact I. }
  revert N2 F2. generalize (digest C (o_digest o) (cut (o_signlen o) (o_bodylen o) out')), (numbered (rev (all_signatures o))). clear EH. intros bh l0 N2 F2.
  induction F2 as [|p x l1 l' E F2 IH]; constructor; inversion N2 as [|? ? [N3 N4] N5]; subst; auto. split.
  - eapply one_signature_named; eauto.
  - rewrite NN. split; intros LS.
    + apply Forall_forall. intros n I. destruct (one_signature_inside _ _ _ _ _ _ _ _ _ E n I) as (u & c & w & Ex & L & Ec). rewrite Ex in LS.
      eapply line_inside; [exact L|apply not_WSP; exact Ec|exact LS].
    + apply (one_signature_lines WSP (fun _ W => W) _ _ _ _ _ _ _ _ _ E N3 N4). eapply Forall_impl; [|exact LS]. intros n. apply sep_line.
Qed.

Lemma folded_fields : exists fs h a, has_fields folded_name fs /\ In h fs /\ h_name h = a ++ [LF].
Proof.
  destruct (message_fields folded_name) as (_ & _ & _ & m & s & _ & _ & PA & _). pose proof (parse_fields _ _ _ PA) as HF. vm_compute in PA. injection PA as <- <-.
  eexists. do 2 eexists. split; [exact HF|]. split; [right; left; reflexivity|]. cbn [h_name]. instantiate (1 := esc "X\r"). reflexivity.
Qed.
