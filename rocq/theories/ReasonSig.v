(** Signature::Parse and the reasons for which it refuses, put together (for C96). *)
From Verif Require Import Bytes Outcome Stream Tokenizer QuotedPrintable Base64 TagList MailParser Canonicalization Util
  CStdlib Crypto Signature PublicKey Tool ToolText ErrorText Reasons BytesFacts SpecText SpecTags SpecMail SpecCanon SpecVerify SpecSig SpecParse SpecKey SpecError SpecReason
  QPFacts ListFacts ListExact ListWide TagListFacts HeaderFacts SigFacts SigProps KeyExact SigExact ErrorQP ErrorList ErrorCases ReportFacts ReasonFacts.
Local Open Scope string_scope. Local Open Scope list_scope.

Lemma sig_texts_run C strict now h st : Signature_Parse C strict now h st = run_stages (map fst (sig_texts C strict now h)) st.
Proof. rewrite sig_run. reflexivity. Qed.

Lemma what_Ok {S} f w (r : list (stage S)) s s1 : f s = (s1, Ok tt) -> first_what ((f, w) :: r) s = first_what r s1.
Proof. intros E. cbn [first_what]. rewrite E. reflexivity. Qed.
Lemma run_Ok {S} (f : S -> S * outcome unit) r s s1 : f s = (s1, Ok tt) -> run_stages (f :: r) s = run_stages r s1.
Proof. intros E. cbn [run_stages]. rewrite E. reflexivity. Qed.
Lemma tags_step h e0 t o : h_voff h <= length (h_text h) -> TagList_Parse [] (skipn (h_voff h) (h_text h)) = (t, o) ->
  parse_tags h (new_signature, e0) = ((set_tags t new_signature, e0), o).
Proof.
  intros L T. unfold parse_tags, substr_from. apply Nat.leb_le in L. rewrite L. cbn [slift fst].
  change (sg_tags new_signature) with (@nil (bytes * tag_entry)). rewrite T. reflexivity.
Qed.
Lemma sig_what C now e0 h l : field_tags h l ->
  match Signature_what C false now h (new_signature, e0) with
  | Some m => first_reason (sig_reason now e0 (same_name (h_name h) (str "arc-message-signature")) l) m /\
              snd (Signature_Parse C false now h (new_signature, e0)) = perm
  | None => (forall k m, ~ sig_reason now e0 (same_name (h_name h) (str "arc-message-signature")) l k m) /\
            snd (Signature_Parse C false now h (new_signature, e0)) = Ok tt
  end.
Proof.
  intros F. destruct (field_tags_parse h l F) as (tags & T & HV & LV & G). destruct F as (L & _).
  rewrite sig_texts_run. unfold Signature_what, sig_texts. cbn [map fst].
  pose proof (tags_step h e0 tags (Ok tt) L T) as T1. rewrite (what_Ok _ _ _ _ _ T1), (run_Ok _ _ _ _ T1). clear T1.
  set (arc := same_name (h_name h) (str "arc-message-signature")).
  set (st := (if arc then upd (set_arc true) (set_tags tags new_signature, e0) else (set_tags tags new_signature, e0))).
  assert (P : parse_arc false (h_name h) (set_tags tags new_signature, e0) = (st, Ok tt)).
  { unfold parse_arc, lower_str. cbn [andb slift]. unfold st, arc. change (str "arc-message-signature") with arc_name at 2. rewrite same_arc. destruct (beqb _ _); reflexivity. }
  rewrite (what_Ok _ _ _ _ _ P), (run_Ok _ _ _ _ P). clear P.
  assert (J : inv tags l e0 arc 1 st).
  { unfold inv, st. destruct arc; (split; [reflexivity|]; split; [reflexivity|]; split; [lia|]; reflexivity). }
  pose proof (stages_reason _ _ _ 1 st (st_all C now tags l e0 arc HV LV G) J) as X.
  change (first_what _ st) with (first_what (sig_checks C now) st). change (run_stages _ st) with (run_stages (map fst (sig_checks C now)) st).
  destruct (first_what (sig_checks C now) st) as [m|].
  - destruct X as [(k & _ & K & M) (s' & E)]. split; [|rewrite E; reflexivity]. exists k. split; [exact K|]. intros j m' Kj.
    apply (M j m'); [|exact Kj]. clear -Kj. inversion Kj; lia.
  - destruct X as [(s' & E) N]. split; [|rewrite E; reflexivity]. intros k m K. apply (N k m); [|exact K]. clear -K. inversion K; lia.
Qed.
(** The value is no tag list. *)
Lemma tags_none C now e0 h : h_voff h <= length (h_text h) -> (forall l, ~ field_tags h l) ->
  exists m, Signature_what C false now h (new_signature, e0) = Some m /\ tags_say [] (skipn (h_voff h) (h_text h)) m /\
            snd (Signature_Parse C false now h (new_signature, e0)) = perm.
Proof.
  intros L N. pose proof (same_tags [] (skipn (h_voff h) (h_text h))) as X.
  destruct (TagList_says [] (skipn (h_voff h) (h_text h))) as [tags|m|] eqn:E; [|exists m|destruct X].
  - exfalso. destruct (tags_V _ _ X) as (l & R & ND & _). apply (N l). split; [exact L|]. split; assumption.
  - split; [|split].
    + unfold Signature_what, sig_texts. cbn [first_what]. destruct (TagList_Parse [] _) as [t o] eqn:T. cbn [snd] in X. subst o. rewrite (tags_step h e0 t perm L T). cbn [thrown perm].
      unfold tags_what, substr_from. apply Nat.leb_le in L. rewrite L. change (sg_tags (fst (new_signature, e0))) with (@nil (bytes * tag_entry)). rewrite E. reflexivity.
    + apply (tags_tell [] _ _ E).
    + rewrite sig_texts_run. unfold sig_texts. cbn [map fst run_stages]. destruct (TagList_Parse [] _) as [t o] eqn:T. cbn [snd] in X. subst o. rewrite (tags_step h e0 t perm L T). reflexivity.
Qed.
