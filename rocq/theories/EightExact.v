(** Exactly when a byte of 128 or more comes to tolower (for C100). *)
From Verif Require Import Bytes Outcome Stream Tokenizer QuotedPrintable Base64 TagList MailParser Canonicalization Util
  CStdlib Crypto Signature PublicKey SignatoryOptions Signatory Validatory Tool ToolText ErrorText Reasons BytesFacts SpecText SpecTags SpecMail SpecCanon SpecVerify SpecSig SpecParse SpecKey SpecError SpecReason
  SpecPass SpecStop SpecEight QPFacts TagListFacts HeaderFacts HeaderProps SigFacts SigProps KeyFacts VerifyProps VerifyFacts SelectFacts PassFacts ReportFacts ReasonFacts ReasonSig ReasonKeys ReasonOne MadeFacts StopFacts EightFacts.
From Verif Require Import Outcome.
Local Open Scope string_scope. Local Open Scope list_scope.

Lemma lower_two s : lower_str true s = Ok (lower s) /\ ascii_text s \/ lower_str true s = UB UB_ctype /\ ~ ascii_text s.
Proof. unfold lower_str, ascii_text. rewrite <- eight_seven. cbn [andb]. destruct existsb; [right; split; [reflexivity|discriminate]|left; auto]. Qed.
Lemma lower_same s : ascii_text s -> lower_str true s = lower_str false s.
Proof. intros A. destruct (lower_two s) as [[-> _]|[_ N]]; [reflexivity|destruct (N A)]. Qed.
Lemma lower_false s : lower_str false s = Ok (lower s).
Proof. reflexivity. Qed.

(** ** FilterHeader *)
Lemma eight_part_dec t : name_part_eight t \/ ~ name_part_eight t.
Proof.
  destruct (find_char COLON t) as [n|] eqn:E.
  - apply find_char_Some in E as (a & b & -> & _ & N). destruct (ascii_dec a) as [A|A]; [right|left; exists a, b; auto].
    intros (a' & b' & X & N' & K). apply K. assert (F : find_char COLON (a ++ COLON :: b) = Some (length a)) by (apply find_char_app; exact N).
    rewrite X, find_char_app in F by exact N'. injection F as F. apply (f_equal (firstn (length a))) in X. rewrite firstn_app_exact, <- F, firstn_app_exact in X. subst a'. exact A.
  - right. intros (a & b & -> & _). apply find_char_None in E. apply E, in_elt.
Qed.
Lemma part_lower t n : find_char COLON t = Some n -> ~ name_part_eight t -> lower_str true (firstn n t) = lower_str false (firstn n t).
Proof.
  intros E N. apply find_char_Some in E as (a & b & -> & <- & NI). rewrite firstn_app_exact. apply lower_same. destruct (ascii_dec a) as [A|A]; [exact A|].
  destruct N. exists a, b. auto.
Qed.
Lemma filter_same mode t : ~ name_part_eight t -> FilterHeader true mode t = FilterHeader false mode t.
Proof.
  intros N. destruct mode; [reflexivity|]. unfold FilterHeader. destruct (find_char COLON t) as [n|] eqn:E; [|reflexivity]. rewrite (part_lower _ _ E N). reflexivity.
Qed.
Lemma filter_what_same t : ~ name_part_eight t -> filter_what true t = filter_what false t.
Proof. intros N. unfold filter_what. destruct (find_char COLON t) as [n|] eqn:E; [|reflexivity]. rewrite (part_lower _ _ E N). reflexivity. Qed.
Lemma filter_leaves mode t : FilterHeader true mode t = UB UB_ctype <-> mode = RELAXED /\ name_part_eight t.
Proof.
  split.
  - intros E. destruct (eight_part_dec t) as [K|K].
    + split; [|exact K]. destruct mode; [discriminate E|reflexivity].
    + rewrite (filter_same _ _ K) in E. exfalso. destruct mode; [discriminate E|]. destruct (FilterHeader_total RELAXED t) as [T|(out & T)]; rewrite T in E; discriminate E.
  - intros [-> (a & b & -> & N & A)]. unfold FilterHeader. rewrite find_char_app, firstn_app_exact by exact N. destruct (lower_two a) as [[_ X]|[-> _]]; [destruct (A X)|reflexivity].
Qed.

(** ** Signature::Parse *)
Lemma good_seven st n e : good_tags (sg_tags (fst st)) -> tag n st = Some e -> existsb is_8bit (te_value e) = false.
Proof.
  intros G E. destruct (tag_V n st) as [[A _]|(e' & A & B)]; [congruence|]. rewrite E in A. injection A as <-. apply tag_value_7bit. exact (G _ _ B).
Qed.
Lemma d_same st : good_tags (sg_tags (fst st)) -> parse_d true st = parse_d false st.
Proof. intros G. unfold parse_d. destruct (tag "d" st) as [e|] eqn:E; [|reflexivity]. pose proof (good_seven _ _ _ G E). rewrite !lower_7bit by assumption. reflexivity. Qed.
Lemma b_same C st : good_tags (sg_tags (fst st)) -> parse_b C true st = parse_b C false st.
Proof.
  intros G. unfold parse_b. destruct (tag "b" st) as [e|] eqn:E; [|reflexivity]. pose proof (good_seven _ _ _ G E). destruct (te_value e) eqn:V; [reflexivity|].
  rewrite !strip_7bit by assumption. reflexivity.
Qed.
Lemma bh_same C st : good_tags (sg_tags (fst st)) -> parse_bh C true st = parse_bh C false st.
Proof. intros G. unfold parse_bh. destruct (tag "bh" st) as [e|] eqn:E; [|reflexivity]. pose proof (good_seven _ _ _ G E). rewrite !strip_7bit by assumption. reflexivity. Qed.

Fixpoint some_stages {S} (R : nat -> bytes -> Prop) (I : nat -> S -> Prop) (k : nat) (l : list (stage S)) : Prop :=
  match l with
  | [] => True
  | x :: r => good_stage R I k x /\ some_stages R I (Datatypes.S k) r
  end.
Lemma stages_state {S} R I (l : list (stage S)) : forall k s, some_stages R I k l -> I k s ->
  (exists s', run_stages (map fst l) s = (s', Ok tt) /\ I (k + length l) s' /\ forall j m, k <= j < k + length l -> ~ R j m) \/
  (exists s' j m, run_stages (map fst l) s = (s', perm) /\ k <= j < k + length l /\ R j m).
Proof.
  induction l as [|[f what] l IH]; intros k s A J; cbn [some_stages] in A.
  - left. exists s. cbn [length]. rewrite Nat.add_0_r. split; [reflexivity|]. split; [exact J|]. intros j m L. lia.
  - destruct A as [G A]. cbn [map run_stages fst length]. destruct (G s J) as [(s' & E & J' & N)|(s' & E & K)]; cbn [fst snd] in E; rewrite E; cbn [sbind].
    + destruct (IH (Datatypes.S k) s' A J') as [(s2 & E2 & J2 & N2)|(s2 & j & m & E2 & L & K)].
      * left. exists s2. split; [exact E2|]. split; [replace (k + Datatypes.S (length l)) with (Datatypes.S k + length l) by lia; exact J2|]. intros j m L Kj.
        destruct (Nat.eq_dec j k) as [->|D]; [exact (N _ Kj)|]. apply (N2 j m); [lia|exact Kj].
      * right. exists s2, j, m. split; [exact E2|]. split; [lia|exact K].
    + right. exists s', k, (what s). split; [reflexivity|]. split; [lia|exact K].
Qed.
Definition early (C : crypto) (strict : bool) : list (stage sig_st) :=
  [(parse_d strict, d_what); (parse_v, v_what); (parse_a, a_what); (parse_b C strict, b_what); (parse_bh C strict, bh_what); (parse_c, c_what); (parse_h, h_what)].
Definition late (now : Z) : list (sig_st -> sig_st * outcome unit) := [parse_l; parse_q; parse_s; parse_x now].
Lemma run_app {S} (a b : list (S -> S * outcome unit)) : forall s, run_stages (a ++ b) s = sbind (run_stages a s) (run_stages b).
Proof.
  induction a as [|f a IH]; intros s; cbn [app run_stages]; [reflexivity|]. destruct (f s) as [s1 []]; cbn [sbind]; auto.
Qed.
Section Early.
Context (C : crypto) (now : Z) (tags : taglist) (l : list (bytes * bytes)) (e0 arc : bool).
Context (HV : forall n v, V tags n = Some v <-> has l n v) (LV : forall n, V tags n = None <-> lacks l n) (G : good_tags tags).
Notation R := (sig_reason now e0 arc l).
Notation I_ := (inv tags l e0 arc).
Lemma inv_good k st : I_ k st -> good_tags (sg_tags (fst st)).
Proof using G. intros (-> & _). exact G. Qed.
Lemma early_good : some_stages R I_ 1 (early C true).
Proof using HV LV G.
  cbn [some_stages early].
  assert (SD : good_stage R I_ 1 (parse_d true, d_what)) by (intros st J; cbn [fst snd]; rewrite (d_same st (inv_good _ _ J)); exact (st_d now tags l e0 arc HV LV G st J)).
  assert (SB : good_stage R I_ 4 (parse_b C true, b_what)) by (intros st J; cbn [fst snd]; rewrite (b_same C st (inv_good _ _ J)); exact (st_b C now tags l e0 arc HV LV G st J)).
  assert (SH : good_stage R I_ 5 (parse_bh C true, bh_what)) by (intros st J; cbn [fst snd]; rewrite (bh_same C st (inv_good _ _ J)); exact (st_bh C now tags l e0 arc HV LV G st J)).
  split; [exact SD|]. split; [eapply st_v; eauto|]. split; [eapply st_a; eauto|]. split; [exact SB|]. split; [exact SH|]. split; [eapply st_c; eauto|]. split; [eapply st_h; eauto|exact I].
Qed.
Lemma early_run : forall st, I_ 1 st ->
  (exists s', run_stages (map fst (early C true)) st = (s', Ok tt) /\ I_ 8 s' /\ forall j m, j < 8 -> ~ R j m) \/
  (exists s' j m, run_stages (map fst (early C true)) st = (s', perm) /\ j < 8 /\ R j m).
Proof using HV LV G.
  intros st J. destruct (stages_state _ _ _ 1 st early_good J) as [(s' & E & J' & N)|(s' & j & m & E & L & K)]; cbn [length early] in *; [left|right].
  - exists s'. split; [exact E|]. split; [exact J'|]. intros j m L K. apply (N j m); [|exact K]. clear -K L. inversion K; lia.
  - exists s', j, m. split; [exact E|]. split; [lia|exact K].
Qed.
Lemma i_two st : I_ 8 st -> (arc = false /\ eight_identity l -> snd (parse_i true st) = UB UB_ctype) /\
  (snd (parse_i true st) = UB UB_ctype -> arc = false /\ eight_identity l).
Proof using HV LV G.
  intros (T & A & _). unfold parse_i. rewrite A. destruct arc.
  - split; [intros [X _]; discriminate X|]. intros X. exfalso. destruct (tag "i" st) as [e|]; [|discriminate X].
    destruct (strtoul (te_value e)) as [[n r] f]. destruct ((n <? 1) || (50 <? n))%N; discriminate X.
  - destruct (tag_find tags l HV LV G "i" st T) as [[-> L]|(e & -> & H & TV)].
    + split; [|intros X; discriminate X]. intros [_ (i & lo & raw & Hi & _)]. exfalso. apply L. exact (in_map fst _ _ Hi).
    + split.
      * intros [_ (i & lo & raw & Hi & Q & NI & N8)]. assert (i = te_value e) by (apply (has_one tags l HV "i"); assumption). subst i.
        apply (proj1 (qp_decode_grammar false _)) in Q. rewrite Q. cbn [slift]. rewrite find_char_app by exact NI.
        replace (S (length lo)) with (length (lo ++ [AT])) by (rewrite app_length; cbn; lia).
        replace (lo ++ AT :: raw) with ((lo ++ [AT]) ++ raw) by (rewrite <- app_assoc; reflexivity). rewrite skipn_app_exact. cbv zeta.
        destruct (lower_two raw) as [[_ K]|[-> _]]; [destruct (N8 K)|reflexivity].
      * destruct (quoted_cases3 (te_value e)) as [(mail & E1 & E2 & W)|(m & E1 & E2 & N & K)]; rewrite E1; cbn [slift]; [|discriminate].
        destruct (find_char AT mail) as [p|] eqn:F; [|discriminate]. apply find_char_Some in F as (pre & post & EM & Lp & NI). subst p. rewrite EM in *.
        replace (S (length pre)) with (length (pre ++ [AT])) by (rewrite app_length; cbn; lia).
        replace (pre ++ AT :: post) with ((pre ++ [AT]) ++ post) by (rewrite <- app_assoc; reflexivity). rewrite skipn_app_exact. cbv zeta.
        destruct (lower_two post) as [[-> _]|[_ N8]].
        -- cbn [slift]. destruct (_ || _); discriminate.
        -- intros _. split; [reflexivity|]. exists (te_value e), pre, post. auto.
Qed.
End Early.
Lemma late_quiet now st : snd (run_stages (late now) st) <> UB UB_ctype.
Proof.
  assert (L : forall s, snd (parse_l s) <> UB UB_ctype).
  { intros s. unfold parse_l. destruct (tag "l" s) as [e|]; [|discriminate]. destruct (Nat.ltb _ _); [discriminate|]. destruct (strtoul _) as [[n r] f].
    cbv zeta. repeat match goal with |- context [if ?b then _ else _] => destruct b end; try discriminate; destruct r; discriminate. }
  assert (Q : forall s, snd (parse_q s) <> UB UB_ctype) by (intros s; unfold parse_q; destruct (tag "q" s); [destruct beqb|]; discriminate).
  assert (X : forall s, snd (parse_s s) <> UB UB_ctype) by (intros s; unfold parse_s; destruct (tag "s" s); discriminate).
  assert (Y : forall s, snd (parse_x now s) <> UB UB_ctype) by (intros s; unfold parse_x; destruct (tag "x" s); [destruct (strtol _); destruct (_ <? _)%Z|]; discriminate).
  assert (B : forall (f : sig_st -> sig_st * outcome unit) r s, (forall s, snd (f s) <> UB UB_ctype) -> (forall s, snd (run_stages r s) <> UB UB_ctype) -> snd (run_stages (f :: r) s) <> UB UB_ctype).
  { intros f r s F K. cbn [run_stages]. specialize (F s). destruct (f s) as [s1 []]; cbn [sbind snd] in *; auto. }
  unfold late. revert st. intros st. apply B; [exact L|]. intros s1. apply B; [exact Q|]. intros s2. apply B; [exact X|]. intros s3. apply B; [exact Y|]. intros s4. discriminate.
Qed.
Lemma field_exact C now e0 h : h_voff h <= length (h_text h) ->
  snd (Signature_Parse C true now h (new_signature, e0)) = UB UB_ctype <-> field_leaves now e0 h.
Proof.
  intros L. rewrite sig_texts_run. change (map fst (sig_texts C true now h)) with (parse_tags h :: parse_arc true (h_name h) :: map fst (early C true) ++ parse_i true :: late now).
  assert (MAIN : forall l, field_tags h l -> snd (run_stages (parse_tags h :: parse_arc true (h_name h) :: map fst (early C true) ++ parse_i true :: late now) (new_signature, e0)) = UB UB_ctype <->
    (~ ascii_text (h_name h) \/ same_name (h_name h) (str "arc-message-signature") = false /\ eight_identity l /\
     forall k m, k < 8 -> ~ sig_reason now e0 (same_name (h_name h) (str "arc-message-signature")) l k m)).
  { intros l F. destruct (field_tags_parse h l F) as (tags & T & HV & LV & G).
    pose proof (tags_step h e0 tags (Ok tt) L T) as T1. rewrite (run_Ok _ _ _ _ T1). clear T1.
    set (arc := same_name (h_name h) (str "arc-message-signature")).
    destruct (lower_two (h_name h)) as [[LO A]|[LO A]].
    2: { split; [intros _; left; exact A|]. intros _. cbn [run_stages]. unfold parse_arc. rewrite LO. reflexivity. }
    set (st := (if arc then upd (set_arc true) (set_tags tags new_signature, e0) else (set_tags tags new_signature, e0))).
    assert (P : parse_arc true (h_name h) (set_tags tags new_signature, e0) = (st, Ok tt)).
    { unfold parse_arc. rewrite LO. cbn [slift]. unfold st, arc. change (str "arc-message-signature") with arc_name at 2. rewrite same_arc. destruct (beqb _ _); reflexivity. }
    rewrite (run_Ok _ _ _ _ P). clear P.
    assert (J : inv tags l e0 arc 1 st).
    { unfold inv, st. destruct arc; (split; [reflexivity|]; split; [reflexivity|]; split; [lia|]; reflexivity). }
    rewrite run_app. destruct (early_run C now tags l e0 arc HV LV G st J) as [(s' & E & J' & N)|(s' & j & m & E & K & R)]; rewrite E; cbn [sbind].
    - cbn [run_stages]. destruct (i_two tags l e0 arc HV LV G s' J') as [I1 I2]. split.
      + intros X. right. assert (Y : snd (parse_i true s') = UB UB_ctype).
        { destruct (parse_i true s') as [s2 []] eqn:PI; cbn [sbind snd] in *; try congruence. exfalso. exact (late_quiet now s2 X). }
        destruct (I2 Y) as [Ar I8]. split; [exact Ar|]. split; [exact I8|exact N].
      + intros [X|(Ar & I8 & _)]; [destruct (X A)|]. specialize (I1 (conj Ar I8)). destruct (parse_i true s') as [s2 o]. cbn [snd] in I1. subst o. reflexivity.
    - split; [intros X; discriminate X|]. intros [X|(_ & _ & X)]; [destruct (X A)|]. destruct (X j m K R). }
  destruct (TagList_Parse_cases [] (skipn (h_voff h) (h_text h))) as [(ents & P & R & (ND & DJ) & _)|((t' & P) & NO)].
  - assert (F : field_tags h (nv ents)) by (split; [exact L|]; split; assumption). split.
    + intros X. exists (nv ents). split; [exact F|]. apply MAIN; auto.
    + intros (l & F' & K). apply (MAIN l F'). exact K.
  - split.
    + cbn [run_stages]. rewrite (tags_step h e0 t' perm L P). intros X. discriminate X.
    + intros (l & F' & K). apply (MAIN l F'). exact K.
Qed.
