(** The verifying run of the program (for C101). *)
From Verif Require Import Bytes Outcome Stream Tokenizer QuotedPrintable Base64 TagList MailParser Canonicalization Util
  CStdlib Crypto Signature PublicKey SignatoryOptions Signatory Validatory Tool ToolText ErrorText Reasons BytesFacts SpecText SpecTags SpecMail SpecCanon SpecVerify SpecSig SpecParse SpecKey SpecError SpecReason
  SpecPass SpecStop SpecSignTool SpecTool SpecEight SpecVerdict HeaderFacts HeaderProps SigFacts SigProps VerifyProps VerifyFacts ToolFacts ToolArgs PassFacts ReasonFacts ReasonSig ReasonOne
  EightFacts EightExact EightVerify ToolNumbers VerdictFacts VerdictCore.
From Verif Require Import Outcome.
Local Open Scope string_scope. Local Open Scope list_scope.

(** ** One signature, [strict] or not *)
Lemma use_false strict ty t v : in_use strict ty t v -> in_use false ty t v.
Proof.
  intros (v0 & N & X). exists v0. split; [|exact X]. destruct strict; [|exact N]. destruct (validatory_near true ty (open_str t)) as [E|E]; congruence.
Qed.
Section Strict.
Context (C : crypto) (strict : bool) (ty : validator_type) (t : bytes) (v : validatory) (fs : list header) (h : header) (now : Z) (e0 : bool) (r : bytes -> bool * bytes).
Context (U : in_use strict ty t v) (B : small_fields t) (HF : has_fields t fs) (IH : In h (v_sigs v)).
Notation res := (fun n => Ok (r n)).
Lemma gives_strict x : gives C strict r t fs now e0 h x <-> verdict_of C strict now res h e0 v = Some x.
Proof using U B HF IH.
  pose proof (use_false _ _ _ _ U) as U0. pose proof (gives_exact C ty t v fs h now e0 r U0 B HF IH) as GE.
  destruct (one_facts ty t v fs h U0 B HF IH) as (m0 & s0 & P0 & MF & VM0 & IN & L & SF & HB).
  destruct strict; [|apply GE]. destruct U as (v0 & NV & EV & ES & _). destruct (open_ascii ty t fs v0 HF NV) as [VM X]. rewrite ES in IH. destruct (X h IH) as (A & _ & NE).
  rewrite <- EV in VM. destruct (try_core C t fs v now res h e0 HF VM A IN NE) as [T1 T2].
  assert (D : field_leaves now e0 h \/ ~ field_leaves now e0 h).
  { rewrite <- (field_exact C now e0 h L). destruct (snd (Signature_Parse C true now h (new_signature, e0))) as [[]| |[]|]; auto; right; discriminate. }
  destruct D as [D|D].
  - specialize (T1 D). unfold verdict_of. destruct (try_one C true now res h e0 v) as [[[[v1 e1] g] p] o]. cbn [snd] in T1. subst o. cbn [report_of]. split.
    + intros G. inversion G as [_ _|m N TS|l k m d s e N FT CF KD KS EE|l g0 e y N FT TK J|l g0 e y N FT TK J]; try (destruct (N eq_refl D)); [reflexivity|].
      destruct D as (l & FT & _). destruct (N l FT).
    + intros [= <-]. apply gv_eight; auto.
  - destruct (T2 D) as [E1 E2]. assert (E : verdict_of C true now res h e0 v = verdict_of C false now res h e0 v) by (unfold verdict_of; rewrite E1, E2; reflexivity).
    rewrite E, <- GE. split; intros G.
    + inversion G as [_ FL|m N TS|l k m d s e N FT CF KD KS EE|l g0 e y N FT TK J|l g0 e y N FT TK J]; [contradiction| | | |].
      * apply gv_tags; assumption.
      * eapply gv_reason; try eassumption. discriminate.
      * eapply gv_line; try eassumption. discriminate.
      * eapply gv_lost; try eassumption. discriminate.
    + inversion G as [X1 FL|m N TS|l k m d s e N FT CF KD KS EE|l g0 e y N FT TK J|l g0 e y N FT TK J]; [discriminate| | | |].
      * apply gv_tags; assumption.
      * eapply gv_reason; try eassumption. intros _. exact D.
      * eapply gv_line; try eassumption. intros _. exact D.
      * eapply gv_lost; try eassumption. intros _. exact D.
Qed.
Lemma gives_some : exists x, verdict_of C strict now res h e0 v = Some x.
Proof using U B HF IH.
  pose proof (use_false _ _ _ _ U) as U0. destruct (gives_total C ty t v fs h now e0 r U0 B HF IH) as (x0 & G0).
  pose proof (proj1 (gives_exact C ty t v fs h now e0 r U0 B HF IH x0) G0) as E0.
  destruct (one_facts ty t v fs h U0 B HF IH) as (m0 & s0 & P0 & MF & VM0 & IN & L & SF & HB).
  destruct strict; [|eauto]. destruct U as (v0 & NV & EV & ES & _). destruct (open_ascii ty t fs v0 HF NV) as [VM X]. rewrite ES in IH. destruct (X h IH) as (A & _ & NE).
  rewrite <- EV in VM. destruct (try_core C t fs v now res h e0 HF VM A IN NE) as [T1 T2].
  assert (D : field_leaves now e0 h \/ ~ field_leaves now e0 h).
  { rewrite <- (field_exact C now e0 h L). destruct (snd (Signature_Parse C true now h (new_signature, e0))) as [[]| |[]|]; auto; right; discriminate. }
  destruct D as [D|D].
  - specialize (T1 D). unfold verdict_of. destruct (try_one C true now res h e0 v) as [[[[v1 e1] g] p] o]. cbn [snd] in T1. subst o. cbn [report_of]. eauto.
  - destruct (T2 D) as [E1 E2]. exists x0. rewrite <- E0. unfold verdict_of. rewrite E1, E2. reflexivity.
Qed.
End Strict.

(** ** The signatures of a file *)
Section Loops.
Context (C : crypto) (strict : bool) (clock : nat -> Z) (r : bytes -> bool * bytes).
Notation res := (fun n => Ok (r n)).
Lemma sigs_exact f ty t fs hs : small_fields t -> has_fields t fs -> forall v n e, in_use strict ty t v -> (forall h, In h hs -> In h (v_sigs v)) ->
  forall out z, prints C strict clock r f t fs hs n e out z <->
  let '(_, n1, e1, x) := tool_sigs C strict clock res f hs v n e in
  sigs_text C strict clock res f hs v n e = out /\ match z with inl p => x = None /\ p = (n1, e1) | inr u => x = Some (Undefined u) end.
Proof using.
  intros B HF. induction hs as [|h hs IHs]; intros v n e U IN out z; cbn [tool_sigs sigs_text].
  - split.
    + intros P. inversion P; subst. auto.
    + intros [<- Z]. destruct z as [p|u]; [|discriminate]. destruct Z as [_ ->]. apply pt_nil.
  - pose proof (IN h (or_introl eq_refl)) as IH. pose proof (gives_strict C strict ty t v fs h (clock n) e r U B HF IH) as GS.
    destruct (gives_some C strict ty t v fs h (clock n) e r U B HF IH) as (y & Y). unfold verdict_of in GS, Y.
    destruct (try_one C strict (clock n) res h e v) as [[[[v1 e1] g] p] o] eqn:T.
    pose proof (try_in_use _ _ _ _ _ _ _ _ _ _ _ _ _ _ U T) as U1.
    assert (IN1 : forall k, In k hs -> In k (v_sigs v1)).
    { intros k I. destruct U as (v0 & N0 & _ & S0 & _), U1 as (v2 & N2 & _ & S2 & _). rewrite S2. assert (v2 = v0) by congruence. subst v2. rewrite <- S0. apply IN. right. exact I. }
    destruct (report_of p o) as [rep|en]; [|destruct en as [?| |u|]; try discriminate].
    + specialize (IHs v1 (S n) e1 U1 IN1). rewrite line_shown.
      destruct (tool_sigs C strict clock res f hs v1 (S n) e1) as [[[ls n'] e'] x]. split.
      * intros P. inversion P as [|h' r' n0 e2 u G|h' r' n0 e2 d s y1 e3 out1 z1 G P1]; subst.
        -- apply GS in G. discriminate.
        -- apply GS in G. injection G as <- <- <- <-. apply IHs in P1 as [<- Z]. auto.
      * intros [<- Z]. eapply pt_line; [apply GS; reflexivity|]. apply IHs. auto.
    + split.
      * intros P. inversion P as [|h' r' n0 e2 u' G|h' r' n0 e2 d s y1 e3 out1 z1 G P1]; subst; apply GS in G; [|discriminate]. injection G as ->. auto.
      * intros [<- Z]. destruct z as [[]|u']; [destruct Z; discriminate|]. injection Z as ->. apply pt_lost. apply GS. reflexivity.
Qed.

Lemma sigs_end f ty t fs hs : small_fields t -> has_fields t fs -> forall v n e, in_use strict ty t v -> (forall h, In h hs -> In h (v_sigs v)) ->
  match snd (tool_sigs C strict clock res f hs v n e) with Some x => exists u, x = Undefined u | None => True end.
Proof using.
  intros B HF. induction hs as [|h hs IHs]; intros v n e U IN; cbn [tool_sigs]; [exact I|].
  pose proof (IN h (or_introl eq_refl)) as IH. destruct (gives_some C strict ty t v fs h (clock n) e r U B HF IH) as (y & Y). unfold verdict_of in Y.
  destruct (try_one C strict (clock n) res h e v) as [[[[v1 e1] g] p] o] eqn:T.
  pose proof (try_in_use _ _ _ _ _ _ _ _ _ _ _ _ _ _ U T) as U1.
  assert (IN1 : forall k, In k hs -> In k (v_sigs v1)).
  { intros k J. destruct U as (v0 & N0 & _ & S0 & _), U1 as (v2 & N2 & _ & S2 & _). rewrite S2. assert (v2 = v0) by congruence. subst v2. rewrite <- S0. apply IN. right. exact J. }
  destruct (report_of p o) as [rep|en]; [|destruct en as [?| |u|]; try discriminate; cbn [snd]; eauto].
  specialize (IHs v1 (S n) e1 U1 IN1). destruct (tool_sigs C strict clock res f hs v1 (S n) e1) as [[[ls n'] e'] x]. exact IHs.
Qed.

(** ** The files *)
Lemma empty_fields fs : has_fields [] fs -> fs = [].
Proof using.
  intros HF. destruct (listed false V_NONE [] _ eq_refl) as (m & s & P & _). pose proof (has_fields_unique [] _ _ (parse_fields _ _ _ P) HF) as E. rewrite <- E. vm_compute in P. injection P as <- _. reflexivity.
Qed.
Lemma fields_exist t : exists fs, has_fields t fs.
Proof using.
  destruct (new_validatory_total false V_NONE t) as (v & E); [discriminate|]. destruct (listed _ _ _ _ E) as (m & s & P & _). exists (m_headers m). exact (parse_fields _ _ _ P).
Qed.
Lemma files_exact (files : bytes -> option bytes) ty names : ty <> V_NONE -> (forall f t, In f names -> files f = Some t -> small_fields t) -> forall n e out z,
  verifying_run C strict clock r files ty names n e out z <->
  files_text C strict clock res files ty names n e = out /\ snd (tool_files C strict clock res files ty names n e) = z.
Proof using.
  intros TY. induction names as [|f names IHf]; intros SM n e out z; cbn [files_text tool_files].
  - split; [intros V; inversion V; subst; auto|]. intros [<- <-]. apply vr_nil.
  - specialize (IHf (fun g t I => SM g t (or_intror I))). destruct (files f) as [t|] eqn:FF.
    + specialize (SM f t (or_introl eq_refl) FF). cbn [open_file]. destruct (fields_exist t) as (fs & HF).
      assert (ONE : forall t' fs', file_text (files f) t' -> has_fields t' fs' -> t' = t /\ fs' = fs).
      { intros t' fs' [X|[X _]] HF'; rewrite FF in X; [|discriminate]. injection X as ->. split; [reflexivity|]. eapply has_fields_unique; eassumption. }
      assert (FT : file_text (files f) t) by (left; exact FF).
      assert (NV : strict = true /\ ~ Forall ascii_text (map h_name fs) /\ new_validatory strict ty (open_str t) = UB UB_ctype \/
        (strict = true -> Forall ascii_text (map h_name fs)) /\ exists v, new_validatory strict ty (open_str t) = Ok v).
      { destruct (new_validatory_total false ty t) as (v & E0); [discriminate|]. destruct strict; [|right; split; [discriminate|eauto]].
        destruct (collect_two (str "x") fs) as [[_ F]|[_ N]].
        - right. split; [auto|]. exists v. rewrite <- E0. apply (open_exact ty t fs HF). intros X. apply (proj1 (open_exact ty t fs HF)) in X as [_ X]. contradiction.
        - left. split; [reflexivity|]. split; [exact N|]. apply (open_exact ty t fs HF). auto. }
      destruct NV as [(ST & NA & ->)|(AS & v & NV)].
      * split.
        -- intros V. inversion V; subst; match goal with F : file_text _ _, H : has_fields _ _ |- _ => destruct (ONE _ _ F H) as [-> ->] end; [auto|..]; exfalso; auto.
        -- intros [<- <-]. eapply vr_open; eauto.
      * rewrite NV. pose proof (in_use_fresh _ _ _ _ NV) as U. destruct (listed _ _ _ _ NV) as (m & s & P & _ & _ & VS).
        rewrite (has_fields_unique t _ _ (parse_fields _ _ _ P) HF) in VS. 
        assert (VS' : v_sigs v = filter (signature_name ty) fs) by (rewrite VS; apply filter_ext; intros h; destruct ty; reflexivity). clear VS.
        pose proof (sigs_exact f ty t fs (v_sigs v) SM HF v n e U (fun h I => I)) as SE0. pose proof (sigs_end f ty t fs (v_sigs v) SM HF v n e U (fun h I => I)) as EN.
        assert (SE := fun out z => eq_ind _ (fun l => prints C strict clock r f t fs l n e out z <-> _) (SE0 out z) _ VS'). cbv beta in SE. clear SE0.
        destruct (tool_sigs C strict clock res f (v_sigs v) v n e) as [[[ls n1] e1] x]. split.
        -- intros V. inversion V; subst; match goal with F : file_text _ _, H : has_fields _ _ |- _ => destruct (ONE _ _ F H) as [-> ->] end.
           ++ exfalso. auto.
           ++ match goal with P : prints _ _ _ _ _ _ _ _ _ _ _ _ |- _ => apply SE in P as [<- ->] end. rewrite app_nil_r. auto.
           ++ match goal with P : prints _ _ _ _ _ _ _ _ _ _ _ _ |- _ => apply SE in P as [<- [-> PE]] end. injection PE as -> ->.
              match goal with V : verifying_run _ _ _ _ _ _ _ _ _ _ _ |- _ => apply IHf in V as [<- <-] end. destruct (tool_files C strict clock res files ty names n1 e1). auto.
        -- intros [<- <-]. destruct x as [en|].
           ++ rewrite app_nil_r. cbn [snd].
              cbn [snd] in EN. destruct EN as (u & ->). eapply vr_lost; [exact FT|exact HF|exact AS|]. apply SE. auto.
           ++ eapply vr_file; [exact FT|exact HF|exact AS|apply SE; split; [reflexivity|split; reflexivity]|]. apply IHf. split; [reflexivity|]. destruct (tool_files C strict clock res files ty names n1 e1). reflexivity.
    + cbn [open_file].
      assert (NV : exists v, new_validatory strict ty (mkStream [] [] false true) = Ok v /\ v_sigs v = []) by (destruct ty, strict; eexists; split; reflexivity).
      destruct NV as (v & -> & VS). rewrite VS. cbn [tool_sigs sigs_text app]. split.
      * intros V. inversion V; subst; match goal with F : file_text _ _ |- _ => destruct F as [F|[_ ->]]; [congruence|] end;
          match goal with H : has_fields _ _ |- _ => apply empty_fields in H; subst end.
        -- exfalso. match goal with H : ~ Forall _ _ |- _ => apply H; constructor end.
        -- match goal with P : prints _ _ _ _ _ _ _ _ _ _ _ _ |- _ => inversion P end.
        -- match goal with P : prints _ _ _ _ _ _ _ _ _ _ _ _ |- _ => inversion P; subst end. 
           match goal with V : verifying_run _ _ _ _ _ _ _ _ _ _ _ |- _ => apply IHf in V as [<- <-] end. destruct (tool_files C strict clock res files ty names n1 e1). auto.
      * intros [<- <-]. destruct (fields_exist []) as (fs & HF). pose proof (empty_fields _ HF). subst fs.
        apply (vr_file C strict clock r files ty f names n e [] [] [] n e); [right; auto|exact HF|intros _; constructor|apply pt_nil|]. apply IHf. split; [reflexivity|]. destruct (tool_files C strict clock res files ty names n e). reflexivity.
Qed.
End Loops.

(** ** The program *)
Lemma opened_exact C strict ty t fs v now r h e0 x : new_validatory strict ty (open_str t) = Ok v -> small_fields t -> has_fields t fs -> In h (v_sigs v) ->
  gives C strict r t fs now e0 h x <-> verdict_of C strict now (fun n => Ok (r n)) h e0 v = Some x.
Proof. intros N B HF I. apply (gives_strict C strict ty); auto. apply in_use_fresh. exact N. Qed.
Definition small_files (files : bytes -> option bytes) (names : list bytes) : Prop := forall f t, In f names -> files f = Some t -> small_fields t.
Lemma run_exact C strict clock r fs args ss files a : command_line args ss files -> Forall usual ss -> all_settings ss a -> In Validate ss -> files <> [] -> small_files fs files ->
  forall out z,
    main_text C strict clock (fun n => Ok (r n)) fs args = out /\ snd (tool_main C strict clock (fun n => Ok (r n)) fs args) = z <->
    verifying_run C strict clock r fs (a_type a) files 0 (a_errno a) out z.
Proof.
  intros CL U AS IV NF SM out z. destruct (take_all ss U) as (a' & TK & AS'). pose proof (settings_one _ _ _ AS AS'). subst a'. pose proof (as_settings _ _ AS) as ST.
  pose proof (command_getopt _ _ _ CL) as GO. pose proof (proj2 (st_validate _ _ ST) IV) as VA.
  assert (TY : a_type a <> V_NONE) by (destruct (st_type _ _ ST) as [[_ ->]|[_ ->]]; discriminate).
  rewrite (files_exact C strict clock r fs (a_type a) files TY SM 0 (a_errno a) out z).
  unfold main_text, tool_main. rewrite GO, TK, VA. destruct files as [|f files]; [congruence|].
  destruct args as [|w args]; [inversion CL|].
  destruct (tool_files C strict clock (fun n => Ok (r n)) fs (a_type a) (f :: files) 0 (a_errno a)) as [ls e]. reflexivity.
Qed.
Lemma settings_exist ss : Forall usual ss -> exists a, all_settings ss a /\ forall a', all_settings ss a' -> a' = a.
Proof. intros U. destruct (take_all ss U) as (a & _ & AS). exists a. split; [exact AS|]. intros a' AS'. exact (settings_one _ _ _ AS' AS). Qed.
Lemma verifying_one C strict clock r files ty names n e : ty <> V_NONE -> small_files files names ->
  exists out z, verifying_run C strict clock r files ty names n e out z /\ forall out' z', verifying_run C strict clock r files ty names n e out' z' -> out' = out /\ z' = z.
Proof.
  intros TY SM. eexists. eexists. split; [apply files_exact; [exact TY|exact SM|split; reflexivity]|]. intros out' z' V. apply files_exact in V; [|exact TY|exact SM]. destruct V; auto.
Qed.
