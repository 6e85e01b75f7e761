(** The texts with which CheckSignature refuses (for C96). *)
From Verif Require Import Bytes Outcome Stream Tokenizer QuotedPrintable Base64 TagList MailParser Canonicalization Util
  CStdlib Crypto Signature PublicKey Validatory Tool ToolText ErrorText Reasons BytesFacts SpecText SpecTags SpecMail SpecCanon SpecVerify SpecSig SpecParse SpecKey SpecError SpecReason
  StreamFacts TokenizerFacts ListFacts ListWide TagListFacts HeaderFacts HeaderProps LoneFacts SelectFacts SigFacts SigProps KeyFacts VerifyFacts VerifyProps ErrorFacts ReportFacts ReasonFacts ShownFacts.
Local Open Scope string_scope. Local Open Scope list_scope.

(** ** Header fields *)
Definition bad_cr (r : bytes) (k : nat) (m : bytes) : Prop :=
  exists a, paired a /\ ((r = a ++ [CR] /\ m = str "CR without matching LF, at the END") \/
   exists c u, r = a ++ CR :: c :: u /\ c <> LF /\ byte_at "CR without matching LF, 0x" " at position " m c (k + S (length a))).
Lemma paired_app a b : paired a -> paired b -> paired (a ++ b).
Proof.
  intros A B x y E. apply app_eq_app in E as (l & [[-> E]|[-> E]]).
  - destruct l as [|c l]; [destruct (B [] y (eq_sym E)) as (b' & ->); eauto|]. injection E as <- E. destruct (A x l eq_refl) as (b' & ->). cbn [app] in E. subst y. eauto.
  - destruct (B l y E) as (b' & ->). eauto.
Qed.
Lemma paired_no a : ~ In CR a -> paired a.
Proof. intros N x y ->. destruct N. apply in_or_app. right. left. reflexivity. Qed.
Lemma paired_cons c a : (c = CR -> exists b, a = LF :: b) -> paired a -> paired (c :: a).
Proof. intros K A [|d x] y E; injection E as -> E; [subst; auto|]. exact (A x y E). Qed.
Lemma paired_lone a r : paired a -> lone (a ++ r) = lone r.
Proof.
  induction a as [|c a IH]; intros P; [reflexivity|]. cbn [app]. rewrite lone_cons, IH.
  - destruct (c =?c CR) eqn:C; [|reflexivity]. apply ceqb_eq in C. subst c. destruct (P [] a eq_refl) as (b & ->). cbn [app]. rewrite ceqb_refl. reflexivity.
  - intros x y ->. exact (P (c :: x) y eq_refl).
Qed.
Lemma bad_cr_lone r k m : bad_cr r k m -> lone r = true.
Proof.
  intros (a & P & [[-> _]|(c & u & -> & N & _)]); rewrite (paired_lone _ _ P), lone_cons, ceqb_refl; [reflexivity|].
  apply ceqb_neq in N. rewrite N. reflexivity.
Qed.
Lemma bad_cr_app a r k m : paired a -> bad_cr r (k + length a) m -> bad_cr (a ++ r) k m.
Proof.
  intros P (b & Q & T). exists (a ++ b). split; [apply paired_app; auto|]. destruct T as [[-> M]|(c & u & -> & N & M)].
  - left. rewrite <- app_assoc. auto.
  - right. exists c, u. rewrite <- app_assoc. split; [reflexivity|]. split; [exact N|]. rewrite app_length.
    replace (k + S (length a + length b)) with (k + length a + S (length b)) by lia. exact M.
Qed.
Lemma bad_cr_cons c r k m : (c = CR -> exists b, r = LF :: b) -> bad_cr r (S k) m -> bad_cr (c :: r) k m.
Proof.
  intros K (a & P & T). exists (c :: a). split.
  - apply paired_cons; [|exact P]. intros ->. destruct (K eq_refl) as (b & ->). destruct a as [|d a].
    + destruct T as [[T _]|(x & u & T & _)]; discriminate.
    + destruct T as [[T _]|(x & u & T & _)]; injection T as <- _; eauto.
  - destruct T as [[-> M]|(x & u & -> & N & M)]; [left; auto|right]. exists x, u. split; [reflexivity|]. split; [exact N|]. cbn [length].
    replace (k + S (S (length a))) with (S k + S (length a)) by lia. exact M.
Qed.
Lemma wsps_no_cr w : Forall WSP w -> ~ In CR w.
Proof. intros F I. rewrite Forall_forall in F. destruct (F _ I); discriminate. Qed.
Lemma fws_bad s p r : St s p r -> l_fws r = None -> exists m, read_fws_says s = Says m /\ bad_cr r (length p) m.
Proof.
  intros H E. destruct (fws_Says s p r H E) as (m & w & R & W & T). exists m. split; [exact R|]. exists w.
  split; [apply paired_no, wsps_no_cr, W|]. destruct T as [T|(c & u & A & N & M)]; [left; exact T|right]. exists c, u. split; [exact A|]. split; [exact N|].
  replace (length p + S (length w)) with (length p + length w + 1) by lia. exact M.
Qed.
Lemma chunk_paired w r' : (Forall WSP w /\ stops r' \/ exists u c b, w = u ++ CRLF ++ c :: b /\ Forall WSP u /\ WSP c /\ Forall WSP b) -> paired w.
Proof.
  intros [[W _]|(u & c & b & -> & U & X & Y)]; [apply paired_no, wsps_no_cr, W|]. apply paired_app; [apply paired_no, wsps_no_cr, U|].
  apply paired_cons; [intros _; exists (c :: b); reflexivity|]. apply paired_no. intros [K|[K|K]]; [discriminate|subst; destruct X; discriminate|].
  exact (wsps_no_cr _ Y K).
Qed.
Lemma skip_bad f : forall s p r, St s p r -> length r < f ->
  match skip_fws_says f s with
  | Fine s' => exists w r', r = w ++ r' /\ paired w /\ St s' (rev w ++ p) r' /\ l_fws r' = Some ([], r')
  | Says m => bad_cr r (length p) m
  | ErrorText.Endless => False
  end.
Proof.
  induction f as [|f IH]; intros s p r H L; [lia|]. cbn [skip_fws_says].
  destruct (l_fws r) as [[w r']|] eqn:E.
  2:{ destruct (fws_bad s p r H E) as (m & -> & M). exact M. }
  destruct (fws_Fine _ _ _ _ _ H E) as (s1 & -> & H1). cbn [sbind]. pose proof (l_fws_cases r) as K. rewrite E in K. destruct w as [|y w].
  { destruct K as [-> _]. exists [], r. split; [reflexivity|]. split; [intros [|? ?] ? X; discriminate|]. auto. }
  destruct K as (A & _ & CH). pose proof (chunk_paired _ _ CH) as RW. rewrite A in L. rewrite app_length in L. cbn [length] in L.
  specialize (IH s1 _ r' H1 ltac:(lia)). destruct (skip_fws_says f s1) as [s'|m|]; auto.
  - destruct IH as (w2 & r2 & -> & R2 & H2 & F2). exists ((y :: w) ++ w2), r2. split; [rewrite A, <- app_assoc; reflexivity|].
    split; [apply paired_app; assumption|]. split; [|exact F2]. rewrite rev_app_distr, <- app_assoc. exact H2.
  - rewrite A. apply bad_cr_app; [exact RW|]. rewrite app_length, rev_length in IH. replace (length p + length (y :: w)) with (length (y :: w) + length p) by lia. exact IH.
Qed.
Lemma fh_bad f : forall s p t, St s p t -> length t < f ->
  match fh_loop_says f s with Fine _ => lone t = false | Says m => bad_cr t (length p) m | ErrorText.Endless => False end.
Proof.
  induction f as [|f IH]; intros s p t H L; [lia|]. cbn [fh_loop_says].
  destruct (l_fws t) as [[w r1]|] eqn:E.
  2:{ destruct (fws_bad s p t H E) as (m & -> & M). exact M. }
  destruct (fws_Fine _ _ _ _ _ H E) as (s1 & -> & H1). cbn [sbind]. pose proof (l_fws_cases t) as K. rewrite E in K.
  assert (STEP : forall s2 p2 r2, St s2 p2 r2 -> length r2 <= length t -> l_fws r2 = Some ([], r2) ->
    match (let '(o, s3) := peek s2 in match o with None => Fine tt | Some _ => let '(_, s4) := get s3 in fh_loop_says f s4 end) with
    | Fine _ => lone r2 = false | Says m => bad_cr r2 (length p2) m | ErrorText.Endless => False end).
  { intros s2 p2 r2 H2 L2 F2. destruct r2 as [|c r2]; [peek_at H2; reflexivity|]. peek_at H2. get_at H2. cbn [length] in L2.
    assert (CC : c = CR -> exists b, r2 = LF :: b).
    { intros ->. unfold l_fws in F2. cbn [span] in F2. change (is_wsp CR) with false in F2. cbn iota in F2. rewrite ceqb_refl in F2.
      destruct r2 as [|d r2]; [discriminate|]. destruct (d =?c LF) eqn:D; [|discriminate]. apply ceqb_eq in D. subst d. eauto. }
    match goal with |- context [fh_loop_says f ?s0] => specialize (IH s0 _ r2 ltac:(eassumption) ltac:(lia)); destruct (fh_loop_says f s0) as [u|m|]; auto end.
    - rewrite lone_cons, IH, orb_false_r. destruct (c =?c CR) eqn:C; [|reflexivity]. apply ceqb_eq in C. destruct (CC C) as (b & ->). rewrite ceqb_refl. reflexivity.
    - apply bad_cr_cons; [exact CC|]. exact IH. }
  destruct w as [|c w]; cbn [sbind].
  - destruct K as [-> _]. apply (STEP s1 p t H1); auto.
  - destruct K as (A & _ & CH). pose proof (chunk_paired _ _ CH) as RW. pose proof (skip_bad (fuel_of s1) s1 _ r1 H1 ltac:(rewrite (St_fuel _ _ _ H1); lia)) as SB.
    destruct (skip_fws_says (fuel_of s1) s1) as [s2|m|]; cbn [sbind]; [| |exact SB].
    + destruct SB as (w2 & r2 & -> & R2 & H2 & F2). specialize (STEP s2 _ r2 H2 ltac:(rewrite A, !app_length; lia) F2).
      assert (PP : paired ((c :: w) ++ w2)) by (apply paired_app; assumption). rewrite A, app_assoc.
      match goal with |- match ?x with _ => _ end => destruct x as [u|m|]; auto end.
      * rewrite (paired_lone _ _ PP). exact STEP.
      * apply bad_cr_app; [exact PP|]. rewrite !app_length, !rev_length in STEP. rewrite app_length.
        replace (length p + (length (c :: w) + length w2)) with (length w2 + (length (rev (c :: w)) + length p)) by (rewrite rev_length; lia).
        rewrite rev_length. rewrite app_length, rev_length in STEP || idtac. exact STEP.
    + rewrite A. apply bad_cr_app; [exact RW|]. rewrite app_length, rev_length in SB. replace (length p + length (c :: w)) with (length (c :: w) + length p) by lia. exact SB.
Qed.

Lemma low_cr c : low c = CR -> c = CR.
Proof. revert c. assert (S : forall c, implb (low c =?c CR) (c =?c CR) = true) by (apply byte_sweep; vm_compute; reflexivity).
  intros c E. specialize (S c). rewrite E, ceqb_refl in S. cbn in S. apply ceqb_eq. exact S. Qed.
Lemma paired_low a : paired (map low a) -> paired a.
Proof.
  intros P x y ->. rewrite map_app in P. destruct (P (map low x) (map low y) eq_refl) as (b & E). destruct y as [|c y]; [discriminate|].
  injection E as E _. apply low_lf in E. subst c. eauto.
Qed.
Lemma low_name pre post a z : map low pre ++ COLON :: post = a ++ CR :: z -> ~ In COLON pre ->
  (exists a0 z0, pre ++ COLON :: post = a0 ++ CR :: z0 /\ length a0 = length a /\ (paired a -> paired a0) /\
    ((In COLON a0 /\ z0 = z) \/ (~ In COLON a0 /\ match z0, z with c :: _, d :: _ => d = low c | [], [] => True | _, _ => False end))).
Proof.
  intros E N. apply app_eq_app in E as (l & [[E1 E2]|[-> E2]]).
  - destruct l as [|c l]; [discriminate|]. injection E2 as <- ->. symmetry in E1. symmetry in E1. apply map_eq_app in E1 as (p1 & p2 & -> & <- & E2).
    destruct p2 as [|c p2]; [discriminate|]. injection E2 as E2 <-. apply low_cr in E2. subst c. exists p1, (p2 ++ COLON :: post). rewrite <- app_assoc.
    split; [reflexivity|]. split; [rewrite map_length; reflexivity|]. split; [apply paired_low|]. right. split; [intros I; apply N, in_or_app; auto|].
    destruct p2; reflexivity.
  - destruct l as [|c l]; [discriminate|]. injection E2 as <- ->. exists (pre ++ COLON :: l), z. rewrite <- app_assoc. split; [reflexivity|].
    split; [rewrite !app_length, map_length; reflexivity|]. split.
    + intros P x y EX. apply app_eq_app in EX as (k & [[-> E]|[-> E]]).
      * destruct k as [|c k]; [discriminate|]. injection E as <- ->. rewrite map_app in P. destruct (P (map low x) (map low k ++ COLON :: l)) as (b & EB).
        { rewrite <- app_assoc. reflexivity. }
        destruct k as [|c k]; [discriminate|]. injection EB as EB _. apply low_lf in EB. subst c. eexists. reflexivity.
      * destruct (P (map low pre ++ k) y) as (b & ->); [rewrite <- app_assoc, E; reflexivity|]. eauto.
    + left. split; [apply in_or_app; right; left; reflexivity|reflexivity].
Qed.
Lemma filter_says t : FilterHeader false RELAXED t = perm -> field_reason t (filter_what false t).
Proof.
  intros P. unfold filter_what. destruct (find_char COLON t) as [k|] eqn:FC.
  - assert (IC : In COLON t) by (destruct (in_dec ascii_dec COLON t) as [I|I]; [exact I|apply find_char_None in I; congruence]).
    destruct (FilterHeader_exact t) as [[_ [L|L]]|[(out & E) _]]; [|contradiction|rewrite P in E; discriminate E].
    apply find_char_Some in FC as (pre & post & -> & <- & NC). rewrite firstn_app_exact, skipn_app_exact. unfold lower_str. cbn [andb]. cbv zeta.
    pose proof (fh_bad (fuel_of (open_str (lower pre ++ COLON :: post))) _ _ _ (St_open (lower pre ++ COLON :: post))) as B.
    rewrite (St_fuel _ _ _ (St_open _)) in B at 1. specialize (B ltac:(lia)).
    destruct (fh_loop_says _ _) as [u|m|]; [rewrite lone_lower in B; congruence| |destruct B].
    destruct B as (a & PA & [[E ->]|(c & u & E & N & M)]); unfold lower in E; fold (map low pre) in E.
    + destruct (low_name pre post a [] E NC) as (a0 & z0 & E0 & LA & PP & X). rewrite E0.
      assert (z0 = []) as -> by (destruct X as [[_ ->]|[_ X]]; [reflexivity|destruct z0; [reflexivity|destruct X]]).
      eapply rf_end; [rewrite <- E0; exact IC|reflexivity|auto].
    + destruct (low_name pre post a (c :: u) E NC) as (a0 & z0 & E0 & LA & PP & X). cbn [length] in M. rewrite <- LA in M.
      destruct z0 as [|c0 u0]; [destruct X as [[_ X]|[_ []]]; discriminate|]. rewrite E0.
      apply (rf_cr _ a0 c0 u0 c); [rewrite <- E0; exact IC|reflexivity| |auto| |exact M].
      * intros ->. destruct X as [[_ X]|[_ X]]; [congruence|]. apply N. exact X.
      * destruct X as [[I X]|[I X]]; [left; split; [exact I|congruence]|right; auto].
  - apply find_char_None in FC. unfold colon_text, format. apply rf_colon; [exact FC|apply up_to_nul_c_str].
Qed.
Lemma first_cr p p' z z' : paired p -> paired p' -> ~ first_ok (eq LF) z \/ z = [] -> ~ first_ok (eq LF) z' \/ z' = [] ->
  p ++ CR :: z = p' ++ CR :: z' -> p = p' /\ z = z'.
Proof.
  intros P P' Z Z' E. apply app_eq_app in E as (k & [[-> E]|[-> E]]); destruct k as [|c k]; rewrite ?app_nil_r in *.
  - injection E as ->. auto.
  - injection E as <- E. exfalso. subst z'. destruct (P p' k eq_refl) as (b & ->). destruct Z' as [Z'|Z']; [apply Z'; reflexivity|discriminate].
  - injection E as ->. auto.
  - injection E as <- E. exfalso. subst z. destruct (P' p k eq_refl) as (b & ->). destruct Z as [Z|Z]; [apply Z; reflexivity|discriminate].
Qed.
Lemma field_reason_fun t m m' : field_reason t m -> field_reason t m' -> m = m'.
Proof.
  intros A B. destruct A as [x N U|p c u d m I E N P D M|p I E P]; destruct B as [x' N' U'|p' c' u' d' m' I' E' N' P' D' M'|p' I' E' P']; try contradiction.
  - rewrite (up_to_nul_fun _ _ _ U U'). reflexivity.
  - rewrite E in E'. apply first_cr in E' as [<- E']; auto; try (left; cbn; congruence). injection E' as <- <-.
    assert (d = d') as <- by (destruct D as [[X ->]|[X ->]], D' as [[Y ->]|[Y ->]]; auto; contradiction). eapply byte_at_fun; eauto.
  - exfalso. rewrite E in E'. apply first_cr in E' as [_ E']; auto; try (left; cbn; congruence); discriminate.
  - exfalso. rewrite E in E'. apply first_cr in E' as [_ E']; auto; try (left; cbn; congruence); discriminate.
  - reflexivity.
Qed.
Lemma field_reason_none t m : field_reason t m -> FilterHeader false RELAXED t = perm.
Proof.
  intros R. destruct (FilterHeader_exact t) as [[E _]|(_ & L & I)]; [exact E|exfalso].
  destruct R as [x N U|p c u d m I' E N P D M|p I' E P]; [contradiction| |]; rewrite E, (paired_lone _ _ P), lone_cons, ceqb_refl in L; [|discriminate].
  apply ceqb_neq in N. rewrite N in L. discriminate.
Qed.
Lemma filter_exact t m : FilterHeader false RELAXED t = perm /\ filter_what false t = m <-> field_reason t m.
Proof.
  split; [intros [P <-]; apply filter_says, P|]. intros R. pose proof (field_reason_none _ _ R) as P. split; [exact P|].
  eapply field_reason_fun; [apply filter_says, P|exact R].
Qed.

(** ** The fields hashed *)
Definition is_ok (mode : canon_mode) (t : bytes) : Prop := exists x, FilterHeader false mode t = Ok x.
(** [stops_at mode ts i t]: [t], the [i]-th of [ts], is the first without a canonical form. *)
Definition stops_at (mode : canon_mode) (ts : list bytes) (i : nat) (t : bytes) : Prop :=
  nth_error ts i = Some t /\ FilterHeader false mode t = perm /\ forall j x, j < i -> nth_error ts j = Some x -> is_ok mode x.
Lemma stops_cons mode t0 ts i t : is_ok mode t0 -> stops_at mode ts i t -> stops_at mode (t0 :: ts) (S i) t.
Proof.
  intros K (A & B & D). split; [exact A|]. split; [exact B|]. intros [|j] x L E; [injection E as <-; exact K|]. apply (D j x); [lia|exact E].
Qed.
Lemma hash_stops mode hs names : forall before c, cache_at hs before c ->
  match hash_what false mode names c with
  | Some m => hash_headers false mode names c = perm /\ exists i t, stops_at mode (map h_text (selection h_name hs before names)) i t /\ m = filter_what false t
  | None => (exists d, hash_headers false mode names c = Ok d) /\ Forall (is_ok mode) (map h_text (selection h_name hs before names))
  end.
Proof.
  induction names as [|n names IH]; intros before c CA; cbn [hash_what hash_headers selection].
  - split; [eauto|constructor].
  - unfold lower_str. cbn [andb obind]. pose proof (cache_step hs before c n CA) as P.
    destruct (cache_pop (lower n) c) as [[h c1]|].
    + destruct P as [-> CA1]. cbn [app map]. destruct (FilterHeader_total mode (h_text h)) as [E|(x & E)]; rewrite E; cbn [obind].
      * split; [reflexivity|]. exists 0, (h_text h). split; [|reflexivity]. split; [reflexivity|]. split; [exact E|]. intros j y L. lia.
      * specialize (IH _ _ CA1). destruct (hash_what false mode names c1) as [m|].
        -- destruct IH as [-> (i & t & S1 & ->)]. split; [reflexivity|]. exists (S i), t. split; [|reflexivity]. apply stops_cons; [eexists; exact E|exact S1].
        -- destruct IH as [(d & ->) F]. split; [eexists; reflexivity|]. constructor; [eexists; exact E|exact F].
    + destruct P as [-> CA1]. cbn [app]. apply IH. exact CA1.
Qed.
Lemma Forall_nth {A} (P : A -> Prop) l j x : Forall P l -> nth_error l j = Some x -> P x.
Proof. intros F E. rewrite Forall_forall in F. apply F. eapply nth_error_In; eauto. Qed.
Lemma signed_stops C strict now h e0 g e1 pre b post : Signature_Parse C strict now h (new_signature, e0) = ((g, e1), Ok tt) -> small_field h ->
  tag_at (str "b") (skipn (h_voff h) (h_text h)) pre b post -> forall v,
  let texts := map h_text (selection h_name (m_headers (v_msg v)) [] (sg_headers g)) ++ [firstn (h_voff h) (h_text h) ++ pre ++ post] in
  match signed_what false h g v with
  | Some m => signed_data false h g v = perm /\ exists i t, stops_at (sg_chead g) texts i t /\ m = filter_what false t
  | None => (exists d, signed_data false h g v = Ok d /\ authenticated h g v pre post d) /\ Forall (is_ok (sg_chead g)) texts
  end.
Proof.
  intros P SF TA v. cbv zeta.
  destruct (signed_data_iff _ _ _ _ _ _ _ P SF) as (pre' & b' & post' & TA' & NB & EB & SI).
  destruct (parsed_b _ _ _ _ _ _ _ P) as (L & pre2 & b2 & post2 & TA2 & NB2 & EB2 & G).
  destruct (b_position _ _ _ _ _ _ _ P) as [_ U]. destruct (U _ _ _ _ _ _ TA' NB TA) as (-> & -> & ->).
  destruct (U _ _ _ _ _ _ TA2 NB2 TA) as (-> & -> & ->).
  assert (SB : strip_b g (skipn (h_voff h) (h_text h)) = Ok (pre ++ post)).
  { apply (strip_b_at g _ pre b post); auto; [apply TA|]. unfold small_field in SF. rewrite skipn_length. lia. }
  specialize (SI v). unfold signed_what, signed_data in *.
  destruct (build_cache_lookup (m_headers (v_msg v)) []) as (c & B & _). rewrite B in *. cbn [obind] in *.
  pose proof (hash_stops (sg_chead g) (m_headers (v_msg v)) (sg_headers g) [] c (cache_start _ _ B)) as HS.
  destruct (hash_what false (sg_chead g) (sg_headers g) c) as [m|].
  - destruct HS as [-> (i & t & (S1 & S2 & S3) & ->)]. cbn [obind perm] in *. split; [reflexivity|]. exists i, t. split; [|reflexivity].
    assert (LI : i < length (map h_text (selection h_name (m_headers (v_msg v)) [] (sg_headers g)))) by (apply nth_error_Some; rewrite S1; discriminate).
    split; [rewrite nth_error_app1; auto|]. split; [exact S2|]. intros j x LJ. rewrite nth_error_app1 by lia. apply S3. exact LJ.
  - destruct HS as [(d & ED) F]. rewrite ED in *. cbn [obind] in *. unfold substr_from in *. destruct (Nat.leb_spec (h_voff h) (length (h_text h))) as [LL|LL]; [|lia].
    cbn [obind] in *. rewrite SB in *. cbn [obind] in *.
    destruct (FilterHeader_total (sg_chead g) (firstn (h_voff h) (h_text h) ++ pre ++ post)) as [E|(x & E)]; rewrite E in *; cbn [obind perm] in *.
    + split; [reflexivity|]. eexists _, _. split; [|reflexivity]. split; [rewrite nth_error_app2 by apply Nat.le_refl; rewrite Nat.sub_diag; reflexivity|].
      split; [exact E|]. intros j x LJ EJ. rewrite nth_error_app1 in EJ by exact LJ. eapply Forall_nth; eauto.
    + split; [eexists; split; [reflexivity|]; apply SI; reflexivity|]. apply Forall_app. split; [exact F|]. constructor; [eexists; exact E|constructor].
Qed.

(** ** CheckSignature *)
Lemma stops_reason g p ts ok i t : stops_at (sg_chead g) ts i t -> check_reason g p ts ok (4 + i) (filter_what false t).
Proof.
  intros (A & B & D). destruct (sg_chead g) eqn:M; [rewrite FilterHeader_simple in B; discriminate|]. eapply rc_field; eauto. apply filter_says. exact B.
Qed.
Lemma ok_reasonless mode t m : mode = RELAXED -> is_ok mode t -> ~ field_reason t m.
Proof. intros -> (x & E) R. rewrite (field_reason_none _ _ R) in E. discriminate E. Qed.
Lemma digest_In d l : existsb (digest_eqb d) l = true <-> In d l.
Proof. rewrite existsb_exists. split; [intros (x & I & E)|intros I; exists d; split; [exact I|destruct d; reflexivity]]. destruct d, x; try discriminate; exact I. Qed.
Lemma check_what C strict now h e0 g e1 pre b post : Signature_Parse C strict now h (new_signature, e0) = ((g, e1), Ok tt) -> small_field h ->
  tag_at (str "b") (skipn (h_voff h) (h_text h)) pre b post ->
  forall st r p0 p v, PublicKey_Parse C st r p0 = (p, Ok tt) -> ~ short_ed g ->
  let texts := map h_text (selection h_name (m_headers (v_msg v)) [] (sg_headers g)) ++ [firstn (h_voff h) (h_text h) ++ pre ++ post] in
  let ok := exists d, authenticated h g v pre post d /\ accepted C g p (digest C (sg_digest g) d) in
  match CheckSignature_what C false h g p v with
  | Some m => first_reason (check_reason g p texts ok) m /\ exists c, CheckSignature C false h g p v = Throw (PermanentError c)
  | None => (forall k m, ~ check_reason g p texts ok k m) /\ CheckSignature C false h g p v = Ok tt
  end.
Proof.
  intros P SF TA st r p0 p v KP SE. pose proof (PublicKey_has _ _ _ _ _ KP) as HK. cbv zeta.
  pose proof (signed_stops _ _ _ _ _ _ _ _ _ _ P SF TA v) as SS. cbv zeta in SS.
  set (texts := map h_text (selection h_name (m_headers (v_msg v)) [] (sg_headers g)) ++ [firstn (h_voff h) (h_text h) ++ pre ++ post]) in *.
  set (ok := exists d, authenticated h g v pre post d /\ accepted C g p (digest C (sg_digest g) d)).
  unfold CheckSignature_what, CheckSignature.
  destruct (match pk_digests p with [] => true | l => existsb (digest_eqb (sg_digest g)) l end) eqn:D1; cbn [negb].
  2:{ assert (key_allows g p = false) as -> by (unfold key_allows; rewrite D1; reflexivity). split; [|eexists; reflexivity]. exists 1. split.
      - apply rc_digest; destruct (pk_digests p) as [|x l]; try discriminate. intros I. apply digest_In in I. congruence.
      - intros j m R. inversion R; lia. }
  assert (N1 : forall m, ~ check_reason g p texts ok 1 m).
  { intros m R. inversion R; subst. destruct (pk_digests p) as [|x l]; [congruence|]. apply digest_In in D1. contradiction. }
  destruct (sig_alg_eqb (sg_alg g) (pk_alg p)) eqn:D2; cbn [negb].
  2:{ assert (key_allows g p = false) as -> by (unfold key_allows; rewrite D1, D2; reflexivity). split; [|eexists; reflexivity]. exists 2. split.
      - apply rc_type. intros E. rewrite E in D2. destruct (pk_alg p); discriminate.
      - intros j m R. destruct (Nat.eq_dec j 1) as [->|]; [destruct (N1 _ R)|]. inversion R; lia. }
  assert (N2 : forall m, ~ check_reason g p texts ok 2 m).
  { intros m R. inversion R as [| A | | |]; subst. destruct (sg_alg g), (pk_alg p); try discriminate; congruence. }
  destruct (sg_arc g || negb (memb (str "s") (pk_flags p)) || beqb (sg_domain g) (sg_mdomain g)) eqn:D3; cbn [negb].
  2:{ assert (key_allows g p = false) as -> by (unfold key_allows; rewrite D1, D2, D3; reflexivity). split; [|eexists; reflexivity]. exists 3.
      apply orb_false_iff in D3 as [D3 D5]. apply orb_false_iff in D3 as [D3 D4]. apply negb_false_iff in D4. split.
      - apply rc_domain; [exact D3|apply memb_In; exact D4|]. intros E. rewrite E, beqb_refl in D5. discriminate.
      - intros j m R. destruct (Nat.eq_dec j 1) as [->|]; [destruct (N1 _ R)|]. destruct (Nat.eq_dec j 2) as [->|]; [destruct (N2 _ R)|]. inversion R; lia. }
  assert (N3 : forall m, ~ check_reason g p texts ok 3 m).
  { intros m R. inversion R as [| | A I E | |]; subst. rewrite A in D3. apply memb_In in I. rewrite I in D3. cbn [negb orb] in D3. apply beqb_eq in D3. congruence. }
  assert (N4 : forall j m, check_reason g p texts ok j m -> 4 <= j).
  { intros j m R. destruct (Nat.eq_dec j 1) as [->|]; [destruct (N1 _ R)|]. destruct (Nat.eq_dec j 2) as [->|]; [destruct (N2 _ R)|].
    destruct (Nat.eq_dec j 3) as [->|]; [destruct (N3 _ R)|]. inversion R; lia. }
  assert (KA : key_allows g p = true) by (unfold key_allows; rewrite D1, D2, D3; reflexivity). rewrite KA.
  pose proof (allows_key _ _ KA HK) as MK.
  destruct (signed_what false h g v) as [m|].
  - destruct SS as [-> (i & t & S1 & ->)]. cbn [obind perm]. split; [|eexists; reflexivity]. exists (4 + i). split; [apply stops_reason; exact S1|].
    intros j m R. pose proof (N4 _ _ R) as L4. destruct (Nat.lt_ge_cases j (4 + i)) as [LJ|LJ]; [exfalso|lia].
    destruct S1 as (A & _ & D). assert (LT : i < length texts) by (apply nth_error_Some; rewrite A; discriminate). inversion R; subst; try lia.
    eapply ok_reasonless; [eassumption| |eassumption]. eapply D; [|eassumption]. lia.
  - destruct SS as [(d & -> & AU) F]. cbn [obind].
    assert (N5 : forall i m, i < length texts -> ~ check_reason g p texts ok (4 + i) m).
    { intros i m LI R. inversion R as [| | |i' t m' RX NT FR EI|NO EI]; subst; [|lia].
      eapply ok_reasonless; [eassumption| |eassumption]. eapply Forall_nth; eauto. }
    destruct (verify_digest_cases C g p (digest C (sg_digest g) d) MK) as [(E & A)|[(E & A & _)|(_ & X)]]; [rewrite E|rewrite E|contradiction]; cbn [thrown perm_fail].
    + split; [|reflexivity]. intros k m R. pose proof (N4 _ _ R) as L4. inversion R as [| | |i t m' RX NT FR|NO]; subst; try lia.
      * apply (N5 i m); [apply nth_error_Some; rewrite NT; discriminate|exact R].
      * apply NO. exists d. auto.
    + split; [|eexists; reflexivity]. exists (4 + length texts). split.
      * apply rc_data. intros (d' & AU' & A'). assert (d' = d) as ->; [|contradiction].
        destruct (signed_data_iff _ _ _ _ _ _ _ P SF) as (pre' & b' & post' & TA' & NB & EB & SI). destruct (b_position _ _ _ _ _ _ _ P) as [_ U].
        destruct (U _ _ _ _ _ _ TA' NB TA) as (-> & -> & ->). apply SI in AU, AU'. congruence.
      * intros j m R. pose proof (N4 _ _ R) as L4. destruct (Nat.lt_ge_cases j (4 + length texts)) as [LJ|LJ]; [exfalso|exact LJ].
        replace j with (4 + (j - 4)) in R by lia. apply (N5 (j - 4) m); [lia|exact R].
Qed.
