(** Verifying, with and without a byte of 128 or more at tolower (for C100). *)
From Verif Require Import Bytes Outcome Stream Tokenizer QuotedPrintable Base64 TagList MailParser Canonicalization Util
  CStdlib Crypto Signature PublicKey SignatoryOptions Signatory Validatory Tool ToolText ErrorText Reasons BytesFacts SpecText SpecTags SpecMail SpecCanon SpecVerify SpecSig SpecParse SpecKey SpecError SpecReason
  SpecPass SpecStop SpecEight QPFacts TagListFacts HeaderFacts HeaderProps SigFacts SigProps KeyFacts VerifyProps VerifyFacts SelectFacts PassFacts ReportFacts ReasonFacts ReasonSig ReasonKeys ReasonOne MadeFacts StopFacts EightFacts EightExact.
From Verif Require Import Outcome.
Local Open Scope string_scope. Local Open Scope list_scope.

(** ** The constructor *)
Lemma collect_two w hs : (exists l, collect true w hs = Ok l /\ collect false w hs = Ok l) /\ Forall ascii_text (map h_name hs) \/
  collect true w hs = UB UB_ctype /\ ~ Forall ascii_text (map h_name hs).
Proof.
  induction hs as [|h hs IH]; cbn [collect map].
  - left. split; [exists []; auto|constructor].
  - destruct (lower_two (h_name h)) as [[-> A]|[-> A]]; cbn [obind].
    + rewrite lower_false. cbn [obind]. destruct IH as [[(l & E1 & E2) F]|[E N]].
      * left. rewrite E1, E2. cbn [obind]. split; [eexists; split; reflexivity|]. constructor; assumption.
      * right. rewrite E. split; [reflexivity|]. intros F. inversion F; auto.
    + right. split; [reflexivity|]. intros F. inversion F; auto.
Qed.
Lemma open_parse t fs : has_fields t fs -> exists m s, parse_all new_message (open_str t) = Ok (m, s) /\ m_headers m = fs.
Proof.
  intros HF. destruct (new_validatory_total false V_NONE t) as (v & E); [discriminate|]. destruct (listed _ _ _ _ E) as (m & s & P & _).
  exists m, s. split; [exact P|]. exact (has_fields_unique t _ _ (parse_fields _ _ _ P) HF).
Qed.
Lemma open_exact ty t fs : has_fields t fs ->
  (new_validatory true ty (open_str t) = UB UB_ctype <-> ty <> V_NONE /\ ~ Forall ascii_text (map h_name fs)) /\
  (new_validatory true ty (open_str t) <> UB UB_ctype -> new_validatory true ty (open_str t) = new_validatory false ty (open_str t)).
Proof.
  intros HF. split; [|intros N; destruct (validatory_near true ty (open_str t)) as [E|E]; [destruct (N E)|exact E]].
  destruct (open_parse t fs HF) as (m & s & P & <-). unfold new_validatory. rewrite P. cbn [obind].
  assert (K : forall w, (let* l := collect true w (m_headers m) in Ok (mkVal m s l)) = UB UB_ctype <-> ~ Forall ascii_text (map h_name (m_headers m))).
  { intros w. destruct (collect_two w (m_headers m)) as [[(l & -> & _) F]|[-> N]]; cbn [obind]; split; auto; try discriminate. intros N. destruct (N F). }
  destruct ty; [| |split; [discriminate|intros [X _]; congruence]]; rewrite K; (split; [intros N; split; [discriminate|exact N]|tauto]).
Qed.
(** ** Key records *)
Lemma key_same C r : PublicKey_Parse C true r new_public_key = PublicKey_Parse C false r new_public_key.
Proof.
  destruct (PublicKey_near C true r new_public_key) as [E|E]; [|exact E]. exfalso. pose proof (key_refused C true r) as K.
  destruct (PublicKey_what C true r new_public_key); rewrite K in E; discriminate E.
Qed.
Lemma key_what_same C r : PublicKey_what C true r new_public_key = PublicKey_what C false r new_public_key.
Proof.
  assert (X : forall a b : option bytes, (forall m, a = Some m <-> b = Some m) -> a = b).
  { intros [x|] b H; [symmetry; apply H; reflexivity|]. destruct b as [y|]; [|reflexivity]. apply H. reflexivity. }
  apply X. intros m. destruct (TagList_Parse_cases [] r) as [(ents & P & R & (ND & DJ) & _)|(_ & NO)].
  - assert (F : record_tags r (nv ents)) by (split; assumption). rewrite !(key_exact C _ r _ F). reflexivity.
  - assert (N : forall l, ~ record_tags r l) by (intros l (R & ND); apply (NO l R); split; [exact ND|intros n _ []]). rewrite !(key_tags_exact C _ r N). reflexivity.
Qed.
(** ** CheckSignature *)
Definition fine (h : header) : Prop := ascii_text (h_name h) /\ ~ name_part_eight (h_text h).
Lemma named_part t n k : named t n k -> ascii_text n -> ~ name_part_eight t.
Proof.
  intros N A (a & b & E & NI & N8). destruct N as [t N|w1 n w2 rest NC W1 W2 TR]; [subst t; apply N, in_elt|].
  assert (F : find_char COLON (a ++ COLON :: b) = Some (length (w1 ++ n ++ w2))) by (rewrite <- E; apply find_char_app; exact NC).
  rewrite find_char_app in F by exact NI. injection F as F. apply (f_equal (firstn (length a))) in E. rewrite F in E at 1. rewrite !firstn_app_exact in E. subst a. apply N8.
  assert (W : forall w, Forall WSP w -> ascii_text w) by (intros w; apply Forall_impl; intros c [->| ->]; vm_compute; reflexivity).
  repeat (apply Forall_app; split); try (apply W; assumption); exact A.
Qed.
Lemma fields_fine t fs : has_fields t fs -> Forall ascii_text (map h_name fs) -> Forall fine fs.
Proof.
  intros HF A. apply Forall_forall. intros h I. assert (A1 : ascii_text (h_name h)) by (rewrite Forall_forall in A; apply A, in_map, I).
  split; [exact A1|]. eapply named_part; [apply (fields_named t fs); eauto|exact A1].
Qed.
Definition cache_fine (c : cache) : Prop := Forall (fun e => Forall fine (snd e)) c.
Lemma push_fine n h c : fine h -> cache_fine c -> cache_fine (cache_push n h c).
Proof.
  intros F K. induction K as [|[m l] c L K IH]; cbn [cache_push]; [constructor; [constructor; [exact F|constructor]|constructor]|]. destruct (beqb m n); constructor; auto.
  cbn [snd] in *. apply Forall_app. split; [exact L|constructor; [exact F|constructor]].
Qed.
Lemma build_same hs : forall c, Forall fine hs -> cache_fine c -> build_cache true hs c = build_cache false hs c /\
  forall c', build_cache false hs c = Ok c' -> cache_fine c'.
Proof.
  induction hs as [|h hs IH]; intros c F K; cbn [build_cache].
  - split; [reflexivity|]. intros c' [= <-]. exact K.
  - inversion F as [|? ? Fh Fr]; subst. rewrite (lower_same _ (proj1 Fh)), lower_false. cbn [obind]. apply IH; [exact Fr|]. apply push_fine; assumption.
Qed.
Lemma pop_fine n c h c1 : cache_fine c -> cache_pop n c = Some (h, c1) -> fine h /\ cache_fine c1.
Proof.
  intros K. revert h c1. induction K as [|[m l] c L K IH]; intros h c1; cbn [cache_pop]; [discriminate|]. cbn [snd] in L.
  destruct (beqb m n).
  - destruct (rev l) as [|x p] eqn:R; [discriminate|]. intros [= <- <-]. assert (L' : Forall fine (rev l)) by (apply Forall_rev; exact L). rewrite R in L'.
    inversion L'; subst. split; [assumption|]. constructor; [cbn [snd]; apply Forall_rev; assumption|exact K].
  - destruct (cache_pop n c) as [[x r]|] eqn:P; [|discriminate]. intros [= <- <-]. destruct (IH _ _ eq_refl) as [A B]. split; [exact A|]. constructor; [exact L|exact B].
Qed.
Lemma hash_same mode names : Forall ascii_text names -> forall c, cache_fine c ->
  hash_headers true mode names c = hash_headers false mode names c /\ hash_what true mode names c = hash_what false mode names c.
Proof.
  induction names as [|n names IH]; intros A c K; cbn [hash_headers hash_what]; [auto|]. inversion A; subst. rewrite lower_same by assumption. rewrite lower_false. cbn [obind].
  destruct (cache_pop (lower n) c) as [[h c1]|] eqn:P; [|apply IH; assumption]. destruct (pop_fine _ _ _ _ K P) as [[_ F] K1].
  rewrite (filter_same mode _ F), (filter_what_same _ F). destruct (IH ltac:(assumption) c1 K1) as [-> ->]. auto.
Qed.
Lemma check_same C h g p v : Forall fine (m_headers (v_msg v)) -> Forall ascii_text (sg_headers g) ->
  (forall val, substr_from (h_text h) (h_voff h) = Ok val -> forall val1, strip_b g val = Ok val1 -> ~ name_part_eight (firstn (h_voff h) (h_text h) ++ val1)) ->
  CheckSignature C true h g p v = CheckSignature C false h g p v /\ CheckSignature_what C true h g p v = CheckSignature_what C false h g p v.
Proof.
  intros F A B. destruct (build_same (m_headers (v_msg v)) [] F (Forall_nil _)) as [E K].
  assert (S1 : signed_data true h g v = signed_data false h g v).
  { unfold signed_data. rewrite E. destruct (build_cache false _ []) as [c| | |] eqn:BC; cbn [obind]; try reflexivity.
    rewrite (proj1 (hash_same (sg_chead g) _ A c (K c eq_refl))). destruct hash_headers; cbn [obind]; try reflexivity.
    destruct (substr_from (h_text h) (h_voff h)) as [val| | |] eqn:SV; cbn [obind]; try reflexivity. destruct (strip_b g val) as [val1| | |] eqn:SB; cbn [obind]; try reflexivity.
    rewrite (filter_same _ _ (B val eq_refl val1 SB)). reflexivity. }
  assert (S2 : signed_what true h g v = signed_what false h g v).
  { unfold signed_what. rewrite E. destruct (build_cache false _ []) as [c| | |] eqn:BC; try reflexivity.
    destruct (hash_same (sg_chead g) _ A c (K c eq_refl)) as [-> ->]. destruct hash_headers; try reflexivity.
    destruct (substr_from (h_text h) (h_voff h)) as [val| | |] eqn:SV; cbn [obind]; try reflexivity. destruct (strip_b g val) as [val1| | |] eqn:SB; try reflexivity.
    rewrite (filter_same _ _ (B val eq_refl val1 SB)), (filter_what_same _ (B val eq_refl val1 SB)). reflexivity. }
  unfold CheckSignature, CheckSignature_what. rewrite S1, S2. auto.
Qed.
(** ** One signature *)
Lemma stages_what {S} (l l' : list (stage S)) : Forall2 (fun x y => snd x = snd y /\ forall s, pnear (fst x s) (fst y s)) l l' -> forall s,
  snd (run_stages (map fst l) s) <> UB UB_ctype -> first_what l s = first_what l' s.
Proof.
  induction 1 as [|[f w] [f' w'] l l' [E N] _ IH]; intros s; cbn [map run_stages first_what fst snd] in *; [reflexivity|]. subst w'.
  destruct (N s) as [X|X].
  - destruct (f s) as [s1 o]. cbn [snd] in X. subst o. cbn [sbind snd]. congruence.
  - rewrite X. destruct (f' s) as [s1 []]; cbn [sbind]; auto.
Qed.
Lemma sig_what_same C now h st : snd (Signature_Parse C true now h st) <> UB UB_ctype -> Signature_what C true now h st = Signature_what C false now h st.
Proof.
  rewrite sig_texts_run. apply stages_what. unfold sig_texts.
  repeat (constructor; [cbn [fst snd]; split; [reflexivity|intros s; first [apply pnear_refl|apply arc_near|apply d_near|apply b_near|apply bh_near|apply i_near]]|]). constructor.
Qed.
Lemma names_ascii C now h e0 g e1 : Signature_Parse C false now h (new_signature, e0) = ((g, e1), Ok tt) -> Forall ascii_text (sg_headers g).
Proof.
  intros P. destruct (parse_mandatory C false now h e0 g e1 P) as (l & FT & _ & _ & _ & _ & _ & (hv & H & VL & _) & _).
  destruct (field_tags_parse h l FT) as (tags & _ & HV & _ & G). apply HV in H. pose proof (G _ _ H) as TV.
  apply Forall_forall. intros n I. apply Forall_forall. intros c J. pose proof (tag_value_byte _ _ TV (ValueList_bytes _ _ _ _ VL I J)). lia.
Qed.
Lemma own_part t fs h val1 : has_fields t fs -> In h fs -> ascii_text (h_name h) -> (exists n, h_name h = n /\ n <> []) ->
  ~ name_part_eight (firstn (h_voff h) (h_text h) ++ val1).
Proof.
  intros HF I A (n & E & NE). pose proof (fields_named t fs h HF I) as N. rewrite E in N, A. clear E.
  inversion N as [|w1 n' w2 rest NC W1 W2 TR E1 E2 E3]; subst n; [congruence|].
  eapply (named_part _ _ (S (length (w1 ++ n' ++ w2)))); [|exact A].
  replace (firstn (S (length (w1 ++ n' ++ w2))) ((w1 ++ n' ++ w2) ++ COLON :: rest)) with ((w1 ++ n' ++ w2) ++ [COLON]).
  - rewrite <- app_assoc. apply named_colon; assumption.
  - replace (S (length (w1 ++ n' ++ w2))) with (length ((w1 ++ n' ++ w2) ++ [COLON])) by (rewrite app_length; cbn; lia).
    replace ((w1 ++ n' ++ w2) ++ COLON :: rest) with (((w1 ++ n' ++ w2) ++ [COLON]) ++ rest) by (rewrite <- app_assoc; reflexivity). rewrite firstn_app_exact. reflexivity.
Qed.
Lemma try_core C t fs v now res h e0 : has_fields t fs -> m_headers (v_msg v) = fs -> Forall ascii_text (map h_name fs) -> In h fs -> h_name h <> [] ->
  (field_leaves now e0 h -> snd (try_one C true now res h e0 v) = UB UB_ctype) /\
  (~ field_leaves now e0 h -> try_one C true now res h e0 v = try_one C false now res h e0 v /\ try_what C true now res h e0 v = try_what C false now res h e0 v).
Proof.
  intros HF VM AS IF NE0. assert (NE : exists n, h_name h = n /\ n <> []) by (exists (h_name h); auto).
  pose proof (fields_fine t fs HF AS) as FF. assert (A1 : ascii_text (h_name h)) by (rewrite Forall_forall in AS; apply AS, in_map, IF).
  assert (LO : h_voff h <= length (h_text h)).
  { pose proof (fields_named t fs h HF IF) as N. inversion N as [|w1 n w2 rest NC W1 W2 TR E1 E2 E3]; [lia|]. rewrite !app_length. cbn [length]. lia. }
  pose proof (field_exact C now e0 h LO) as FE. split.
  - intros FL. apply FE in FL. unfold try_one, GetSignature. destruct (Signature_Parse C true now h (new_signature, e0)) as [st o]. cbn [snd] in FL. subst o. reflexivity.
  - intros NL. assert (NU : snd (Signature_Parse C true now h (new_signature, e0)) <> UB UB_ctype) by (intros X; apply NL, FE, X).
    assert (SE : Signature_Parse C true now h (new_signature, e0) = Signature_Parse C false now h (new_signature, e0)).
    { destruct (Signature_near C true now h (new_signature, e0)) as [X|X]; [destruct (NU X)|exact X]. }
    unfold try_one, try_what, GetSignature_what, GetSignature. rewrite (sig_what_same C now h _ NU), SE.
    destruct (Signature_Parse C false now h (new_signature, e0)) as [[g e1] o] eqn:SP. destruct o as [u| | |]; try (split; reflexivity).
    destruct u. destruct (CheckBodyHash C (fst (g, e1)) v) as [v1 r] eqn:CB. destruct r; try (split; reflexivity).
    assert (KE : GetPublicKey C true res (fst (g, e1)) new_public_key = GetPublicKey C false res (fst (g, e1)) new_public_key).
    { unfold GetPublicKey. destruct (res _) as [[[] []]| | |]; cbn [slift]; try reflexivity. apply key_same. }
    assert (KW : GetPublicKey_what C true res (fst (g, e1)) new_public_key = GetPublicKey_what C false res (fst (g, e1)) new_public_key).
    { unfold GetPublicKey_what. destruct (res _) as [[[] []]| | |]; try reflexivity. apply key_what_same. }
    rewrite KE, KW. destruct (GetPublicKey C false res (fst (g, e1)) new_public_key) as [p r]. destruct r; try (split; reflexivity).
    assert (VM1 : v_msg v1 = v_msg v).
    { unfold CheckBodyHash in CB. destruct CanonicalizationBody as [[[? ?] ?]| | |]; injection CB as <- _; reflexivity. }
    cbn [fst]. destruct (check_same C h g p v1) as [-> ->]; [rewrite VM1, VM; exact FF|exact (names_ascii _ _ _ _ _ _ SP)| |split; reflexivity].
    intros val _ val1 _. apply (own_part t fs); assumption.
Qed.
Lemma open_ascii ty t fs v : has_fields t fs -> new_validatory true ty (open_str t) = Ok v ->
  m_headers (v_msg v) = fs /\ forall h, In h (v_sigs v) -> Forall ascii_text (map h_name fs) /\ In h fs /\ h_name h <> [].
Proof.
  intros HF NV. destruct (listed _ _ _ _ NV) as (m & s & P & VM & _ & VS). pose proof (has_fields_unique t _ _ (parse_fields _ _ _ P) HF) as MF.
  split; [congruence|]. intros h I.
  assert (TY : ty <> V_NONE).
  { intros ->. rewrite VS in I. apply filter_In in I as [_ I]. discriminate I. }
  split; [|split].
  - destruct (open_exact ty t fs HF) as [X _]. rewrite NV in X. destruct (collect_two (str "dkim-signature") fs) as [[_ F]|[_ N]]; [exact F|].
    exfalso. assert (Y : Ok v = UB UB_ctype) by (apply X; auto). discriminate Y.
  - rewrite VS in I. apply filter_In in I as [I _]. congruence.
  - intros E. rewrite VS in I. apply filter_In in I as [_ I]. rewrite E in I. destruct ty; discriminate I.
Qed.
Lemma try_exact C ty t fs v now res h e0 : has_fields t fs -> new_validatory true ty (open_str t) = Ok v -> In h (v_sigs v) ->
  (field_leaves now e0 h -> snd (try_one C true now res h e0 v) = UB UB_ctype) /\
  (~ field_leaves now e0 h -> try_one C true now res h e0 v = try_one C false now res h e0 v /\ try_what C true now res h e0 v = try_what C false now res h e0 v).
Proof.
  intros HF NV I. destruct (open_ascii ty t fs v HF NV) as [VM X]. destruct (X h I) as (A & IF & NE). apply (try_core C t fs); assumption.
Qed.
(** ** The program *)
Lemma no_eight_leaves t fs now e0 h : no_eight t -> has_fields t fs -> In h fs -> ~ field_leaves now e0 h.
Proof.
  intros N HF I (l & FT & [K|(_ & K & _)]); destruct (N fs HF) as [A B].
  - apply K. rewrite Forall_forall in A. apply A, in_map, I.
  - exact (B h l I FT K).
Qed.
Lemma try_msg C strict now res h e v : v_msg (fst (fst (fst (fst (try_one C strict now res h e v))))) = v_msg v.
Proof.
  unfold try_one, GetSignature. destruct (Signature_Parse C strict now h (new_signature, e)) as [st o].
  destruct o; try reflexivity. destruct (CheckBodyHash C (fst st) v) as [v1 r] eqn:CB.
  assert (X : v_msg v1 = v_msg v) by (unfold CheckBodyHash in CB; destruct CanonicalizationBody as [[[? ?] ?]| | |]; injection CB as <- _; reflexivity).
  destruct r; try exact X. destruct (GetPublicKey C strict res (fst st) new_public_key) as [p r1]. destruct r1; exact X.
Qed.
Lemma sigs_same C clock res f t fs hs : no_eight t -> has_fields t fs -> (forall h, In h hs -> In h fs /\ h_name h <> []) -> forall v n e, m_headers (v_msg v) = fs ->
  tool_sigs C true clock res f hs v n e = tool_sigs C false clock res f hs v n e /\ sigs_text C true clock res f hs v n e = sigs_text C false clock res f hs v n e.
Proof.
  intros N HF. induction hs as [|h hs IH]; intros IN v n e VM; cbn [tool_sigs sigs_text]; [auto|].
  destruct (IN h (or_introl eq_refl)) as [IF NE]. destruct (try_core C t fs v (clock n) res h e HF VM (proj1 (N fs HF)) IF NE) as [_ K].
  destruct (K (no_eight_leaves t fs _ _ h N HF IF)) as [-> ->]. pose proof (try_msg C false (clock n) res h e v) as TM.
  destruct (try_one C false (clock n) res h e v) as [[[[v1 e1] g] p] o]. cbn [fst] in TM. destruct (report_of p o); [|auto].
  destruct (IH (fun x I => IN x (or_intror I)) v1 (S n) e1) as [-> ->]; [congruence|auto].
Qed.
Lemma files_same C clock res fs ty names : (forall f t, In f names -> fs f = Some t -> no_eight t) -> forall n e,
  tool_files C true clock res fs ty names n e = tool_files C false clock res fs ty names n e /\ files_text C true clock res fs ty names n e = files_text C false clock res fs ty names n e.
Proof.
  induction names as [|f r IH]; intros N n e; cbn [tool_files files_text]; [auto|].
  assert (IHr := IH (fun g t I => N g t (or_intror I))).
  destruct (fs f) as [t|] eqn:E.
  - specialize (N f t (or_introl eq_refl) E). cbn [open_file]. destruct (new_validatory_total false V_NONE t) as (v0 & E0); [discriminate|].
    destruct (listed _ _ _ _ E0) as (m & s & P & _). pose proof (parse_fields _ _ _ P) as HF. destruct (N _ HF) as [A _].
    destruct (open_exact ty t _ HF) as [X Y]. assert (NU : new_validatory true ty (open_str t) <> UB UB_ctype) by (intros U; apply X in U; tauto).
    rewrite <- (Y NU). destruct (new_validatory true ty (open_str t)) as [v| | |] eqn:NV; auto. destruct (open_ascii ty t _ v HF NV) as [VM S1].
    destruct (sigs_same C clock res f t _ (v_sigs v) N HF (fun h I => proj2 (S1 h I)) v n e VM) as [-> ->].
    destruct (tool_sigs C false clock res f (v_sigs v) v n e) as [[[ls n'] e'] x]. destruct x; [auto|]. destruct (IHr n' e') as [-> ->]. auto.
  - cbn [open_file]. assert (NV : exists v, new_validatory true ty (mkStream [] [] false true) = Ok v /\ new_validatory false ty (mkStream [] [] false true) = Ok v /\ v_sigs v = []).
    { destruct ty; eexists; repeat split; reflexivity. }
    destruct NV as (v & -> & -> & VS). rewrite VS. cbn [tool_sigs sigs_text]. destruct (IHr n e) as [-> ->]. auto.
Qed.
Lemma main_same C clock res fs args : (forall t, (exists f, fs f = Some t) -> no_eight t) -> forall es files a, getopt args = (es, files) -> take_options es new_args = inl a -> a_validate a = true ->
  tool_main C true clock res fs args = tool_main C false clock res fs args /\ main_text C true clock res fs args = main_text C false clock res fs args.
Proof.
  intros N es files a GO TK VA. unfold tool_main, main_text. rewrite GO, TK, VA.
  destruct (files_same C clock res fs (a_type a) files (fun f t _ E => N t (ex_intro _ f E)) 0 (a_errno a)) as [-> ->]. auto.
Qed.
