(** One signature: what is printed about it (for C101). *)
From Verif Require Import Bytes Outcome Stream Tokenizer QuotedPrintable Base64 TagList MailParser Canonicalization Util
  CStdlib Crypto Signature PublicKey SignatoryOptions Signatory Validatory Tool ToolText ErrorText Reasons BytesFacts SpecText SpecTags SpecMail SpecCanon SpecVerify SpecSig SpecParse SpecKey SpecError SpecReason
  SpecPass SpecStop SpecSignTool SpecEight SpecVerdict QPFacts TagListFacts BodyFacts HeaderFacts HeaderProps SigFacts SigProps SigExact KeyFacts KeyExact VerifyProps VerifyFacts SelectFacts ToolFacts PassFacts ReportFacts
  ResultClass ReasonFacts ReasonSig ReasonKeys ReasonCheck ReasonOne MadeFacts StopFacts EightFacts EightExact EightVerify VerdictFacts.
From Verif Require Import Outcome.
Local Open Scope string_scope. Local Open Scope list_scope.

(** The rest of a line, and what comes of a signature in the model. *)
Definition line_rest (r : report) (what : bytes) : bytes :=
  match r with
  | R_OK => str " OK"
  | R_TEMP c => str "(" ++ ar_string c ++ str ") TEMPERR:" ++ what
  | R_SOFT c => str "(" ++ ar_string c ++ str ") SOFT:" ++ what
  | R_PERM c => str "(" ++ ar_string c ++ str ") = " ++ what
  end.
Lemma line_shown f d s r w : line_text (mkLine f d s r) w = shown_line f (c_str d) (c_str s) (line_rest r w).
Proof. reflexivity. Qed.
Definition verdict_of (C : crypto) (strict : bool) (now : Z) (res : bytes -> outcome (bool * bytes)) (h : header) (e0 : bool) (v : validatory) : option verdict :=
  let '(v1, e1, g, p, o) := try_one C strict now res h e0 v in
  match report_of p o with
  | inl r => Some (Line (c_str (sg_domain g)) (c_str (sg_selector g)) (line_rest r (text_of (try_what C strict now res h e0 v))) e1)
  | inr (Undefined u) => Some (Lost u)
  | inr _ => None
  end.

(** ** Firsts *)
Lemma first_same (R : nat -> bytes -> Prop) k m k' m' : (forall j n n', R j n -> R j n' -> n = n') -> comes_first R k m -> comes_first R k' m' -> k = k' /\ m = m'.
Proof.
  intros F [A B] [A' B']. assert (k = k') by (apply B in A'; apply B' in A; lia). subst k'. split; [reflexivity|]. eapply F; eassumption.
Qed.
Lemma first_is R k m : comes_first R k m -> first_reason R m.
Proof. intros [A B]. exists k. split; assumption. Qed.
Lemma first_has R m : first_reason R m -> exists k, comes_first R k m.
Proof. intros (k & A & B). exists k. split; assumption. Qed.
Lemma reason_moves g g' p p' texts (ok ok' : Prop) k m :
  sg_digest g' = sg_digest g -> sg_alg g' = sg_alg g -> sg_arc g' = sg_arc g -> sg_mdomain g' = sg_mdomain g -> sg_domain g' = sg_domain g -> sg_chead g' = sg_chead g ->
  pk_digests p' = pk_digests p -> pk_alg p' = pk_alg p -> pk_flags p' = pk_flags p -> (ok -> ok') -> check_reason g' p' texts ok' k m -> check_reason g p texts ok k m.
Proof.
  intros E1 E2 E3 E4 E5 E6 E7 E8 E9 O R. inversion R; subst.
  - apply rc_digest; congruence.
  - apply rc_type; congruence.
  - apply rc_domain; congruence.
  - eapply rc_field; eauto. congruence.
  - apply rc_data. auto.
Qed.

Lemma tag_domain h l d k : field_tags h l -> known_domain l k d -> c_str d = d.
Proof.
  intros FT [[_ ->]|[_ (x & H & ->)]]; [reflexivity|]. destruct (field_tags_parse h l FT) as (tags & _ & HV & _ & G). apply HV in H. apply G in H.
  apply c_str_id. intros I. apply in_map_iff in I as (c & E & I). apply low_nul in E. subst c. pose proof (tag_value_byte _ _ H I) as T. vm_compute in T. destruct T as [T _]. apply T. reflexivity.
Qed.
Lemma tag_selector h l d k : field_tags h l -> known_selector l k d -> c_str d = d.
Proof.
  intros FT [[_ ->]|[_ H]]; [reflexivity|]. destruct (field_tags_parse h l FT) as (tags & _ & HV & _ & G). apply HV in H. apply G in H.
  apply c_str_id. intros I. pose proof (tag_value_byte _ _ H I) as T. vm_compute in T. destruct T as [T _]. apply T. reflexivity.
Qed.
Lemma domain_fun h l k d d' : field_tags h l -> known_domain l k d -> known_domain l k d' -> d = d'.
Proof.
  intros FT A A'. destruct (field_tags_parse h l FT) as (tags & _ & HV & _ & _).
  destruct A as [[L ->]|[L (x & H & ->)]], A' as [[L' ->]|[L' (x' & H' & ->)]]; try lia; [reflexivity|]. f_equal. apply HV in H. apply HV in H'. congruence.
Qed.
Lemma selector_fun h l k d d' : field_tags h l -> known_selector l k d -> known_selector l k d' -> d = d'.
Proof.
  intros FT A A'. destruct (field_tags_parse h l FT) as (tags & _ & HV & _ & _).
  destruct A as [[L ->]|[L H]], A' as [[L' ->]|[L' H']]; try lia; [reflexivity|]. apply HV in H. apply HV in H'. congruence.
Qed.
Lemma tags_state C now h e0 : (forall l, ~ field_tags h l) -> h_voff h <= length (h_text h) -> let x := fst (Signature_Parse C false now h (new_signature, e0)) in
  sg_domain (fst x) = [] /\ sg_selector (fst x) = [] /\ snd x = e0.
Proof.
  intros N L. cbv zeta. destruct (TagList_Parse_cases [] (skipn (h_voff h) (h_text h))) as [(ents & P & R & (ND & DJ) & _)|((tags' & T) & _)].
  - exfalso. apply (N (nv ents)). split; [exact L|]. split; assumption.
  - rewrite sig_texts_run. unfold sig_texts. cbn [map fst run_stages]. rewrite (tags_step h e0 tags' perm L T). cbn [sbind perm fst snd]. auto.
Qed.

Section One.
Context (C : crypto) (ty : validator_type) (t : bytes) (v : validatory) (fs : list header) (h : header) (now : Z) (e0 : bool) (r : bytes -> bool * bytes).
Context (U : in_use false ty t v) (B : small_fields t) (HF : has_fields t fs) (IH : In h (v_sigs v)).
Notation res := (fun n => Ok (r n)).
Notation verdict_here := (verdict_of C false now res h e0 v).

Lemma one_facts : exists m s, parse_all new_message (open_str t) = Ok (m, s) /\ m_headers m = fs /\ v_msg v = m /\ In h fs /\ h_voff h <= length (h_text h) /\ small_field h /\
  exists c q, h_name h = c :: q /\ c <> CR.
Proof using U B HF IH.
  destruct U as (v0 & NV & EV & ES & _). destruct (listed _ _ _ _ NV) as (m & s & P & M & _ & S0).
  pose proof (has_fields_unique t _ _ (parse_fields _ _ _ P) HF) as MF. exists m, s. split; [exact P|]. split; [exact MF|]. split; [congruence|].
  rewrite ES, S0 in IH. apply filter_In in IH as [K N]. destruct (small_message t m s h P K B) as [L SF]. rewrite <- MF. split; [exact K|]. split; [exact L|]. split; [exact SF|].
  apply (sig_begins ty). destruct ty; exact N.
Qed.
Lemma refused_verdict g e1 m : Signature_Parse C false now h (new_signature, e0) = ((g, e1), perm) -> Signature_what C false now h (new_signature, e0) = Some m ->
  verdict_here = Some (Line (c_str (sg_domain g)) (c_str (sg_selector g)) (str "(permerror) = " ++ m) e1).
Proof using.
  intros P W. unfold verdict_of, try_one, try_what, GetSignature_what, GetSignature. rewrite P, W. reflexivity.
Qed.
Lemma body_iff g : body_signed C t g <-> snd (CheckBodyHash C g v) = Ok tt.
Proof using U.
  destruct (message_body_exists t) as (b & MB). destruct (canonical_exists (is_relaxed (sg_cbody g)) b) as (out & CB).
  rewrite (proj1 (CheckBodyHash_iff C false ty t v g b out U MB CB)). split.
  - intros (b' & out' & MB' & CB' & E). rewrite (message_body_unique _ _ _ MB' MB) in CB'. rewrite E. do 2 f_equal. apply canonical_pass in CB'. apply canonical_pass in CB. replace out with out' by (rewrite CB, CB'; destruct (sg_cbody g); reflexivity). reflexivity.
  - intros E. exists b, out. auto.
Qed.
Lemma body_bad g : ~ body_signed C t g -> snd (CheckBodyHash C g v) = perm_fail.
Proof using U.
  intros N. destruct (message_body_exists t) as (b & MB). destruct (canonical_exists (is_relaxed (sg_cbody g)) b) as (out & CB).
  apply (CheckBodyHash_iff C false ty t v g b out U MB CB). rewrite <- body_iff. exact N.
Qed.
Lemma header_iff g e1 p pre b post : Signature_Parse C false now h (new_signature, e0) = ((g, e1), Ok tt) -> tag_at (str "b") (skipn (h_voff h) (h_text h)) pre b post -> b <> [] ->
  (exists d, authenticated h g v pre post d /\ accepted C g p (digest C (sg_digest g) d)) <-> header_signed C fs h g p pre post.
Proof using U B HF IH.
  intros SP TA NB. destruct one_facts as (m & s & P & MF & VM & IN & L & SF & HB). rewrite <- MF in IN.
  pose proof (fun d => authenticated_canonical t m s h g v pre b post d P VM IN L (parsed_names _ _ _ _ _ _ _ _ _ P IN SP) HB TA NB) as AC. rewrite <- MF. split.
  - intros (d & AU & A). apply AC in AU as (outs & x & F & CX & ->). exists outs, x. auto.
  - intros (outs & x & F & CX & A). exists (with_crlf outs ++ x). split; [apply AC; eauto|exact A].
Qed.
Lemma b_there g e1 : Signature_Parse C false now h (new_signature, e0) = ((g, e1), Ok tt) -> forall pre b post, tag_at (str "b") (skipn (h_voff h) (h_text h)) pre b post -> b <> [].
Proof using.
  intros SP pre b post TA. destruct (b_position _ _ _ _ _ _ _ SP) as [(pre' & b' & post' & TA' & NB) UQ]. destruct (UQ _ _ _ _ _ _ TA' NB TA) as (-> & -> & ->). exact NB.
Qed.

(** The signature is read. *)
Section Read.
Context (g : signature) (tags : taglist) (e1 : bool).
Context (SP : Signature_Parse C false now h (new_signature, e0) = ((set_tags tags g, e1), Ok tt)).
Lemma read_verdict : exists v1, v_msg v1 = v_msg v /\ verdict_here =
  match snd (CheckBodyHash C (set_tags tags g) v) with
  | Ok _ => match GetPublicKey C false res (set_tags tags g) new_public_key with
            | (p, Ok _) => match report_of p (CheckSignature C false h (set_tags tags g) p v1) with
                           | inl x => Some (Line (sg_domain g) (sg_selector g) (line_rest x (text_of (CheckSignature_what C false h (set_tags tags g) p v1))) e1)
                           | inr (Undefined u) => Some (Lost u)
                           | inr _ => None
                           end
            | (p, o) => match report_of p o with
                        | inl x => Some (Line (sg_domain g) (sg_selector g) (line_rest x (text_of (GetPublicKey_what C false res (set_tags tags g) new_public_key))) e1)
                        | inr (Undefined u) => Some (Lost u)
                        | inr _ => None
                        end
            end
  | o => match report_of new_public_key o with
         | inl x => Some (Line (sg_domain g) (sg_selector g) (line_rest x (text_of (CheckBodyHash_what C (set_tags tags g) v))) e1)
         | inr (Undefined u) => Some (Lost u)
         | inr _ => None
         end
  end.
Proof using SP U B HF IH.
  destruct one_facts as (m & s & _ & _ & _ & _ & L & _). destruct (parsed_plain C now h e0 _ _ L SP) as [N1 N2]. cbn [set_tags sg_selector sg_domain] in N1, N2.
  unfold verdict_of, try_one, try_what, GetSignature_what, GetSignature. rewrite SP. cbn [fst snd].
  destruct (CheckBodyHash C (set_tags tags g) v) as [v1 o] eqn:CB. cbn [fst snd].
  assert (VM1 : v_msg v1 = v_msg v). { unfold CheckBodyHash in CB. destruct CanonicalizationBody as [[[? ?] ?]| | |]; injection CB as <- _; reflexivity. }
  exists v1. split; [exact VM1|]. destruct o as [[]| | |]; cbn [fst snd]; try (cbn [set_tags sg_selector sg_domain]; rewrite !c_str_id by assumption; reflexivity).
  destruct (GetPublicKey C false res (set_tags tags g) new_public_key) as [p o]. destruct o as [[]| | |]; cbn [set_tags sg_selector sg_domain]; rewrite !c_str_id by assumption; reflexivity.
Qed.
Lemma msg_only p v1 : v_msg v1 = v_msg v -> CheckSignature C false h (set_tags tags g) p v1 = CheckSignature C false h (set_tags tags g) p v /\
  CheckSignature_what C false h (set_tags tags g) p v1 = CheckSignature_what C false h (set_tags tags g) p v.
Proof using. intros E. unfold CheckSignature, CheckSignature_what, signed_data, signed_what. rewrite E. auto. Qed.
Lemma sign_soft p (x : bytes) : sign_of p x -> x = if SoftFail p then str " SOFT:" else str " = ".
Proof using. intros S. pose proof (SoftFail_flag p) as F. destruct (SoftFail p), S as [[S ->]|[S ->]]; auto; contradiction. Qed.
Lemma record_got rec : r (key_name g) = (true, rec) -> rec <> [] ->
  GetPublicKey C false res (set_tags tags g) new_public_key = PublicKey_Parse C false rec new_public_key /\
  GetPublicKey_what C false res (set_tags tags g) new_public_key = PublicKey_what C false rec new_public_key.
Proof using.
  intros E NE. unfold GetPublicKey, GetPublicKey_what. change (key_query (set_tags tags g)) with (key_name g). rewrite E. cbn [slift]. destruct rec; [congruence|auto].
Qed.
Lemma check_reported p v1 : v_msg v1 = v_msg v -> GetPublicKey C false res (set_tags tags g) new_public_key = (p, Ok tt) -> body_signed C t g -> verdict_here =
  match report_of p (CheckSignature C false h (set_tags tags g) p v) with
  | inl x => Some (Line (sg_domain g) (sg_selector g) (line_rest x (text_of (CheckSignature_what C false h (set_tags tags g) p v))) e1)
  | inr (Undefined u) => Some (Lost u)
  | inr _ => None
  end.
Proof using SP U B HF IH.
  intros _ GP BS. destruct read_verdict as (v2 & VM & ->). apply (body_iff (set_tags tags g)) in BS. rewrite BS, GP. destruct (msg_only p v2 VM) as [-> ->]. reflexivity.
Qed.
Lemma record_not_empty rec l p : record_tags rec l -> key_says C l p -> rec <> [].
Proof using.
  intros RT KS ->. apply (key_record_says C false [] l RT) in KS as (kt & K). vm_compute in K. discriminate K.
Qed.
Lemma judged_sound x : judged_as C r t fs h g x -> verdict_here = Some (match x with inl y => Line (sg_domain g) (sg_selector g) y e1 | inr u => Lost u end).
Proof using SP U B HF IH.
  destruct one_facts as (m0 & s0 & P0 & MF & VM0 & IN & L & SF & HB).
  assert (NM : m_headers (v_msg v) = fs) by congruence.
  assert (BODY : body_signed C t g -> snd (CheckBodyHash C (set_tags tags g) v) = Ok tt) by (intros X; apply (body_iff (set_tags tags g)) in X; exact X).
  assert (CASES : forall rec l p pre b post, body_signed C t g -> r (key_name g) = (true, rec) -> record_tags rec l -> key_says C l p -> tag_at (str "b") (skipn (h_voff h) (h_text h)) pre b post ->
    exists q, pk_flags q = pk_flags p /\ verdict_here = match report_of q (CheckSignature C false h (set_tags tags g) q v) with
      | inl x => Some (Line (sg_domain g) (sg_selector g) (line_rest x (text_of (CheckSignature_what C false h (set_tags tags g) q v))) e1)
      | inr (Undefined u) => Some (Lost u)
      | inr _ => None
      end /\ (permits p g -> header_signed C fs h g p pre post -> CheckSignature C false h (set_tags tags g) q v = Ok tt) /\
    let R := check_reason g p (hashed fs h g pre post) (header_signed C fs h g p pre post) in
    ((exists k m, comes_first R k m /\ CheckSignature_what C false h (set_tags tags g) q v = Some m /\
       (k = 4 + length (hashed fs h g pre post) /\ ~ short_data g /\ CheckSignature C false h (set_tags tags g) q v = perm_fail \/
        k < 4 + length (hashed fs h g pre post) /\ CheckSignature C false h (set_tags tags g) q v = perm)) \/
     ((forall k m, ~ R k m) /\ permits p g /\ header_signed C fs h g p pre post /\ CheckSignature C false h (set_tags tags g) q v = Ok tt) \/
     (short_data g /\ (forall k m, k < 4 + length (hashed fs h g pre post) -> ~ R k m) /\ CheckSignature C false h (set_tags tags g) q v = UB UB_oob_read))).
  { intros rec l p pre b post BS RS RT KS TA. pose proof (record_not_empty _ _ _ RT KS) as NE. pose proof (proj2 (key_record_says C false rec l RT p) KS) as (kt & KP).
    destruct (record_got rec RS NE) as [G1 G2]. rewrite KP in G1. exists (kset_tags kt p). split; [reflexivity|]. split; [apply (check_reported _ v); auto|].
    pose proof (header_iff _ _ (kset_tags kt p) pre b post SP TA (b_there _ _ SP _ _ _ TA)) as HI.
    pose proof (check_cases _ _ _ _ _ _ _ _ _ _ SP SF TA false rec new_public_key (kset_tags kt p) v KP) as CC. cbv zeta in CC. rewrite NM in CC.
    change (hashed fs h (set_tags tags g) pre post) with (hashed fs h g pre post) in CC. change (header_signed C fs h (set_tags tags g) (kset_tags kt p) pre post) with (header_signed C fs h g p pre post) in HI.
    change (short_data (set_tags tags g)) with (short_data g) in CC. change (permits (kset_tags kt p) (set_tags tags g)) with (permits p g) in CC.
    assert (MV : forall k m, check_reason (set_tags tags g) (kset_tags kt p) (hashed fs h g pre post) (exists d, authenticated h (set_tags tags g) v pre post d /\ accepted C (set_tags tags g) (kset_tags kt p) (digest C (sg_digest (set_tags tags g)) d)) k m <->
      check_reason g p (hashed fs h g pre post) (header_signed C fs h g p pre post) k m).
    { intros k m. split; apply reason_moves; try reflexivity; apply HI. }
    split; [intros PM HS; apply (check_permits _ _ _ _ _ _ _ _ _ _ SP SF TA false rec new_public_key (kset_tags kt p) v KP); split; [exact PM|apply HI; exact HS]|].
    cbv zeta. destruct CC as [(k & m & [F1 F2] & W & K)|[(N & PM & OK & E)|(SH & N & E)]]; [left|right; left|right; right].
    - exists k, m. split; [split; [apply MV; exact F1|intros j n R; apply MV in R; exact (F2 _ _ R)]|]. split; assumption.
    - split; [intros k m R; apply MV in R; exact (N _ _ R)|]. split; [exact PM|]. split; [apply HI; exact OK|exact E].
    - split; [exact SH|]. split; [intros k m LK R; apply MV in R; exact (N _ _ LK R)|exact E]. }
  intros J. destruct J.
  - destruct read_verdict as (v1 & _ & ->). rewrite (body_bad (set_tags tags g)) by assumption. unfold CheckBodyHash_what. rewrite (body_bad (set_tags tags g)) by assumption. reflexivity.
  - destruct read_verdict as (v1 & _ & ->). rewrite BODY by assumption. unfold GetPublicKey. pose proof (public_exact C false now h e0 _ _ res L SP) as PE. cbv zeta in PE.
    change (key_query (set_tags tags g)) with (key_name g). change (sg_selector (set_tags tags g) ++ str "._domainkey." ++ sg_domain (set_tags tags g)) with (key_name g) in PE.
    cbv beta in PE |- *. rewrite H0 in *. cbn [slift temp perm report_of SoftFail]. assert (W : GetPublicKey_what C false res (set_tags tags g) new_public_key = Some (str "DNS query failed for " ++ key_name g)) by apply PE. rewrite W. reflexivity.
  - destruct read_verdict as (v1 & _ & ->). rewrite BODY by assumption. unfold GetPublicKey. pose proof (public_exact C false now h e0 _ _ res L SP) as PE. cbv zeta in PE.
    change (key_query (set_tags tags g)) with (key_name g). change (sg_selector (set_tags tags g) ++ str "._domainkey." ++ sg_domain (set_tags tags g)) with (key_name g) in PE.
    cbv beta in PE |- *. rewrite H0 in *. cbn [slift temp perm report_of SoftFail]. assert (W : GetPublicKey_what C false res (set_tags tags g) new_public_key = Some (str "No key for signature " ++ key_name g)) by apply PE. rewrite W. reflexivity.
  - destruct read_verdict as (v1 & _ & ->). rewrite BODY by assumption. destruct (record_got r0) as [-> ->]; try assumption.
    pose proof (proj2 (key_tags_exact C false r0 H2 m) H3) as W. pose proof (ReasonOne.key_refused C false r0) as K. rewrite W in *.
    destruct (PublicKey_Parse C false r0 new_public_key) as [p o] eqn:KP. cbn [snd] in K. subst o.
    assert (FL : pk_flags p = []) by (eapply key_flags_left; [exact KP|discriminate]). unfold perm. cbn [report_of]. unfold SoftFail. rewrite FL. reflexivity.
  - destruct read_verdict as (v1 & _ & ->). rewrite BODY by assumption. destruct (record_got r0) as [-> ->]; try assumption.
    pose proof (proj2 (key_exact C false r0 _ H2 m) H3) as W. pose proof (ReasonOne.key_refused C false r0) as K. rewrite W in *.
    destruct (PublicKey_Parse C false r0 new_public_key) as [p o] eqn:KP. cbn [snd] in K. subst o.
    assert (FL : pk_flags p = []) by (eapply key_flags_left; [exact KP|discriminate]). unfold perm. cbn [report_of]. unfold SoftFail. rewrite FL. reflexivity.
  - destruct (CASES _ _ _ _ _ _ H H0 H1 H2 H3) as (q & FQ & -> & GO & CS). cbv zeta in CS. apply sign_soft in H6.
    assert (SQ : SoftFail q = SoftFail p) by (unfold SoftFail; rewrite FQ; reflexivity).
    destruct CS as [(k' & m' & F & W & K)|[(N & _)|(SH & N & _)]].
    + destruct (first_same _ _ _ _ _ (check_reason_fun g p _ _) H4 F) as [<- <-]. rewrite W.
      destruct K as [(K1 & K2 & ->)|(K1 & ->)], H5 as [(K3 & K4 & ->)|(K3 & ->)]; try lia; unfold perm_fail, perm; cbn [report_of]; rewrite SQ; subst x; destruct (SoftFail p); reflexivity.
    + exfalso. destruct H4 as [R _]. exact (N _ _ R).
    + exfalso. destruct H4 as [R _]. destruct H5 as [(_ & NS & _)|(LK & _)]; [exact (NS SH)|exact (N _ _ LK R)].
  - destruct (CASES _ _ _ _ _ _ H H0 H1 H2 H3) as (q & FQ & -> & GO & CS). cbv zeta in CS.
    destruct CS as [(k' & m' & [F _] & W & K)|[(N & _ & HS & _)|(SH & N & E)]].
    + exfalso. destruct K as [(_ & NS & _)|(LK & _)]; [exact (NS H4)|exact (H5 _ _ LK F)].
    + exfalso. destruct HS as (outs & y & _ & _ & SO). unfold sound in SO. destruct H4 as [A1 A2]. rewrite A1 in SO. lia.
    + rewrite E. reflexivity.
  - destruct (CASES _ _ _ _ _ _ H H0 H1 H2 H3) as (q & FQ & -> & GO & CS). cbv zeta in CS.
    rewrite GO by assumption. reflexivity.
Qed.
Lemma judged_total : exists x, judged_as C r t fs h g x.
Proof using SP U B HF IH.
  destruct one_facts as (m0 & s0 & P0 & MF & VM0 & IN & L & SF & HB).
  assert (NM : m_headers (v_msg v) = fs) by congruence.
  assert (DB : body_signed C t g \/ ~ body_signed C t g).
  { change (body_signed C t g) with (body_signed C t (set_tags tags g)). rewrite body_iff. destruct (snd (CheckBodyHash C (set_tags tags g) v)) as [[]| | |]; auto; right; discriminate. }
  destruct DB as [BS|NB]; [|eexists; apply ja_body; exact NB].
  destruct (r (key_name g)) as [[] rec] eqn:RS; [|eexists; eapply ja_dns; eassumption].
  destruct rec as [|c rec]; [eexists; apply ja_none; assumption|]. set (rr := c :: rec) in *. assert (NE : rr <> []) by discriminate. clearbody rr.
  destruct (TagList_Parse_cases [] rr) as [(ents & P & R & (ND & DJ) & _)|(_ & NO)].
  2:{ assert (N : forall l, ~ record_tags rr l) by (intros l (R & ND); apply (NO l R); split; [exact ND|intros n _ []]).
      destruct (key_tags_none C false rr N) as (m & _ & TS & _). eexists. eapply ja_record_tags; eassumption. }
  assert (RT : record_tags rr (nv ents)) by (split; assumption).
  pose proof (ReasonOne.key_refused C false rr) as K. destruct (PublicKey_what C false rr new_public_key) as [m|] eqn:W.
  { apply (key_exact C false rr _ RT) in W. eexists. eapply ja_record; eassumption. }
  destruct (PublicKey_Parse C false rr new_public_key) as [p o] eqn:KP. cbn [snd] in K. subst o. destruct (kretag p) as (kt & KT).
  assert (KS : key_says C (nv ents) p) by (apply (key_record_says C false rr _ RT); exists kt; rewrite KT; exact KP).
  destruct (b_position _ _ _ _ _ _ _ SP) as [(pre & b & post & TA & NB) _].
  pose proof (header_iff _ _ p pre b post SP TA NB) as HI.
  pose proof (check_cases _ _ _ _ _ _ _ _ _ _ SP SF TA false rr new_public_key p v KP) as CC. cbv zeta in CC. rewrite NM in CC.
  change (hashed fs h (set_tags tags g) pre post) with (hashed fs h g pre post) in CC. change (header_signed C fs h (set_tags tags g) p pre post) with (header_signed C fs h g p pre post) in HI.
  change (short_data (set_tags tags g)) with (short_data g) in CC. change (permits p (set_tags tags g)) with (permits p g) in CC.
  assert (MV : forall k m, check_reason (set_tags tags g) p (hashed fs h g pre post) (exists d, authenticated h (set_tags tags g) v pre post d /\ accepted C (set_tags tags g) p (digest C (sg_digest (set_tags tags g)) d)) k m <->
    check_reason g p (hashed fs h g pre post) (header_signed C fs h g p pre post) k m).
  { intros k m. split; apply reason_moves; try reflexivity; apply HI. }
  assert (SG : exists x, sign_of p x).
  { pose proof (SoftFail_flag p) as F. destruct (SoftFail p); eexists; [left|right]; (split; [exact F|reflexivity]). }
  destruct CC as [(k & m & [F1 F2] & _ & K)|[(N & PM & OK & E)|(SH & N & E)]].
  - destruct SG as (x & SG). assert (CF : comes_first (check_reason g p (hashed fs h g pre post) (header_signed C fs h g p pre post)) k m)
      by (split; [apply MV; exact F1|intros j n R1; apply MV in R1; exact (F2 _ _ R1)]).
    destruct K as [(K1 & K2 & _)|(K1 & _)]; eexists; eapply ja_check; try eassumption; [left; auto|right; auto].
  - eexists. eapply ja_good; try eassumption. apply HI; exact OK.
  - eexists. eapply ja_short; try eassumption. intros k m LK R1. apply MV in R1. exact (N _ _ LK R1).
Qed.
End Read.

(** The signature field. *)
Lemma gives_sound x : gives C false r t fs now e0 h x -> verdict_here = Some x.
Proof using U B HF IH.
  destruct one_facts as (m0 & s0 & P0 & MF & VM0 & IN & L & SF & HB). pose proof (sig_refused C now e0 h L) as SR.
  intros G. inversion G as [ST|m N TS|l k m d s e _ FT CF KD KS EE|l g e y _ FT TK J|l g e y _ FT TK J]; subst x; try discriminate.
  - pose proof (proj2 (sig_tags_exact C now e0 h L N m) TS) as W. rewrite W in SR. destruct (tags_state C now h e0 N L) as (E1 & E2 & E3).
    destruct (Signature_Parse C false now h (new_signature, e0)) as [[g1 e1] o] eqn:SP. cbn [fst snd] in *. subst o. rewrite (refused_verdict _ _ _ SP W), E1, E2, E3. reflexivity.
  - pose proof (proj2 (sig_exact C now e0 h l FT m) (first_is _ _ _ CF)) as W. rewrite W in SR.
    destruct (Signature_Parse C false now h (new_signature, e0)) as [[g1 e1] o] eqn:SP. cbn [fst snd] in *. subst o. rewrite (refused_verdict _ _ _ SP W).
    destruct (sig_left _ _ _ _ _ _ FT SP) as (k' & m' & CF' & KD' & KS' & EE'). unfold arc_field_name in *. cbn [fst snd] in *.
    destruct (first_same _ _ _ _ _ (fun j n n' => sig_reason_fun now e0 _ l j n n' (proj2 (proj2 FT))) CF CF') as [<- <-].
    rewrite (tag_domain _ _ _ _ FT KD'), (tag_selector _ _ _ _ FT KS'), (domain_fun _ _ _ _ _ FT KD KD'), (selector_fun _ _ _ _ _ FT KS KS').
    do 2 f_equal. unfold errno_is in EE'. rewrite <- EE in EE'. destruct e, e1; auto; [apply EE'; reflexivity|symmetry; apply EE'; reflexivity].
  - apply (parse_exact C now h e0 l FT) in TK as (tags & SP). apply (judged_sound g tags e SP (inl y) J).
  - apply (parse_exact C now h e0 l FT) in TK as (tags & SP). apply (judged_sound g tags e SP (inr y) J).
Qed.
Lemma gives_total : exists x, gives C false r t fs now e0 h x.
Proof using U B HF IH.
  destruct one_facts as (m0 & s0 & P0 & MF & VM0 & IN & L & SF & HB). pose proof (sig_refused C now e0 h L) as SR.
  destruct (TagList_Parse_cases [] (skipn (h_voff h) (h_text h))) as [(ents & P & R & (ND & DJ) & _)|(_ & NO)].
  2:{ assert (N : forall l, ~ field_tags h l) by (intros l (_ & R & ND); apply (NO l R); split; [exact ND|intros n _ []]).
      destruct (tags_none C now e0 h L N) as (m & _ & TS & _). eexists. apply gv_tags; eassumption. }
  assert (FT : field_tags h (nv ents)) by (split; [exact L|split; assumption]).
  destruct (Signature_what C false now h (new_signature, e0)) as [m|] eqn:W; destruct (Signature_Parse C false now h (new_signature, e0)) as [[g1 e1] o] eqn:SP; cbn [snd] in SR; subst o.
  - destruct (sig_left _ _ _ _ _ _ FT SP) as (k & m' & CF & KD & KS & EE). eexists. eapply gv_reason; try eassumption. discriminate.
  - destruct (retag g1) as (tags & TG). rewrite <- TG in SP. destruct (judged_total g1 tags e1 SP) as ([y|u] & J).
    + eexists. eapply gv_line; [discriminate|exact FT|apply (parse_exact C now h e0 _ FT); eauto|exact J].
    + eexists. eapply gv_lost; [discriminate|exact FT|apply (parse_exact C now h e0 _ FT); eauto|exact J].
Qed.
Lemma gives_exact x : gives C false r t fs now e0 h x <-> verdict_here = Some x.
Proof using U B HF IH.
  split; [apply gives_sound|]. intros E. destruct gives_total as (y & G). pose proof (gives_sound y G) as E'. rewrite E in E'. injection E' as ->. exact G.
Qed.
End One.
