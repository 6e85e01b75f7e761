(** A signing run of the command line program: proofs. *)
From Verif Require Import VerifyProps Bytes Outcome Stream Tokenizer MailParser Canonicalization Util CStdlib Crypto PublicKey
  SignatoryOptions Signatory Tool Reasons SignReasons BytesFacts StreamFacts SpecText SpecMail SpecCanon SpecVerify SpecPass SpecOptions SpecSign
  SpecReason SpecMade SpecStop SpecSignTool PassFacts MailFacts BodyFacts VerifyFacts LoneFacts OptionsFacts ReasonFacts ReasonCheck MadeFacts ToolFacts ToolSign StopFacts.

(** ** The calls *)
Definition alg_of (a : tool_args) : sig_alg := if beqb (a_keytype a) (str "ed25519") then ED25519 else RSA.
Lemma asked_of a alg : asked a alg <-> alg = alg_of a.
Proof.
  unfold asked, alg_of. destruct (beqb (a_keytype a) (str "ed25519")) eqn:E.
  - apply beqb_eq in E. rewrite E. split; [intros [[_ K]|[K _]]; [exact K|destruct (K eq_refl)]|auto].
  - assert (N : a_keytype a <> str "ed25519") by (intros K; apply beqb_eq in K; congruence). split; [intros [[K _]|[_ K]]; [destruct (N K)|exact K]|auto].
Qed.
Lemma key_two C key s : so_rsa s = None -> so_ed s = [] -> so_domain s = [] -> so_selector s = [] ->
  (exists m, key_refused C (so_alg s) key m /\ key_what C key s = m /\ snd (so_key C key s) = Throw (PermanentError AR_PERMERROR)) \/
  exists rsa ed, key_taken C (so_alg s) key rsa ed /\ so_key C key s = (mkSO rsa ed (so_alg s) [] [], Ok tt).
Proof.
  intros R E D S0. pose proof (key_exactly C key s) as K. destruct (call_two C (SetPrivateKey key) s) as [T|T]; cbn [run_sig_op] in T.
  - right. clear K. revert T. unfold so_key, so_SetPrivateKey. rewrite R, E, D, S0. destruct (so_alg s).
    + destruct (beqb (firstn 5 key) (str "-----")) eqn:P.
      * apply pem_firstn in P. destruct (c_pem_private C key) as [[k|]|] eqn:Q; try discriminate. intros _. exists (Some k), []. split; [apply kt_pem; auto|reflexivity].
      * assert (NP : ~ pem_key key) by (rewrite <- pem_firstn; congruence). destruct (c_der_private C (b64d C key)) as [k|] eqn:Q; [|discriminate].
        intros _. exists (Some k), []. split; [apply kt_der; auto|reflexivity].
    + cbv zeta. destruct (Nat.eqb_spec (length key) 64); [intros _; exists None, key; split; [apply kt_64; auto|reflexivity]|].
      destruct (Nat.eqb_spec (length key) 32); [intros _; exists None, (c_seed_keypair C key); split; [apply kt_32; auto|reflexivity]|].
      destruct (Nat.eqb_spec (length (b64d C key)) 64); [intros _; exists None, (b64d C key); split; [apply kt_b64; auto|reflexivity]|].
      destruct (Nat.eqb_spec (length (b64d C key)) 32); [intros _; exists None, (c_seed_keypair C (b64d C key)); split; [apply kt_b32; auto|reflexivity]|].
      discriminate.
  - left. exists (key_what C key s). split; [apply K; auto|auto].
Qed.
Lemma key_taken_not C alg key rsa ed m : key_taken C alg key rsa ed -> ~ key_refused C alg key m.
Proof. intros T R. inversion T; subst; inversion R; subst; congruence. Qed.
Lemma key_taken_fun C alg key rsa ed rsa' ed' : key_taken C alg key rsa ed -> key_taken C alg key rsa' ed' -> rsa = rsa' /\ ed = ed'.
Proof. intros T R. inversion T; subst; inversion R; subst; try congruence; split; try congruence; exfalso; congruence. Qed.
Lemma set_up_fun C a key o o' : set_up C a key o -> set_up C a key o' -> o = o'.
Proof.
  intros [alg rsa ed A K _ _] [alg' rsa' ed' A' K' _ _]. apply asked_of in A, A'. subst alg alg'.
  destruct (key_taken_fun _ _ _ _ _ _ _ K K') as [<- <-]. reflexivity.
Qed.
Lemma key_refused_fun C alg key m m' : key_refused C alg key m -> key_refused C alg key m' -> m = m'.
Proof. intros T R. inversion T; subst; inversion R; subst; try congruence; exfalso; congruence. Qed.
Lemma call_fun C alg x m m' : call_refused C alg x m -> call_refused C alg x m' -> m = m'.
Proof. intros T R. inversion T; subst; inversion R; subst; auto. eapply key_refused_fun; eauto. Qed.
Lemma first_refused_fun C alg l m m' : first_refused C alg l m -> first_refused C alg l m' -> m = m'.
Proof.
  intros (l1 & x & l2 & E & X & B) (l1' & x' & l2' & E' & X' & B'). subst l.
  assert (L : length l1 = length l1').
  { destruct (Nat.lt_trichotomy (length l1) (length l1')) as [L|[L|L]]; auto; exfalso.
    - apply (B' x m); auto. apply (nth_error_In l1' (length l1)). rewrite <- (nth_error_app1 l1' (x' :: l2')) by exact L. rewrite <- E', nth_error_app2, Nat.sub_diag by lia. reflexivity.
    - apply (B x' m'); auto. apply (nth_error_In l1 (length l1')). rewrite <- (nth_error_app1 l1 (x :: l2)) by exact L. rewrite E', nth_error_app2, Nat.sub_diag by lia. reflexivity. }
  assert (NX : nth_error (l1 ++ x :: l2) (length l1) = Some x) by (rewrite nth_error_app2, Nat.sub_diag by lia; reflexivity).
  rewrite E', L, nth_error_app2, Nat.sub_diag in NX by lia. injection NX as <-. eapply call_fun; eauto.
Qed.
Lemma usual_default : default_headers = usual_headers. Proof. reflexivity. Qed.
Lemma chain_two C a k : let l := [SetPrivateKey k; SetDomain (a_domain a); SetSelector (a_selector a)] in
  (exists o, chain C (tool_ops a k) new_options = Ok o /\ set_up C a k o /\ forall m, ~ first_refused C (alg_of a) l m) \/
  (exists m, chain C (tool_ops a k) new_options = Throw (PermanentError AR_PERMERROR) /\ chain_what C (tool_ops a k) new_options = m /\ first_refused C (alg_of a) l m /\
    forall o, ~ set_up C a k o).
Proof.
  cbv zeta. unfold tool_ops. fold (alg_of a). set (alg := alg_of a).
  assert (AS : asked a alg) by (apply asked_of; reflexivity).
  assert (AF : forall alg', asked a alg' -> alg' = alg) by (intros alg' K; apply asked_of in K; exact K).
  set (rest := [SetARCInstance (a_instance a); SetCanonModeHeader RELAXED; SetCanonModeBody RELAXED; SetTimestamp (-1); SetExpiration 1 false]).
  set (q1 := so_setalg alg new_sig_options).
  assert (E1 : run_op C (OnMain (SetSignatureAlgorithm alg)) new_options = (with_main q1 new_options, Ok tt)) by reflexivity.
  cbn [chain chain_what]. rewrite E1. cbn [chain_what chain run_op op_what sig_op_what run_sig_op]. rewrite main_with.
  destruct (key_two C k q1 eq_refl eq_refl eq_refl eq_refl) as [(m & R & W & T)|(rsa & ed & KT & E2)].
  - right. exists m. destruct (so_key C k q1) as [q2 r2]. cbn [snd] in T. subst r2. cbn [fst snd]. split; [reflexivity|]. split; [exact W|]. split.
    + exists [], (SetPrivateKey k), [SetDomain (a_domain a); SetSelector (a_selector a)]. split; [reflexivity|]. split; [apply cr_key; exact R|]. intros y n [].
    + intros o [alg' rsa ed A K _ _]. rewrite (AF _ A) in K. exact (key_taken_not _ _ _ _ _ _ K R).
  - rewrite E2. cbn [fst snd]. rewrite !main_with.
    assert (NK : forall n, ~ call_refused C alg (SetPrivateKey k) n) by (intros n K; inversion K; subst; eapply key_taken_not; eauto).
    set (q2 := mkSO rsa ed (so_alg q1) [] []).
    destruct (setdomain_spec (a_domain a) q2) as [[D E3]|[D E3]]; rewrite E3; cbn [fst snd].
    2: { right. exists (str "Invalid domain (d=)"). split; [reflexivity|]. split; [reflexivity|]. split.
         + exists [SetPrivateKey k], (SetDomain (a_domain a)), [SetSelector (a_selector a)]. split; [reflexivity|]. split; [apply cr_domain; exact D|].
           intros y n [<-|[]]. apply NK.
         + intros o [? ? ? _ _ K _]. auto. }
    assert (ND : forall n, ~ call_refused C alg (SetDomain (a_domain a)) n) by (intros n K; inversion K; subst; auto).
    rewrite !main_with. destruct (setselector_spec (a_selector a) (put_domain (a_domain a) q2)) as [[S0 E4]|[S0 E4]]; rewrite E4; cbn [fst snd].
    2: { right. exists (str "Invalid selector (s=)"). split; [reflexivity|]. split; [reflexivity|]. split.
         + exists [SetPrivateKey k; SetDomain (a_domain a)], (SetSelector (a_selector a)), []. split; [reflexivity|]. split; [apply cr_selector; exact S0|].
           intros y n [<-|[<-|[]]]; [apply NK|apply ND].
         + intros o [? ? ? _ _ _ K]. auto. }
    assert (NS : forall n, ~ call_refused C alg (SetSelector (a_selector a)) n) by (intros n K; inversion K; subst; auto).
    left. exists (tool_options a (put_selector (a_selector a) (put_domain (a_domain a) q2))). split; [reflexivity|]. split.
    + pose proof (set_up_as C a k alg rsa ed AS KT D S0) as SU. unfold tool_options. rewrite usual_default. exact SU.
    + intros m (l1 & x & l2 & E & X & _). assert (IN : In x [SetPrivateKey k; SetDomain (a_domain a); SetSelector (a_selector a)]) by (rewrite E; apply in_or_app; right; left; reflexivity).
      destruct IN as [<-|[<-|[<-|[]]]]; [eapply NK|eapply ND|eapply NS]; eauto.
Qed.

(** ** A file that is not there *)
Lemma absent_same C strict clock o : o_signlen o = false ->
  snd (CreateSignature C strict clock o (new_signatory (open_file None))) = snd (CreateSignature C strict clock o (new_signatory (open_str []))) /\
  create_what C strict clock o (new_signatory (open_file None)) = create_what C strict clock o (new_signatory (open_str [])).
Proof.
  intros SL. unfold CreateSignature, create_what. rewrite SL.
  assert (X : exists s1 s2 m, parse_all (y_msg (new_signatory (open_file None))) (y_file (new_signatory (open_file None))) = Ok (m, s1) /\
    parse_all (y_msg (new_signatory (open_str []))) (y_file (new_signatory (open_str []))) = Ok (m, s2) /\
    exists ch ok, forall n, exists s3 s4, CanonicalizationBody s1 (o_cbody o) (m_offset m) false n = Ok (ch, ok, s3) /\ CanonicalizationBody s2 (o_cbody o) (m_offset m) false n = Ok (ch, ok, s4)).
  { do 3 eexists. split; [vm_compute; reflexivity|]. split; [vm_compute; reflexivity|]. cbn [m_offset].
    destruct (o_cbody o); do 2 eexists; intros n; do 2 eexists; (split; vm_compute; reflexivity). }
  destruct X as (s1 & s2 & m & -> & -> & ch & ok & X). destruct (X (o_bodylen o)) as (s3 & s4 & -> & ->). auto.
Qed.
Lemma file_same C strict clock o f t : o_signlen o = false -> file_text f t ->
  snd (CreateSignature C strict clock o (new_signatory (open_file f))) = snd (CreateSignature C strict clock o (new_signatory (open_str t))) /\
  create_what C strict clock o (new_signatory (open_file f)) = create_what C strict clock o (new_signatory (open_str t)).
Proof. intros SL [->|[-> ->]]; [auto|]. apply absent_same; exact SL. Qed.
Lemma file_text_ex f : exists t, file_text f t.
Proof. unfold file_text. destruct f as [t|]; [exists t|exists []]; auto. Qed.
Lemma file_text_fun f t t' : file_text f t -> file_text f t' -> t = t'.
Proof. intros [->|[-> ->]] [K|[K ->]]; congruence. Qed.

(** ** The run *)
Lemma ascii_usual : Forall ascii_text usual_headers.
Proof. apply Forall_forall. intros n IN. assert (K : forallb (forallb (fun c => (code c <? 128)%N)) usual_headers = true) by (vm_compute; reflexivity).
  rewrite forallb_forall in K. specialize (K n IN). rewrite forallb_forall in K. apply Forall_forall. intros c IC. apply N.ltb_lt, K, IC. Qed.
Lemma run_exact C strict clock a key message out err e :
  tool_sign C strict clock a key message = (out, e) /\ sign_err C strict clock a key message = err <-> signing_run C strict clock a key message out err e.
Proof.
  unfold tool_sign, sign_err. destruct key as [k|].
  2: { split.
       - intros [[= <- <-] <-]. apply sr_no_key; auto. apply up_to_nul_c_str.
       - intros R. inversion R; subst; try discriminate. split; [reflexivity|]. rewrite (up_to_nul_fun _ _ _ (up_to_nul_c_str (a_keyfile a)) H0). reflexivity. }
  destruct (chain_two C a k) as [(o & CH & SU & NR)|(m & CH & W & FR & NS)]; rewrite CH; cbn [obind].
  2: { rewrite W. clear W CH. assert (CM : c_str m = m).
       { destruct FR as (l1 & x & l2 & _ & X & _). inversion X as [key n KR| |]; subst; [inversion KR; subst|..]; vm_compute; reflexivity. }
       rewrite CM. split.
       - intros [[= <- <-] <-]. eapply sr_call; eauto. apply asked_of; reflexivity.
       - intros R. inversion R as [x K|k' alg m' K A F|k' o' t' fs' b' out' m' x K S'|k' o' t' fs' b' out' u K S'|k' o' t' fs' b' out' H x K S']; subst;
           [discriminate K| |injection K as <-; destruct (NS _ S')..].
         injection K as <-. apply asked_of in A. subst alg. rewrite (first_refused_fun _ _ _ _ _ F FR). auto. }
  destruct (file_text_ex message) as (t & FT).
  destruct (message_fields' t) as (_ & _ & _ & mm & s & _ & _ & PA & _). pose proof (parse_fields _ _ _ PA) as HF. set (fs := m_headers mm) in *. clearbody fs. clear PA.
  destruct (message_body_exists t) as (b & MB). destruct (canonical_exists true b) as (bo & CB).
  assert (OB : o_cbody o = RELAXED) by (inversion SU; reflexivity). assert (SL : o_signlen o = false) by (inversion SU; reflexivity).
  assert (UH : o_headers o = usual_headers) by (inversion SU; reflexivity). assert (OV : o_oversign o = []) by (inversion SU; reflexivity).
  assert (CB' : canonical_body (is_relaxed (o_cbody o)) b bo) by (rewrite OB; exact CB).
  destruct (file_same C strict clock o message t SL FT) as [-> ->].
  assert (ONE : forall k' o' t' fs' b' out', Some k = Some k' -> set_up C a k' o' -> file_text message t' -> has_fields t' fs' -> message_body t' b' -> canonical_body true b' out' ->
    o' = o /\ t' = t /\ fs' = fs /\ out' = bo).
  { intros k' o' t' fs' b' out' [= <-] S' F' H' M' C'. pose proof (set_up_fun _ _ _ _ _ S' SU). pose proof (file_text_fun _ _ _ F' FT). subst t'.
    pose proof (has_fields_unique _ _ _ H' HF). pose proof (message_body_unique _ _ _ M' MB). subst b'. assert (out' = bo) by (apply canonical_pass in C', CB; congruence). auto. }
  pose proof (create_refused C strict clock o t fs b bo HF MB CB') as CR. pose proof (create_leaves C strict clock o t fs b bo HF MB CB') as CL.
  pose proof (create_exactly C strict clock o t fs b bo) as CE. specialize (fun H => CE H HF MB CB').
  pose proof (create_three C strict clock o t fs b bo HF MB CB') as C3.
  set (result := snd (CreateSignature C strict clock o (new_signatory (open_str t)))) in *. clearbody result.
  set (what := create_what C strict clock o (new_signatory (open_str t))) in *. clearbody what.
  assert (SA : forall H, (strict = true -> Forall ascii_text (map h_name fs)) -> all_made C o clock fs bo H -> result = Ok H).
  { intros H S' AM. apply CE. split; [exact AM|]. intros ST. rewrite UH, OV. cbn [app]. apply Forall_app. split; [exact ascii_usual|exact (S' ST)]. }
  split.
  - intros [E1 E2]. destruct C3 as [(H & ->)|[->|(u & ->)]].
    + injection E1 as <- <-. subst err. destruct (proj1 (CE H) eq_refl) as [AM S']. eapply sr_made; eauto; [|apply up_to_nul_c_str].
      intros ST. specialize (S' ST). rewrite UH, OV in S'. cbn [app] in S'. apply Forall_app in S' as [_ S']. exact S'.
    + injection E1 as <- <-. subst err. eapply sr_refused; eauto; [apply CR; auto|apply up_to_nul_c_str].
    + injection E1 as <- <-. subst err. eapply sr_leaves; eauto. apply CL. reflexivity.
  - intros R. inversion R as [x K|k' alg m K A F|k' o' t' fs' b' out' m x K S' F' H' M' C' FE U|k' o' t' fs' b' out' u K S' F' H' M' C' FE|k' o' t' fs' b' out' H x K S' F' H' M' C' AM AS U]; subst.
    + discriminate.
    + injection K as <-. apply asked_of in A. subst alg. destruct (NR _ F).
    + destruct (ONE _ _ _ _ _ _ K S' F' H' M' C') as (-> & -> & -> & ->). apply CR in FE as [-> ->]. rewrite (up_to_nul_fun _ _ _ (up_to_nul_c_str m) U). auto.
    + destruct (ONE _ _ _ _ _ _ K S' F' H' M' C') as (-> & -> & -> & ->). apply CL in FE as ->. auto.
    + destruct (ONE _ _ _ _ _ _ K S' F' H' M' C') as (-> & -> & -> & ->). rewrite (SA H AS AM). rewrite (up_to_nul_fun _ _ _ (up_to_nul_c_str H) U). auto.
Qed.
