(** Facts about Validatory: construction, body hash, signed data, how calls can end. *)
From Verif Require Import Bytes Outcome Stream Tokenizer Base64 TagList MailParser Canonicalization Util Crypto Signature
  PublicKey Validatory BytesFacts StreamFacts SpecText SpecMail SpecCanon SpecTags SpecVerify SpecSig
  QPFacts ListFacts MailFacts BodyFacts BodyProps HeaderFacts HeaderProps SelectFacts TagListFacts SigFacts SigProps.

(** ** The stream keeps its contents *)
Lemma contents_move d p r r' e f e' f' : r = d ++ r' ->
  contents (mkStream (rev_append d p) r' e f) = contents (mkStream p r e' f').
Proof. intros ->. unfold contents. cbn [s_prev s_rest]. rewrite rev_append_rev, rev_app_distr, rev_involutive, <- app_assoc. reflexivity. Qed.
Lemma set_fail_contents s : contents (set_fail s) = contents s. Proof. reflexivity. Qed.
Lemma getline_contents s b l s' : getline s = (b, l, s') -> contents s' = contents s.
Proof.
  unfold getline. destruct (good s); [|intros [= <- <- <-]; reflexivity]. destruct (take_line (s_rest s)) as [x t].
  intros [= <- <- <-]. destruct s as [p r e f]. cbn [s_prev s_rest]. apply contents_move. symmetry. apply firstn_skipn.
Qed.
Lemma tellg_contents s z s' : tellg s = (z, s') -> contents s' = contents s.
Proof. unfold tellg. destruct (good s); intros [= <- <-]; reflexivity. Qed.
Lemma ParseLine_contents m s b m' s' : Message_ParseLine m s = (b, m', s') -> contents s' = contents s.
Proof.
  unfold Message_ParseLine. destruct (getline s) as [[ok raw] s1] eqn:G. apply getline_contents in G. destruct ok.
  - destruct (chop_cr raw) as [|c l].
    + destruct (tellg s1) as [off s2] eqn:T. apply tellg_contents in T. intros [= <- <- <-]. congruence.
    + destruct (is_wsp c); intros [= <- <- <-]; auto.
  - intros [= <- <- <-]. auto.
Qed.
Lemma parse_loop_contents f : forall m s m' s', parse_loop f m s = Ok (m', s') -> contents s' = contents s.
Proof.
  induction f as [|f IH]; intros m s m' s'; cbn [parse_loop]; [discriminate|].
  destruct (Message_ParseLine m s) as [[ok m1] s1] eqn:P. apply ParseLine_contents in P.
  destruct (ok && negb (m_done m1)); [|intros [= <- <-]; auto]. intros E. apply IH in E. congruence.
Qed.
Lemma sread_contents n s d s' : sread n s = (d, s') -> contents s' = contents s.
Proof.
  unfold sread. destruct (good s); intros [= <- <-]; [|reflexivity]. destruct s as [p r e f]. cbn [s_prev s_rest].
  apply contents_move. symmetry. apply firstn_skipn.
Qed.
Lemma body_loop_contents chunk mode limit f : forall s size p n e calls r s',
  body_loop chunk mode limit f s size p n e calls = Ok (r, s') -> contents s' = contents s.
Proof.
  induction f as [|f IH]; intros s size p n e calls r s'; cbn [body_loop]; [discriminate|].
  destruct (good s); [|intros [= <- <-]; auto]. destruct (limit && (size =? 0)%N); [intros [= <- <-]; auto|].
  destruct (sread chunk s) as [d s1] eqn:R. apply sread_contents in R. cbv zeta.
  destruct (emit limit size _) as [out z]. intros E. apply IH in E. congruence.
Qed.
Lemma seekg_contents off s : contents (seekg off s) = contents s.
Proof.
  unfold seekg. destruct (s_fail s); [reflexivity|]. destruct (_ && _)%Z; [|reflexivity]. unfold contents. cbn [s_prev s_rest].
  rewrite rev_involutive, firstn_skipn, rev_append_rev. reflexivity.
Qed.
Lemma body_contents chunk s mode off limit size calls b s' :
  CanonicalizationBody_ chunk s mode off limit size = Ok (calls, b, s') -> contents s' = contents s.
Proof.
  unfold CanonicalizationBody_. destruct (off =? -1)%Z; cbn [obind].
  - destruct (if _ : bool then _ else _) as [c2 z2]. intros [= <- <- <-]. reflexivity.
  - cbv zeta. destruct (body_loop _ _ _ _ _ _ _ _ _ _) as [[[[c z] e] s2]| | |] eqn:B; cbn [obind]; try discriminate.
    apply body_loop_contents in B. rewrite seekg_contents in B.
    destruct (if _ : bool then _ else _) as [c2 z2]. intros [= <- <- <-]. exact B.
Qed.

(** ** Validatory *)
Lemma collect_spec strict wanted hs l : collect strict wanted hs = Ok l -> l = filter (fun h => beqb (lower (h_name h)) wanted) hs.
Proof.
  revert l. induction hs as [|h hs IH]; intros l; cbn [collect]; [intros [= <-]; reflexivity|].
  unfold lower_str at 1. destruct (strict && _); cbn [obind]; [discriminate|].
  destruct (collect strict wanted hs) as [l1| | |]; cbn [obind]; try discriminate. intros [= <-].
  cbn [filter]. rewrite <- (IH l1 eq_refl). reflexivity.
Qed.
Lemma collect_ok strict wanted hs : Forall (fun h => strict && existsb is_8bit (h_name h) = false) hs ->
  collect strict wanted hs = Ok (filter (fun h => beqb (lower (h_name h)) wanted) hs).
Proof.
  induction 1 as [|h hs E F IH]; [reflexivity|]. cbn [collect]. unfold lower_str at 1. rewrite E. cbn [obind]. rewrite IH. cbn [obind filter].
  reflexivity.
Qed.

Definition wanted_name (ty : validator_type) : option bytes :=
  match ty with V_DKIM => Some (str "DKIM-Signature") | V_ARC => Some (str "ARC-Message-Signature") | V_NONE => None end.
Definition wanted (ty : validator_type) (h : header) : bool :=
  match wanted_name ty with Some n => same_name (h_name h) n | None => false end.
Lemma filter_none {A} (l : list A) : filter (fun _ => false) l = [].
Proof. induction l; auto. Qed.

Lemma new_validatory_spec strict ty t v : new_validatory strict ty (open_str t) = Ok v ->
  exists m s, parse_all new_message (open_str t) = Ok (m, s) /\ v_msg v = m /\ contents (v_file v) = t /\
    v_sigs v = filter (wanted ty) (m_headers m).
Proof.
  unfold new_validatory. destruct (parse_all new_message (open_str t)) as [[m s]| | |] eqn:P; cbn [obind]; try discriminate.
  intros E. exists m, s. split; auto. apply parse_loop_contents in P.
  assert (X : forall n n' l, (forall a, same_name a n = beqb (lower a) n') -> collect strict n' (m_headers m) = Ok l ->
            l = filter (fun h => same_name (h_name h) n) (m_headers m)).
  { intros n n' l H C. apply collect_spec in C. subst l. apply filter_ext. intros a. rewrite H. reflexivity. }
  assert (Y : forall a n, same_name a n = beqb (lower a) (map low n)) by (intros; unfold same_name; rewrite map_low; reflexivity).
  destruct ty; [| |injection E as <-; split; auto; split; auto; symmetry; apply filter_none];
  destruct (collect _ _ _) as [l| | |] eqn:C; cbn [obind] in E; try discriminate; injection E as <-; split; auto; split; auto;
  eapply X; [|exact C| |exact C]; intros a; apply Y.
Qed.
Lemma new_validatory_total strict ty t :
  (strict = true -> forall m s, parse_all new_message (open_str t) = Ok (m, s) -> ty <> V_NONE ->
     Forall (fun h => existsb is_8bit (h_name h) = false) (m_headers m)) ->
  exists v, new_validatory strict ty (open_str t) = Ok v.
Proof.
  intros ST. destruct (message_fields' t) as (ls & h & rest & m & s & _ & _ & P & _). unfold new_validatory. rewrite P. cbn [obind].
  assert (F : ty <> V_NONE -> Forall (fun h => strict && existsb is_8bit (h_name h) = false) (m_headers m)).
  { intros TY. destruct strict; [|apply Forall_forall; reflexivity]. apply (ST eq_refl m s P TY). }
  destruct ty; [rewrite collect_ok; [cbn [obind]; eauto|apply F; discriminate]..|eauto].
Qed.

(** Where the body lies. *)
Lemma message_body_at t b m s s' : message_body t b -> parse_all new_message (open_str t) = Ok (m, s) -> contents s' = t ->
  body_at s' (m_offset m) b.
Proof.
  intros MB P E. destruct MB as [ls h e b HB LE|ls h tail HB NL].
  - destruct (parse_blank ls h e b HB LE) as (m1 & s1 & P1 & O & _). rewrite P in P1. injection P1 as <- <-.
    right. exists (h ++ e). rewrite E, <- app_assoc. auto.
  - destruct (parse_unended ls h tail HB NL) as (m1 & s1 & P1 & O & _). rewrite P in P1. injection P1 as <- <-.
    left. auto.
Qed.
Lemma message_body_exists t : exists b, message_body t b.
Proof.
  destruct (message_fields t) as (ls & h & rest & m & s & HB & -> & P & _ & gs & _ & _ & _ & X).
  destruct X as [((e & body & LE & -> & _) & _)|X].
  - exists body. econstructor; eauto.
  - exists []. apply (mb_none ls); auto. destruct X as (X & _). tauto.
Qed.
Lemma body_at_unique s off b b' : body_at s off b -> body_at s off b' -> b = b'.
Proof.
  intros [[-> ->]|(p & E & ->)] [[O' ->]|(p' & E' & O')]; auto; try lia.
  rewrite E in E'. apply Nat2Z.inj in O'. clear E. revert p' O' E'. induction p as [|c p IH]; intros [|c' p'] L E; try discriminate; auto.
  injection L as L. injection E as -> E. eauto.
Qed.
Lemma message_body_unique t b b' : message_body t b -> message_body t b' -> b = b'.
Proof.
  intros B B'. destruct (message_fields t) as (ls & h & rest & m & s & _ & _ & P & _).
  assert (C : contents s = t) by (apply parse_loop_contents in P; auto).
  eapply body_at_unique; eapply message_body_at; eauto.
Qed.

(** A Validatory for the message [t], possibly used already: only the read position and the
    flags of the stream differ from the fresh one. *)
Definition in_use (strict : bool) (ty : validator_type) (t : bytes) (v : validatory) : Prop :=
  exists v0, new_validatory strict ty (open_str t) = Ok v0 /\ v_msg v = v_msg v0 /\ v_sigs v = v_sigs v0 /\ contents (v_file v) = t.
Lemma in_use_fresh strict ty t v : new_validatory strict ty (open_str t) = Ok v -> in_use strict ty t v.
Proof. intros E. exists v. split; auto. split; auto. split; auto. apply new_validatory_spec in E as (m & s & _ & _ & C & _). auto. Qed.

Definition hash_matches (C : crypto) (g : signature) (out : bytes) : bool :=
  beqb (sg_bh g) (digest C (sg_digest g) (cut (sg_limit g) (sg_size g) out)).
Lemma CheckBodyHash_spec C strict ty t v g b out : in_use strict ty t v -> message_body t b ->
  canonical_body (is_relaxed (sg_cbody g)) b out ->
  exists v', CheckBodyHash C g v = (v', if hash_matches C g out then Ok tt else perm_fail) /\ in_use strict ty t v'.
Proof.
  intros (v0 & NV & EM & ES & EC) MB CB. pose proof (new_validatory_spec _ _ _ _ NV) as (m & s & P & M0 & _ & _).
  pose proof (message_body_at t b m s (v_file v) MB P EC) as BA.
  assert (X : exists calls r s', CanonicalizationBody (v_file v) (sg_cbody g) (m_offset (v_msg v)) (sg_limit g) (sg_size g) = Ok (calls, r, s') /\
    concat calls = cut (sg_limit g) (sg_size g) out).
  { rewrite EM, M0. unfold CanonicalizationBody, cut. assert (CH : 0 < buffer_size) by (unfold buffer_size; lia). destruct (sg_limit g).
    - destruct (body_limited buffer_size (v_file v) (sg_cbody g) (m_offset m) b out CH BA CB (sg_size g)) as (calls & s' & E & K). eauto.
    - destruct (body_canonical buffer_size (v_file v) (sg_cbody g) (m_offset m) b out CH BA CB (sg_size g)) as (calls & s' & E & K). eauto. }
  destruct X as (calls & r & s' & E & K). unfold CheckBodyHash. rewrite E. unfold digest_chunks. rewrite K. eexists. split; [reflexivity|].
  exists v0. split; auto. split; auto. split; auto. cbn [v_file]. apply body_contents in E. congruence.
Qed.
Lemma CheckBodyHash_iff C strict ty t v g b out : in_use strict ty t v -> message_body t b ->
  canonical_body (is_relaxed (sg_cbody g)) b out ->
  (snd (CheckBodyHash C g v) = Ok tt <-> sg_bh g = digest C (sg_digest g) (cut (sg_limit g) (sg_size g) out)) /\
  (snd (CheckBodyHash C g v) <> Ok tt -> snd (CheckBodyHash C g v) = perm_fail).
Proof.
  intros U MB CB. destruct (CheckBodyHash_spec C strict ty t v g b out U MB CB) as (v' & E & _). rewrite E. cbn [snd]. unfold hash_matches.
  destruct (beqb_spec (sg_bh g) (digest C (sg_digest g) (cut (sg_limit g) (sg_size g) out))) as [EQ|NE]; split; try tauto; auto.
  - split; [discriminate|tauto].
Qed.
Lemma body_choices C strict ty t v g : in_use strict ty t v ->
  exists out v', CheckBodyHash C g v = (v', if hash_matches C g out then Ok tt else perm_fail) /\ in_use strict ty t v'.
Proof.
  intros U. destruct (message_body_exists t) as (b & MB). destruct (canonical_exists (is_relaxed (sg_cbody g)) b) as (out & CB).
  destruct (CheckBodyHash_spec C strict ty t v g b out U MB CB) as (v' & E & U'). eauto.
Qed.
Lemma GetSignature_spec C strict ty t v now h st : in_use strict ty t v ->
  exists v', in_use strict ty t v' /\
  match Signature_Parse C strict now h st with
  | (st1, Ok tt) => GetSignature C strict now h st v = (v', st1, snd (CheckBodyHash C (fst st1) v))
  | (st1, r) => GetSignature C strict now h st v = (v', st1, r)
  end.
Proof.
  intros U. unfold GetSignature. destruct (Signature_Parse C strict now h st) as [st1 [[]| | |]]; [|exists v; auto..].
  destruct (body_choices C strict ty t v (fst st1) U) as (out & v' & E & U'). exists v'. split; auto. rewrite E. reflexivity.
Qed.

(** ** The two readings of tolower *)
Definition or_ctype {A} (x y : outcome A) : Prop := x = UB UB_ctype \/ x = y.
Definition or_ctype_st {S} (x y : S * outcome unit) : Prop := snd x = UB UB_ctype \/ x = y.
Lemma or_ctype_refl {A} (x : outcome A) : or_ctype x x. Proof. right. reflexivity. Qed.
Lemma or_ctype_st_refl {S} (x : S * outcome unit) : or_ctype_st x x. Proof. right. reflexivity. Qed.
Lemma obind_ctype {A B} (m m' : outcome A) (k k' : A -> outcome B) : or_ctype m m' -> (forall a, or_ctype (k a) (k' a)) ->
  or_ctype (obind m k) (obind m' k').
Proof. intros [->| ->] K; [left; reflexivity|]. destruct m'; cbn [obind]; auto; right; reflexivity. Qed.
Lemma sbind_ctype {S} (m m' : S * outcome unit) k k' : or_ctype_st m m' -> (forall a, or_ctype_st (k a) (k' a)) ->
  or_ctype_st (sbind m k) (sbind m' k').
Proof. intros [E| ->] K; [left; destruct m as [s o]; cbn in E; subst; reflexivity|]. destruct m' as [s [u| | |]]; cbn [sbind]; auto; right; reflexivity. Qed.
Lemma slift_ctype {S A} (s s' : S) (m m' : outcome A) k k' : s = s' -> or_ctype m m' -> (forall a, or_ctype_st (k a) (k' a)) ->
  or_ctype_st (slift s m k) (slift s' m' k').
Proof. intros -> [->| ->] K; [left; reflexivity|]. destruct m'; cbn [slift]; auto; right; reflexivity. Qed.
Lemma lower_ctype strict s : or_ctype (lower_str strict s) (lower_str false s).
Proof. unfold lower_str. destruct strict; [|right; reflexivity]. cbn [andb]. destruct existsb; [left|right]; reflexivity. Qed.
Lemma strip_ctype strict s : or_ctype (strip_space strict s) (strip_space false s).
Proof. unfold strip_space. destruct strict; [|right; reflexivity]. cbn [andb]. destruct existsb; [left|right]; reflexivity. Qed.
Lemma FilterHeader_ctype strict mode t : or_ctype (FilterHeader strict mode t) (FilterHeader false mode t).
Proof.
  unfold FilterHeader. destruct mode; [apply or_ctype_refl|]. destruct (find_char COLON t); [|apply or_ctype_refl].
  apply obind_ctype; [apply lower_ctype|]. intros. apply or_ctype_refl.
Qed.
Lemma build_cache_ctype strict hs : forall c, or_ctype (build_cache strict hs c) (build_cache false hs c).
Proof.
  induction hs as [|h hs IH]; intros c; cbn [build_cache]; [apply or_ctype_refl|]. apply obind_ctype; [apply lower_ctype|]. intros. apply IH.
Qed.
Lemma hash_headers_ctype strict mode names : forall c, or_ctype (hash_headers strict mode names c) (hash_headers false mode names c).
Proof.
  induction names as [|n names IH]; intros c; cbn [hash_headers]; [apply or_ctype_refl|]. apply obind_ctype; [apply lower_ctype|].
  intros name. destruct (cache_pop name c) as [[h c1]|]; [|apply IH]. apply obind_ctype; [apply FilterHeader_ctype|]. intros x.
  apply obind_ctype; [apply IH|]. intros. apply or_ctype_refl.
Qed.
Lemma signed_data_ctype strict h g v : or_ctype (signed_data strict h g v) (signed_data false h g v).
Proof.
  unfold signed_data. apply obind_ctype; [apply build_cache_ctype|]. intros c. apply obind_ctype; [apply hash_headers_ctype|]. intros d.
  apply obind_ctype; [apply or_ctype_refl|]. intros val. apply obind_ctype; [apply or_ctype_refl|]. intros val1.
  apply obind_ctype; [apply FilterHeader_ctype|]. intros. apply or_ctype_refl.
Qed.
Lemma CheckSignature_ctype C strict h g p v : or_ctype (CheckSignature C strict h g p v) (CheckSignature C false h g p v).
Proof.
  unfold CheckSignature. destruct (key_allows g p); [|apply or_ctype_refl]. apply obind_ctype; [apply signed_data_ctype|]. intros. apply or_ctype_refl.
Qed.
Lemma parse_rest_ctype C strict now name st : or_ctype_st (parse_rest C strict now name st) (parse_rest C false now name st).
Proof.
  unfold parse_rest.
  apply sbind_ctype; [|intros s2; apply sbind_ctype; [|intros s3; apply sbind_ctype; [|intros s4; apply sbind_ctype;
   [|intros s5; apply sbind_ctype; [|intros s6; apply sbind_ctype; [|intros s7; apply sbind_ctype; [|intros s8; apply sbind_ctype;
   [|intros s9; apply sbind_ctype; [|intros s10; apply or_ctype_st_refl]]]]]]]]]; try apply or_ctype_st_refl.
  - apply slift_ctype; [reflexivity|apply lower_ctype|intros; apply or_ctype_st_refl].
  - unfold parse_d. destruct (tag "d" s2); [|apply or_ctype_st_refl]. apply slift_ctype; [reflexivity|apply lower_ctype|intros; apply or_ctype_st_refl].
  - unfold parse_b. destruct (tag _ _) as [b|]; [|apply or_ctype_st_refl]. destruct (te_value b); [apply or_ctype_st_refl|].
    apply slift_ctype; [reflexivity|apply strip_ctype|intros; apply or_ctype_st_refl].
  - unfold parse_bh. destruct (tag _ _) as [b|]; [|apply or_ctype_st_refl].
    apply slift_ctype; [reflexivity|apply strip_ctype|intros; apply or_ctype_st_refl].
  - unfold parse_i. destruct (sg_arc _); [apply or_ctype_st_refl|]. destruct (tag _ _) as [b|]; [|apply or_ctype_st_refl].
    apply slift_ctype; [reflexivity|apply or_ctype_refl|]. intros mail. destruct (find_char _ _); [|apply or_ctype_st_refl].
    cbv zeta. apply slift_ctype; [reflexivity|apply lower_ctype|intros; apply or_ctype_st_refl].
Qed.
Lemma Signature_Parse_ctype C strict now h st : or_ctype_st (Signature_Parse C strict now h st) (Signature_Parse C false now h st).
Proof.
  change (or_ctype_st (do s1 <- parse_tags h st ;; parse_rest C strict now (h_name h) s1) (do s1 <- parse_tags h st ;; parse_rest C false now (h_name h) s1)).
  apply sbind_ctype; [apply or_ctype_st_refl|]. intros. apply parse_rest_ctype.
Qed.
Lemma PublicKey_ctype C strict r p : or_ctype_st (PublicKey_Parse C strict r p) (PublicKey_Parse C false r p).
Proof.
  unfold PublicKey_Parse. apply sbind_ctype; [apply or_ctype_st_refl|]. intros p1. apply sbind_ctype; [apply or_ctype_st_refl|]. intros p2.
  apply sbind_ctype; [apply or_ctype_st_refl|]. intros p3. apply sbind_ctype; [apply or_ctype_st_refl|]. intros p4.
  apply sbind_ctype; [|intros p5; apply or_ctype_st_refl].
  unfold key_p. destruct (ktag "p" p4) as [e|]; [|apply or_ctype_st_refl]. destruct (te_value e); [apply or_ctype_st_refl|].
  apply slift_ctype; [reflexivity|apply strip_ctype|intros; apply or_ctype_st_refl].
Qed.
