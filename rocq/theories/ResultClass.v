(** Which result class each failure has (for C65). *)
From Verif Require Import Bytes Outcome Stream Tokenizer Base64 TagList MailParser Canonicalization Util Crypto Signature
  PublicKey Validatory BytesFacts SpecText SpecMail SpecTags SpecCanon SpecVerify SpecSig SpecKey BodyFacts BodyProps HeaderFacts HeaderProps SelectFacts SigFacts VerifyFacts KeyFacts VerifyProps.

Lemma sig_alg_eqb_eq a b : sig_alg_eqb a b = true <-> a = b.
Proof. destruct a, b; cbn; split; congruence. Qed.
Lemma allows_permits g p : key_allows g p = true <-> permits p g.
Proof.
  unfold key_allows, permits. rewrite !andb_true_iff, !orb_true_iff, negb_true_iff, sig_alg_eqb_eq. split.
  - intros [[D A] T]. split; [|split; [auto|]].
    + destruct (pk_digests p) as [|x l]; [auto|right]. apply existsb_exists in D as (y & I & E). apply digest_eqb_eq in E. congruence.
    + intros I NA. destruct T as [[T|T]|T]; [congruence| |apply beqb_eq in T; auto]. apply memb_In in I. congruence.
  - intros (D & A & T). split; [split; [|auto]|].
    + destruct (pk_digests p) as [|x l]; [reflexivity|]. destruct D as [D|D]; [discriminate|]. apply existsb_exists. exists (sg_digest g).
      split; auto. apply digest_eqb_eq. reflexivity.
    + destruct (sg_arc g) eqn:R; [auto|]. destruct (memb (str "s") (pk_flags p)) eqn:M; [|auto]. right. apply memb_In in M.
      rewrite T by auto. apply beqb_refl.
Qed.

Lemma check_permits C strict now h e0 g e1 pre b post : Signature_Parse C strict now h (new_signature, e0) = ((g, e1), Ok tt) -> small_field h ->
  tag_at (str "b") (skipn (h_voff h) (h_text h)) pre b post ->
  forall st r p0 p v, PublicKey_Parse C st r p0 = (p, Ok tt) ->
  (CheckSignature C false h g p v = Ok tt <->
   permits p g /\ exists d, authenticated h g v pre post d /\ accepted C g p (digest C (sg_digest g) d)).
Proof.
  intros P SF TA st r p0 p v PK. rewrite (check_iff C strict now h e0 g e1 pre b post P SF TA st r p0 p v PK).
  rewrite allows_permits. reflexivity.
Qed.

Lemma authenticated_fun h g v pre post d d' : authenticated h g v pre post d -> authenticated h g v pre post d' -> d = d'.
Proof.
  intros (o1 & x1 & F1 & E1 & ->) (o2 & x2 & F2 & E2 & ->). rewrite E1 in E2. injection E2 as ->. f_equal. f_equal.
  revert o2 F2. induction F1 as [|a l o1 q H F1 IH]; intros o2 F2; inversion F2; subst; auto. f_equal; auto.
  unfold canon_of in *. congruence.
Qed.

Lemma check_class C strict now h e0 g e1 pre b post : Signature_Parse C strict now h (new_signature, e0) = ((g, e1), Ok tt) -> small_field h ->
  tag_at (str "b") (skipn (h_voff h) (h_text h)) pre b post ->
  forall st r p0 p v, PublicKey_Parse C st r p0 = (p, Ok tt) ->
  (CheckSignature C false h g p v = perm_fail <->
   permits p g /\ ~ short_ed g /\ exists d, authenticated h g v pre post d /\ ~ accepted C g p (digest C (sg_digest g) d)) /\
  (CheckSignature C false h g p v = perm <-> ~ permits p g \/ ~ exists d, authenticated h g v pre post d) /\
  (forall k, CheckSignature C false h g p v = UB k <->
   k = UB_oob_read /\ short_ed g /\ permits p g /\ exists d, authenticated h g v pre post d).
Proof.
  intros P SF TA st r p0 p v PK. pose proof (PublicKey_has _ _ _ _ _ PK) as HK.
  destruct (signed_data_iff _ _ _ _ _ _ _ P SF) as (pre' & b' & post' & TA' & NB & _ & SD).
  destruct (b_position _ _ _ _ _ _ _ P) as [_ U]. destruct (U _ _ _ _ _ _ TA' NB TA) as (-> & -> & ->). clear U TA'.
  pose proof (CheckSignature_ends _ _ _ _ _ _ _ P SF v p HK) as EN.
  destruct (key_allows g p) eqn:KA.
  - assert (PM := proj1 (allows_permits g p) KA). pose proof (allows_key _ _ KA HK) as MK.
    unfold CheckSignature in *. rewrite KA in *.
    destruct (signed_data false h g v) as [d|x|k|] eqn:E.
    + cbn [obind] in *. assert (A := proj1 (SD v d) E).
      destruct (verify_digest_cases C g p (digest C (sg_digest g) d) MK) as [(X & Y)|[(X & Y & Z)|(X & Y)]]; rewrite X.
      * split; [|split; [|intros k]]; (split; [discriminate|]).
        -- intros (_ & _ & d' & A' & N). rewrite (authenticated_fun _ _ _ _ _ _ _ A A') in Y. contradiction.
        -- intros [N|N]; [contradiction|]. exfalso. apply N. eauto.
        -- intros (_ & [SA SL] & _). unfold accepted in Y. rewrite SA in Y. lia.
      * split; [|split; [|intros k]]; (split; [|]).
        -- intros _. split; auto. split; auto. exists d. auto.
        -- reflexivity.
        -- discriminate.
        -- intros [N|N]; [contradiction|]. exfalso. apply N. eauto.
        -- discriminate.
        -- intros (_ & W & _). contradiction.
      * split; [|split; [|intros k]]; (split; [|]).
        -- discriminate.
        -- intros (_ & W & _). contradiction.
        -- discriminate.
        -- intros [N|N]; [contradiction|]. exfalso. apply N. eauto.
        -- intros [= <-]. split; auto. split; auto. split; eauto.
        -- intros (-> & _). reflexivity.
    + cbn [obind] in *. assert (NA : ~ exists d, authenticated h g v pre post d).
      { intros (d & A). apply SD in A. rewrite E in A. discriminate. }
      destruct EN as [EN|[EN|[EN|[EN _]]]]; [discriminate| | |discriminate]; rewrite EN.
      * split; [|split; [|intros k]]; (split; [|]);
          [discriminate|intros (_ & _ & d & A & _); exfalso; eauto|auto|reflexivity|discriminate|intros (_ & _ & _ & W); contradiction].
      * exfalso. clear - E EN P SF. destruct (signed_data_b _ _ _ _ _ _ _ P SF) as (pr & bb & po & _ & _ & _ & SDB).
        rewrite SDB in E. destruct (build_cache_lookup (m_headers (v_msg v)) []) as (c & B & _). rewrite B in E. cbn [obind] in E.
        destruct (hash_headers_total (sg_chead g) (sg_headers g) c) as [(d & X)|X]; rewrite X in E; cbn [obind] in E.
        -- destruct (FilterHeader_total (sg_chead g) (firstn (h_voff h) (h_text h) ++ pr ++ po)) as [Y|(y & Y)]; rewrite Y in E; cbn [obind] in E; [|discriminate E]; injection E as <-; discriminate EN.
        -- injection E as <-. discriminate EN.
    + cbn [obind] in *. exfalso. destruct EN as [EN|[EN|[EN|[EN _]]]]; [discriminate..|]. injection EN as ->. clear - E P SF.
      destruct (signed_data_b _ _ _ _ _ _ _ P SF) as (pr & bb & po & _ & _ & _ & SDB).
      rewrite SDB in E. destruct (build_cache_lookup (m_headers (v_msg v)) []) as (c & B & _). rewrite B in E. cbn [obind] in E.
      destruct (hash_headers_total (sg_chead g) (sg_headers g) c) as [(d & X)|X]; rewrite X in E; cbn [obind] in E; [|discriminate E].
      destruct (FilterHeader_total (sg_chead g) (firstn (h_voff h) (h_text h) ++ pr ++ po)) as [Y|(y & Y)]; rewrite Y in E; cbn [obind] in E; discriminate E.
    + cbn [obind] in *. exfalso. destruct EN as [EN|[EN|[EN|[EN _]]]]; discriminate.
  - assert (NP : ~ permits p g) by (intros X; apply allows_permits in X; congruence).
    unfold CheckSignature in *. rewrite KA. split; [|split; [|intros k]]; (split; [|]);
      [discriminate|intros [X _]; contradiction|auto|reflexivity|discriminate|intros (_ & _ & X & _); contradiction].
Qed.

Lemma get_class C ty t v h now st b : new_validatory false ty (open_str t) = Ok v -> In h (m_headers (v_msg v)) -> message_body t b ->
  let r := snd (GetSignature C false now h st v) in
  (r = perm <-> snd (Signature_Parse C false now h st) <> Ok tt) /\
  (r = perm_fail <-> exists st1, Signature_Parse C false now h st = (st1, Ok tt) /\
     forall out, canonical_body (is_relaxed (sg_cbody (fst st1))) b out ->
       sg_bh (fst st1) <> digest C (sg_digest (fst st1)) (cut (sg_limit (fst st1)) (sg_size (fst st1)) out)) /\
  (r = Ok tt \/ r = perm \/ r = perm_fail).
Proof.
  intros NV IN MB r. pose proof (new_validatory_spec _ _ _ _ NV) as (m & s & P & M & _). rewrite M in IN.
  destruct (message_field_ok t m s h P IN) as [L _].
  destruct (Signature_Parse_fine C now h st L) as [E|E]; destruct (Signature_Parse C false now h st) as [st1 o] eqn:SP; cbn [snd] in E; subst o.
  - destruct (canonical_exists (is_relaxed (sg_cbody (fst st1))) b) as (out & CB).
    destruct (get_signature_iff C false ty t v now h st st1 b out NV MB SP CB) as (_ & I & F). fold r in I, F. cbn [snd].
    assert (D : r = Ok tt \/ r <> Ok tt) by (destruct r as [[]| | |]; auto; right; discriminate).
    destruct D as [D|D].
    + split; [|split]; [split; [rewrite D; discriminate|congruence]| |auto].
      split; [rewrite D; discriminate|]. intros (st2 & [= <-] & N). exfalso. apply (N out CB). apply I. auto.
    + rewrite (F D). split; [|split]; [split; [discriminate|congruence]| |auto].
      split; [|auto]. intros _. exists st1. split; auto. intros out' CB' EQ. apply D. apply I.
      rewrite (proj1 (canonical_pass _ _ _) CB), <- (proj1 (canonical_pass _ _ _) CB'). exact EQ.
  - assert (X : r = perm) by (unfold r; rewrite (get_signature_parse C false ty t v now h st st1 perm NV SP ltac:(discriminate)); reflexivity).
    rewrite X. cbn [snd]. split; [|split]; [split; [discriminate|auto]| |auto]. split; [discriminate|]. intros (st2 & [=] & _).
Qed.

Lemma key_class C resolve g p ok text : resolve (sg_selector g ++ str "._domainkey." ++ sg_domain g) = Ok (ok, text) ->
  let r := snd (GetPublicKey C false resolve g p) in
  (r = temp <-> ok = false) /\
  (r = perm <-> ok = true /\ (text = [] \/ snd (PublicKey_Parse C false text p) <> Ok tt)) /\
  (r = Ok tt \/ r = perm \/ r = temp).
Proof.
  intros E r. unfold r. rewrite (GetPublicKey_lookup C false resolve g p ok text E). destruct ok.
  - destruct text as [|c text].
    + cbn [snd]. split; [|split]; [split; discriminate| |auto]. split; auto.
    + destruct (PublicKey_Parse_fine C (c :: text) p) as [X|X]; rewrite X.
      * split; [|split]; [split; discriminate| |auto]. split; [discriminate|]. intros [_ [Y|Y]]; congruence.
      * split; [|split]; [split; discriminate| |auto]. split; [|auto]. intros _. split; auto. right. discriminate.
  - cbn [snd]. split; [|split]; [split; auto| |auto]. split; [discriminate|]. intros [X _]. discriminate.
Qed.

(** ** The words for the classes *)
Lemma result_words c : getAuthenticationResult (PermanentError c) = getAuthenticationResult (TemporaryError c) /\
  getAuthenticationResult (PermanentError c) =
    Some (match c with AR_NONE => str "none" | AR_PASS => str "pass" | AR_FAIL => str "fail" | AR_POLICY => str "policy" | AR_NEUTRAL => str "neutral"
          | AR_TEMPERROR => str "temperror" | AR_PERMERROR => str "permerror" end).
Proof. destruct c; split; reflexivity. Qed.
Lemma check_undefined C strict now h e0 g e1 pre b post : Signature_Parse C strict now h (new_signature, e0) = ((g, e1), Ok tt) -> small_field h ->
  tag_at (str "b") (skipn (h_voff h) (h_text h)) pre b post ->
  forall st r p0 p v k, PublicKey_Parse C st r p0 = (p, Ok tt) ->
  (CheckSignature C false h g p v = UB k <->
   k = UB_oob_read /\ (sg_alg g = ED25519 /\ length (sg_b g) < 63) /\ permits p g /\ exists d, authenticated h g v pre post d).
Proof. intros P SF TA st r p0 p v k PK. apply (check_class C strict now h e0 g e1 pre b post P SF TA st r p0 p v PK). Qed.
