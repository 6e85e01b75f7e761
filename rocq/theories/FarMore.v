(** C103: every end of CheckSignature, for fields of any length. *)
From Verif Require Import Bytes Outcome Stream Tokenizer Base64 TagList MailParser Canonicalization Util Crypto Signature
  PublicKey Validatory BytesFacts SpecText SpecMail SpecCanon SpecTags SpecVerify SpecSig SpecKey
  HeaderFacts HeaderProps SelectFacts TagListFacts SigFacts SigProps KeyFacts VerifyFacts VerifyProps ResultClass SpecFar FarFacts SpecChecked.

Lemma forms_map mode (hs : list header) outs : forms mode (map h_text hs) outs <-> Forall2 (canon_of false mode) hs outs.
Proof.
  unfold forms. revert outs. induction hs as [|a hs IH]; intros outs; cbn [map].
  - split; intros F; inversion F; constructor.
  - split; intros F; inversion F; subst; constructor; auto; now apply IH.
Qed.
Lemma forms_fun mode ts o1 : forms mode ts o1 -> forall o2, forms mode ts o2 -> o1 = o2.
Proof. unfold forms. induction 1 as [|t o ts os E F IH]; intros o2 G; inversion G; subst; auto. f_equal; [congruence|auto]. Qed.
Lemma checked_fun C h g p v pre b o o' : checked C h g p v pre b o -> checked C h g p v pre b o' -> o = o'.
Proof.
  assert (SA : forall md, short_ed g -> ~ accepted C g p md).
  { intros md [S1 S2] A. unfold accepted in A. rewrite S1 in A. lia. }
  intros [N|P N|outs P F L|outs P F L N|outs x q P F L E D] [N'|P' N'|outs' P' F' L'|outs' P' F' L' N'|outs' x' q' P' F' L' E' D'];
    try reflexivity; try contradiction; try lia; try (exfalso; apply N; eauto; fail); try (exfalso; apply N'; eauto; fail).
  rewrite <- (forms_fun _ _ _ F _ F') in D'. rewrite E in E'. injection E' as <-.
  destruct D as [[S ->]|[(S & A & ->)|(A & ->)]], D' as [[S' ->]|[(S' & A' & ->)|(A' & ->)]]; try reflexivity; try contradiction; exfalso; eapply SA; eauto.
Qed.
Lemma far_exact C strict now h e0 g e1 pre b post : Signature_Parse C strict now h (new_signature, e0) = ((g, e1), Ok tt) ->
  tag_at (str "b") (skipn (h_voff h) (h_text h)) pre b post -> forall st r p0 p v, PublicKey_Parse C st r p0 = (p, Ok tt) ->
  forall o, CheckSignature C false h g p v = o <-> checked C h g p v pre b o.
Proof.
  intros P TA st r p0 p v PK.
  assert (X : checked C h g p v pre b (CheckSignature C false h g p v)).
  { destruct (far_entry _ _ _ _ _ _ _ _ _ _ P TA) as [L G]. unfold CheckSignature. destruct (key_allows g p) eqn:KA.
    2: { apply ck_key. intros PM. apply allows_permits in PM. congruence. }
    assert (PM := proj1 (allows_permits _ _) KA). pose proof (allows_key _ _ KA (PublicKey_has _ _ _ _ _ PK)) as MK.
    unfold signed_data. destruct (build_cache_lookup (m_headers (v_msg v)) []) as (c & B & _). rewrite B. cbn [obind].
    pose proof (hash_selection (sg_chead g) (m_headers (v_msg v)) (sg_headers g) [] c (cache_start _ _ B)) as HS.
    assert (SS : substr_from (h_text h) (h_voff h) = Ok (skipn (h_voff h) (h_text h))).
    { unfold substr_from. destruct (Nat.leb_spec (h_voff h) (length (h_text h))); [reflexivity|lia]. }
    rewrite SS. cbn [obind]. rewrite (far_strip g _ pre b post (proj1 TA) G).
    destruct (hash_headers_total (sg_chead g) (sg_headers g) c) as [(d & E)|E]; rewrite E; cbn [obind].
    2: { apply ck_fields; [exact PM|]. intros (outs & F). apply forms_map in F. rewrite (proj2 (HS (with_crlf outs))) in E by eauto. discriminate E. }
    destruct (proj1 (HS d) E) as (outs & F & ->). apply forms_map in F.
    destruct (Z.ltb_spec (int_place pre) 2147483648) as [LT|LT]; cbn [obind]; [|exact (ck_place _ _ _ _ _ _ _ outs PM F LT)].
    fold (own_field h pre b). destruct (FilterHeader_total (sg_chead g) (own_field h pre b)) as [Y|(x & Y)]; rewrite Y; cbn [obind].
    - apply (ck_own _ _ _ _ _ _ _ outs PM F LT). intros (x & Z). rewrite Y in Z. discriminate Z.
    - apply (ck_data _ _ _ _ _ _ _ outs x _ PM F LT Y).
      destruct (verify_digest_cases C g p (digest C (sg_digest g) (with_crlf outs ++ x)) MK) as [[W A]|[(W & A & S)|(W & S)]]; rewrite W; auto. }
  intros o. split; [now intros <-|]. intros Y. exact (checked_fun _ _ _ _ _ _ _ _ _ X Y).
Qed.
