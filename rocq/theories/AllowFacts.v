(** C34: which signatures a key record is used for. *)
From Verif Require Import Bytes Outcome Stream Tokenizer Base64 TagList MailParser Canonicalization Util Crypto Signature
  PublicKey Validatory BytesFacts SpecText SpecMail SpecTags SpecCanon SpecVerify SpecSig SpecKey SpecAllows
  ListFacts TagListFacts SigFacts KeyFacts VerifyFacts VerifyProps ListWide KeyExact Examples VerifyExamples.

Lemma digests_of_In vs ds : digests_of vs ds -> forall d, In d ds <-> In (digest_name d) vs.
Proof.
  induction 1 as [|e vs ds D IH|x vs ds N D IH]; intros d; [reflexivity| |]; cbn [In]; rewrite IH.
  - split; (intros [E|I]; [left|right; exact I]); [now rewrite E|]. destruct d, e; reflexivity || discriminate.
  - split; [now right|]. intros [E|I]; [destruct (N d E)|exact I].
Qed.
Lemma list_wide_fun vs vs' t : list_wide vs t -> list_wide vs' t -> vs = vs'.
Proof. intros A B. apply ValueList_wide in A, B. rewrite A in B. now injection B. Qed.

Lemma record_permits C strict r l p : record_tags r l -> PublicKey_Parse C strict r new_public_key = (p, Ok tt) ->
  forall g, key_allows g p = true <-> record_allows l g.
Proof.
  intros R P g. destruct (key_record _ _ _ _ _ R P) as (_ & Kh & Kk & _ & Kt). destruct R as [_ ND].
  unfold key_allows, record_allows. rewrite !andb_true_iff, and_assoc.
  assert (A : (match pk_digests p with [] => true | ds => existsb (digest_eqb (sg_digest g)) ds end = true) <->
    (forall hv vs d, has l "h" hv -> list_wide vs hv -> In (digest_name d) vs -> In (digest_name (sg_digest g)) vs)).
  { destruct Kh as [[L E]|(hv & vs & H & _ & V & E)].
    - rewrite E. split; [|reflexivity]. intros _ hv vs d H. destruct (has_lacks _ _ _ H L).
    - apply ValueList_wide in V. rewrite E. destruct (known_digests vs) as [|x ds] eqn:K.
      + split; [|reflexivity]. intros _ hv' vs' d H' V' I. rewrite <- (has_fun _ _ _ _ ND H H') in V'.
        rewrite <- (list_wide_fun _ _ _ V V') in I. apply known_digests_In in I. rewrite K in I. destruct I.
      + rewrite existsb_exists, <- K. split.
        * intros (y & I & Y) hv' vs' d H' V' _. apply digest_eqb_eq in Y. rewrite <- Y in I.
          rewrite <- (has_fun _ _ _ _ ND H H') in V'. rewrite <- (list_wide_fun _ _ _ V V'). apply known_digests_In. exact I.
        * intros F. assert (X : In x (known_digests vs)) by (rewrite K; now left). exists (sg_digest g). split; [|now apply digest_eqb_eq].
          apply known_digests_In. apply (F hv vs x H V). apply known_digests_In. exact X. }
  assert (B : sig_alg_eqb (sg_alg g) (pk_alg p) = true <-> key_type l (sg_alg g)).
  { split; [intros E; replace (sg_alg g) with (pk_alg p); [exact Kk|destruct (sg_alg g), (pk_alg p); reflexivity || discriminate]|].
    intros KT. destruct KT as [[L E]|H], Kk as [[L' E']|H'].
    - rewrite E, E'. reflexivity.
    - destruct (has_lacks _ _ _ H' L).
    - destruct (has_lacks _ _ _ H L').
    - pose proof (has_fun _ _ _ _ ND H H') as X. destruct (sg_alg g), (pk_alg p); reflexivity || discriminate. }
  assert (D : sg_arc g || negb (memb (str "s") (pk_flags p)) || beqb (sg_domain g) (sg_mdomain g) = true <->
    (forall tv vs, has l "t" tv -> list_wide vs tv -> In (str "s") vs -> sg_arc g = true \/ sg_mdomain g = sg_domain g)).
  { rewrite !orb_true_iff, negb_true_iff. destruct Kt as [[L E]|(tv & H & V)].
    - rewrite E. split; [|intros _; left; right; reflexivity]. intros _ tv vs H. destruct (has_lacks _ _ _ H L).
    - apply ValueList_wide in V. split.
      + intros O tv' vs' H' V' I. rewrite <- (has_fun _ _ _ _ ND H H') in V'. rewrite <- (list_wide_fun _ _ _ V V') in I.
        apply memb_In in I. destruct O as [[O|O]|O]; [left; exact O|congruence|right]. destruct (beqb_spec (sg_domain g) (sg_mdomain g)); congruence.
      + intros F. destruct (memb (str "s") (pk_flags p)) eqn:M; [|left; right; reflexivity]. apply memb_In in M.
        destruct (F tv _ H V M) as [O|O]; [left; left; exact O|right]. rewrite O. apply beqb_refl. }
  rewrite A, B, D. reflexivity.
Qed.
Lemma key_restricts C strict r l p : record_tags r l -> PublicKey_Parse C strict r new_public_key = (p, Ok tt) ->
  forall st h g v, (record_allows l g -> CheckSignature C st h g p v = CheckSignature C st h g (unrestricted p) v) /\
  (~ record_allows l g -> CheckSignature C st h g p v = Throw (PermanentError AR_PERMERROR)).
Proof.
  intros R P st h g v. pose proof (record_permits C strict r l p R P g) as K. split.
  - intros A. apply K in A. unfold CheckSignature. rewrite A.
    assert (U : key_allows g (unrestricted p) = true).
    { unfold key_allows in *. apply andb_true_iff in A as [A _]. apply andb_true_iff in A as [_ A]. cbn. rewrite A, orb_true_r. reflexivity. }
    rewrite U. reflexivity.
  - intros N. unfold CheckSignature. destruct (key_allows g p); [destruct N; now apply K|reflexivity].
Qed.
(** A restriction, and one that is none. *)
Lemma allows_cases : exists l1 l2 p1 p2 g,
  record_tags (esc "h=sha1; p=S0VZ") l1 /\ PublicKey_Parse toy true (esc "h=sha1; p=S0VZ") new_public_key = (p1, Ok tt) /\ ~ record_allows l1 g /\
  record_tags (esc "h=sha512; p=S0VZ") l2 /\ PublicKey_Parse toy true (esc "h=sha512; p=S0VZ") new_public_key = (p2, Ok tt) /\ record_allows l2 g.
Proof.
  assert (A : record_tags (esc "h=sha1; p=S0VZ") (nv (fst (TagList_Parse [] (esc "h=sha1; p=S0VZ"))))) by (apply record_nv; vm_compute; reflexivity).
  assert (B : record_tags (esc "h=sha512; p=S0VZ") (nv (fst (TagList_Parse [] (esc "h=sha512; p=S0VZ"))))) by (apply record_nv; vm_compute; reflexivity).
  exists (nv (fst (TagList_Parse [] (esc "h=sha1; p=S0VZ")))), (nv (fst (TagList_Parse [] (esc "h=sha512; p=S0VZ")))),
    (fst (PublicKey_Parse toy true (esc "h=sha1; p=S0VZ") new_public_key)), (fst (PublicKey_Parse toy true (esc "h=sha512; p=S0VZ") new_public_key)), new_signature.
  assert (P1 : PublicKey_Parse toy true (esc "h=sha1; p=S0VZ") new_public_key = (fst (PublicKey_Parse toy true (esc "h=sha1; p=S0VZ") new_public_key), Ok tt)) by (vm_compute; reflexivity).
  assert (P2 : PublicKey_Parse toy true (esc "h=sha512; p=S0VZ") new_public_key = (fst (PublicKey_Parse toy true (esc "h=sha512; p=S0VZ") new_public_key), Ok tt)) by (vm_compute; reflexivity).
  split; [exact A|]. split; [exact P1|]. split; [|split; [exact B|split; [exact P2|]]].
  - intros N. apply (record_permits _ _ _ _ _ A P1) in N. vm_compute in N. discriminate.
  - apply (record_permits _ _ _ _ _ B P2). vm_compute. reflexivity.
Qed.
