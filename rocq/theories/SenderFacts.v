(** The digest that signing uses and the name that verifying looks up: proofs. *)
From Verif Require Import Bytes Outcome Stream Base64 Tokenizer BytesFacts TagList MailParser Canonicalization Util Crypto Signature PublicKey SignatoryOptions Signatory
  Validatory SpecText SpecTags SpecMail SpecCanon SpecVerify SpecSig SpecKey SpecOptions SpecSign SpecFields TagListFacts MailFacts BodyFacts BodyProps SelectFacts SigFacts VerifyFacts VerifyProps SigProps OptionsFacts SignText SignRound
  SignProps FieldsProps VerifyExamples SignExamples MoreFacts Examples.
Local Open Scope string_scope.
Local Open Scope list_scope.

(** ** The digest *)
Lemma op_digest C x o : x <> SetDigestAlgorithm SHA1 -> o_digest o = SHA256 -> o_digest (fst (run_op C x o)) = SHA256.
Proof.
  intros K E. destruct x; try exact E.
  - cbn [run_op]. destruct (run_sig_op C m (o_main o)). exact E.
  - cbn [run_op]. destruct (nth_error (o_more o) n) as [s0|]; [destruct (run_sig_op C m s0)|]; exact E.
  - cbn [run_op fst o_digest]. destruct a; [congruence|reflexivity].
Qed.
Lemma ops_digest C l : (forall x, In x l -> x <> SetDigestAlgorithm SHA1) -> forall o, o_digest o = SHA256 -> o_digest (run_ops C l o) = SHA256.
Proof.
  induction l as [|x l IH]; intros K o E; [exact E|]. cbn [run_ops]. apply IH; [intros; apply K; right; auto|]. apply op_digest; auto. apply K. left. reflexivity.
Qed.
Lemma fields_sha256 C strict clock l t y H m s : let o := run_ops C l new_options in
  (forall x, In x l -> x <> SetDigestAlgorithm SHA1) -> signs_something C -> parse_all new_message (open_str t) = Ok (m, s) ->
  CreateSignature C strict clock o (new_signatory (open_str t)) = (y, Ok H) ->
  (o_arc o <> 0%N -> o_identity o = []) -> Forall signable_name (listed_names h_name o (m_headers m)) ->
  exists fields, H = joined fields /\ length fields = length (all_signatures o) /\
  Forall (fun x => exists tags, field_tags (header_of x) tags /\ (has tags "a" (str "rsa-sha256") \/ has tags "a" (str "ed25519-sha256"))) fields.
Proof.
  intros o NS SG PA CS AI SN. pose proof (plain_history C l AI) as SO. fold o in SO. destruct (message_body_exists t) as (b & MB).
  destruct (fields_say C strict clock o t y H m s b (out_fun (is_relaxed (o_cbody o)) (canon_list (is_relaxed (o_cbody o)) b))) as (fields & E & L & K); auto.
  { apply canonical_out. reflexivity. }
  exists fields. split; auto. split; auto. apply Forall_forall. intros x I. apply In_nth_error in I as (i & NX).
  assert (exists q, nth_error (rev (all_signatures o)) i = Some q) as (q & NQ).
  { assert (B : i < length fields) by (apply nth_error_Some; congruence). rewrite L, <- rev_length in B. apply nth_error_Some in B.
    destruct (nth_error (rev (all_signatures o)) i) as [q|]; [eauto|congruence]. }
  destruct (K i q x NQ NX) as (tags & d & z & FT & _ & _ & SY). exists tags. split; auto.
  pose proof (sy_a _ _ _ _ _ _ _ SY) as HV. unfold o in HV at 1. rewrite ops_digest in HV; auto. destruct (so_alg (o_main o)); auto.
Qed.
Lemma sha1_accepted : exists H tags, sign toy (with_rsa [SetDigestAlgorithm SHA1]) letter = Ok H /\ field_tags (header_of H) tags /\ has tags "a" (str "rsa-sha1") /\
  accepts toy true V_DKIM 6%Z (H ++ CRLF ++ letter) 0 rsa_pub = Ok tt.
Proof.
  destruct (sign toy (with_rsa [SetDigestAlgorithm SHA1]) letter) as [H| | |] eqn:E; [|vm_compute in E; discriminate..].
  vm_compute in E. apply Ok_inj in E. subst H.
  do 2 eexists. split; [reflexivity|]. split; [apply field_tags_nv; [apply Nat.leb_le; vm_compute; reflexivity|vm_compute; reflexivity]|].
  split; [vm_compute; auto 20|]. vm_compute. reflexivity.
Qed.

(** ** The name looked up *)
Lemma looked_up C strict now h e0 g e1 : Signature_Parse C strict now h (new_signature, e0) = ((g, e1), Ok tt) ->
  exists l d s, field_tags h l /\ has l "d" d /\ has l "s" s /\
  forall resolve resolve' p, resolve (s ++ str "._domainkey." ++ map low d) = resolve' (s ++ str "._domainkey." ++ map low d) ->
    GetPublicKey C strict resolve g p = GetPublicKey C strict resolve' g p.
Proof.
  intros E. destruct (parse_mandatory _ _ _ _ _ _ _ E) as (l & FT & (d & HD & ED) & HS & _).
  exists l, d, (sg_selector g). repeat (split; [assumption|]). intros r r' p Q. apply GetPublicKey_one_query. rewrite ED. exact Q.
Qed.
Lemma blank_domain : exists h l g, field_tags h l /\ has l "d" (esc "ex \r\n ample.org") /\ Signature_Parse toy true 1 h (new_signature, false) = ((g, false), Ok tt) /\
  key_query g = esc "s1._domainkey.ex \r\n ample.org".
Proof.
  exists (mkHeader (esc "DKIM-Signature") (esc "DKIM-Signature: v=1; a=rsa-sha256; d=ex \r\n ample.org; s=s1; h=From; bh=QUJD; b=QUJD") 15). do 2 eexists. split; [apply field_tags_nv; [apply Nat.leb_le; vm_compute; reflexivity|vm_compute; reflexivity]|].
  split; [vm_compute; auto 20|]. split; vm_compute; reflexivity.
Qed.
Lemma other_selector : exists h l g, field_tags h l /\ has l "s" (esc "a.b,*/c") /\ Signature_Parse toy true 1 h (new_signature, false) = ((g, false), Ok tt) /\
  key_query g = esc "a.b,*/c._domainkey.ex.org".
Proof.
  exists (mkHeader (esc "DKIM-Signature") (empty_tag "ex.org" "a.b,*/c") 15). do 2 eexists. split; [apply field_tags_nv; [apply Nat.leb_le; vm_compute; reflexivity|vm_compute; reflexivity]|].
  split; [vm_compute; auto 20|]. split; vm_compute; reflexivity.
Qed.
