(** Concrete options and messages for the examples beside the signing theorems, and the option
    sets whose signatures do not verify. *)
From Verif Require Import Bytes Outcome Stream Tokenizer Base64 TagList MailParser Canonicalization Util CStdlib Crypto Signature PublicKey
  SignatoryOptions Signatory Validatory SpecText SpecTags SpecMail SpecCanon SpecVerify SpecSig SpecOptions SpecSign BytesFacts MailFacts SelectFacts TagListFacts SigProps VerifyFacts VerifyProps
  OptionsFacts SignRound SignProps VerifyExamples Examples.

(** The calls a verifier makes for the [i]-th signature, with the key record data [p]. *)
Definition accepts (C : crypto) (strict : bool) (ty : validator_type) (now : Z) (t : bytes) (i : nat) (p : public_key) : outcome unit :=
  let* v := new_validatory strict ty (open_str t) in
  match nth_error (v_sigs v) i with
  | None => perm
  | Some h => let '(v1, st, r) := GetSignature C strict now h (new_signature, false) v in
              let* _ := r in CheckSignature C strict h (fst st) p v1
  end.
Definition sign (C : crypto) (o : options) (t : bytes) : outcome bytes :=
  snd (CreateSignature C true (fun _ => 5%Z) o (new_signatory (open_str t))).

Definition rsa_calls : list op :=
  [OnMain (SetPrivateKey (esc "S0VZ")); OnMain (SetDomain (esc "ex.org")); OnMain (SetSelector (esc "s1"))].
Definition ed_calls : list op :=
  [OnMain (SetSignatureAlgorithm ED25519); OnMain (SetPrivateKey ed_key); OnMain (SetDomain (esc "ex.org")); OnMain (SetSelector (esc "s1"))].
Definition with_rsa (l : list op) : options := run_ops toy (rsa_calls ++ l) new_options.
Definition with_ed (l : list op) : options := run_ops toy (ed_calls ++ l) new_options.
Definition rsa_pub : public_key := fst (PublicKey_Parse toy true rsa_record new_public_key).
Definition ed_pub : public_key := fst (PublicKey_Parse toy true ed_record new_public_key).
Definition letter : bytes := esc "From: a@ex.org\r\nSubject: x\r\n\r\nhi\r\n".

Lemma pad_length n s : length (pad n s) = n.
Proof. unfold pad. rewrite firstn_length, app_length, repeat_length. lia. Qed.
Lemma toy_signs : signs_something toy.
Proof.
  split; [intros a md k x [= <-]; discriminate|]. intros md k x [= <-] E. apply (f_equal (@length ascii)) in E.
  rewrite app_length, !pad_length in E. discriminate.
Qed.
Lemma toy_rsa_serves o s : so_alg s = RSA -> so_rsa s = Some (esc "KEY") -> serves toy o s rsa_pub.
Proof.
  intros A K. constructor.
  - rewrite A. vm_compute. reflexivity.
  - left. vm_compute. reflexivity.
  - intros F. vm_compute in F. contradiction.
  - rewrite A. exists (esc "KEY"), (esc "KEY"). split; [exact K|]. split; [vm_compute; reflexivity|]. intros md x [= <-]. split; [discriminate|]. apply beqb_refl.
Qed.
Lemma toy_ed_serves o s : so_alg s = ED25519 -> so_ed s = ed_key ++ ed_key -> serves toy o s ed_pub.
Proof.
  intros A K. constructor.
  - rewrite A. vm_compute. reflexivity.
  - left. vm_compute. reflexivity.
  - intros F. vm_compute in F. contradiction.
  - rewrite A, K. split; [vm_compute; reflexivity|]. split; [vm_compute; reflexivity|]. intros md x [= <-]. split; [|apply beqb_refl].
    rewrite app_length, !pad_length. reflexivity.
Qed.
Lemma is_dotted d : ValidateDomain d = Ok true -> dotted d.
Proof. intros E. destruct (ValidateDomain_spec d) as (b & E' & I). apply I. congruence. Qed.
Lemma is_signable n : negb (beqb n []) && forallb (fun c => negb (c =?c COLON) && negb (c =?c SEMI) && (32 <? code c)%N && (code c <? 127)%N) n = true -> signable_name n.
Proof.
  rewrite andb_true_iff, forallb_forall. intros [A B]. 
  assert (K : Forall (fun c => c <> COLON /\ value_byte c /\ ~ WSP c) n).
  { apply Forall_forall. intros c I. apply B in I. rewrite !andb_true_iff, !negb_true_iff in I. destruct I as (((I1 & I2) & I3) & I4).
    apply ceqb_neq in I1, I2. apply N.ltb_lt in I3, I4. split; auto. split.
    - unfold value_byte, printable, between. split; [lia|auto].
    - intros [->| ->]; vm_compute in I3; discriminate. }
  split; [intros ->; discriminate|]. split.
  - split; [destruct K as [|c n (_ & _ & W) _]; cbn; auto|]. apply Forall_rev in K. unfold last_ok. destruct K as [|c r (_ & _ & W) _]; cbn; auto.
  - eapply Forall_impl; [|exact K]. intros c (X & Y & _). auto.
Qed.

(** The hypotheses of the round trip hold for these options and this message. *)
Definition full : options := with_rsa [SetOversignHeaders [esc "from"; esc "x-missing"]; SetSignBodyLength 3; SetTimestamp (-1); SetExpiration 10 false;
  SetIdentity (esc "me@sub.ex.org"); SetCanonModeHeader RELAXED; SetCanonModeBody RELAXED; SetDigestAlgorithm SHA1;
  AddAdditionalSignature; OnMore 0 (SetPrivateKey (esc "S0VZ")); OnMore 0 (SetDomain (esc "ex.org")); OnMore 0 (SetSelector (esc "s2"))].
Lemma one_sound dom sel o s : so_domain s = dom -> so_selector s = sel -> ValidateDomain dom = Ok true -> ValidateDomain sel = Ok true ->
  so_alg s = RSA -> so_alg (o_main o) = RSA -> o_arc o = 0%N ->
  (o_identity o = [] \/ exists loc d p, o_identity o = loc ++ AT :: d /\ ~ In AT loc /\ map low d = p ++ DOT :: map low dom /\ forallb (fun c => (code c <? 128)%N) d = true) ->
  (o_bodylen o < 100)%N -> sound_options true o s.
Proof.
  intros D S V1 V2 A AM AR I B. constructor.
  - rewrite D. apply is_dotted. auto.
  - rewrite S. apply is_dotted. auto.
  - congruence.
  - congruence.
  - congruence.
  - intros N. destruct I as [I|(loc & d & p & E & NI & ED & SB)]; [congruence|]. exists loc, d. repeat split; auto.
    + right. exists p. rewrite D. auto.
    + intros _. apply Forall_forall. intros c IN. rewrite forallb_forall in SB. apply N.ltb_lt. auto.
  - intros _. lia.
Qed.
Lemma full_sound : Forall (sound_options true full) (all_signatures full).
Proof.
  assert (I : exists loc d p, o_identity full = loc ++ AT :: d /\ ~ In AT loc /\ map low d = p ++ DOT :: map low (esc "ex.org") /\
    forallb (fun c => (code c <? 128)%N) d = true).
  { exists (esc "me"), (esc "sub.ex.org"), (esc "sub"). split; [vm_compute; reflexivity|]. split; [|split; vm_compute; reflexivity].
    vm_compute. intuition discriminate. }
  change (all_signatures full) with (o_main full :: [nth 0 (o_more full) new_sig_options]).
  repeat apply Forall_cons; [| |apply Forall_nil]; (eapply (one_sound (esc "ex.org")); [vm_compute; reflexivity|reflexivity|vm_compute; reflexivity|vm_compute; reflexivity|
    vm_compute; reflexivity|vm_compute; reflexivity|vm_compute; reflexivity|right; exact I|vm_compute; reflexivity]).
Qed.
Definition letter_fields : list header :=
  match parse_all new_message (open_str letter) with Ok (m, _) => m_headers m | _ => [] end.
Lemma letter_fields_are : letter_fields = [mkHeader (esc "From") (esc "From: a@ex.org") 5; mkHeader (esc "Subject") (esc "Subject: x") 8].
Proof. vm_compute. reflexivity. Qed.
Lemma full_fields : sound_fields h_name full letter_fields.
Proof.
  rewrite letter_fields_are. constructor.
  - intros h [<-|[<-|[]]] _; apply is_signable; vm_compute; reflexivity.
  - change (o_oversign full) with [esc "from"; esc "x-missing"].
    intros n [<-|[<-|[]]]; (split; [apply is_signable; vm_compute; reflexivity|]; split; [vm_compute; reflexivity|]).
    + intros h [<-|[<-|[]]] S; [|vm_compute in S; discriminate]. apply choice_chosen. vm_compute. reflexivity.
    + intros h [<-|[<-|[]]] S; vm_compute in S; discriminate.
  - right. exists (esc "from"). split; [left; reflexivity|vm_compute; reflexivity].
Qed.
Lemma letter_parsed : exists m s, parse_all new_message (open_str letter) = Ok (m, s) /\ m_headers m = letter_fields.
Proof. do 2 eexists. split; vm_compute; reflexivity. Qed.
Lemma letter_start : ~ starts_wsp letter.
Proof. intros (c & r & E & W). apply (f_equal (firstn 1)) in E. vm_compute in E. injection E as <-. destruct W as [W|W]; vm_compute in W; discriminate. Qed.
Lemma full_hypotheses : exists y H m s, ~ starts_wsp letter /\ parse_all new_message (open_str letter) = Ok (m, s) /\
  CreateSignature toy true (fun _ => 5%Z) full (new_signatory (open_str letter)) = (y, Ok H) /\
  Forall (sound_options true full) (all_signatures full) /\ sound_fields h_name full (m_headers m) /\
  (forall q, In q (all_signatures full) -> serves toy full q rsa_pub).
Proof.
  destruct letter_parsed as (m & s & P & HM).
  do 2 eexists. exists m, s. split; [exact letter_start|]. split; [exact P|]. split; [vm_compute; reflexivity|]. split; [exact full_sound|].
  split; [rewrite HM; exact full_fields|]. change (all_signatures full) with (o_main full :: [nth 0 (o_more full) new_sig_options]).
  intros q [<-|[<-|[]]]; apply toy_rsa_serves; vm_compute; reflexivity.
Qed.
Definition signed_by (C : crypto) (o : options) (t : bytes) (ty : validator_type) (i : nat) (p : public_key) : outcome unit :=
  let* H := sign C o t in accepts C true ty 6%Z (H ++ CRLF ++ t) i p.
Example full_verifies : signed_by toy full letter V_DKIM 0 rsa_pub = Ok tt /\ signed_by toy full letter V_DKIM 1 rsa_pub = Ok tt.
Proof. split; vm_compute; reflexivity. Qed.
Example ed_verifies : signed_by toy (with_ed []) letter V_DKIM 0 ed_pub = Ok tt.
Proof. vm_compute. reflexivity. Qed.
Example arc_verifies : signed_by toy (with_rsa [SetARCInstance 3; SetHeaders []; AddHeaders [esc "FROM"]]) letter V_ARC 0 rsa_pub = Ok tt.
Proof. vm_compute. reflexivity. Qed.

(** Signatures returned that do not verify although the key belongs to them. *)
Definition unverifiable (o : options) (t : bytes) (ty : validator_type) (i : nat) (p : public_key) : Prop :=
  (exists H, sign toy o t = Ok H /\ accepts toy true ty 6%Z (H ++ CRLF ++ t) i p <> Ok tt) /\
  exists q, nth_error (rev (all_signatures o)) i = Some q /\ serves toy o q p.
Ltac bad_rsa := split; [eexists; split; [vm_compute; reflexivity|vm_compute; discriminate]|
  eexists; split; [vm_compute; reflexivity|apply toy_rsa_serves; vm_compute; reflexivity]].
Ltac bad_ed := split; [eexists; split; [vm_compute; reflexivity|vm_compute; discriminate]|
  eexists; split; [vm_compute; reflexivity|apply toy_ed_serves; vm_compute; reflexivity]].
(** A message that begins with whitespace. *)
Lemma bad_start : unverifiable (with_rsa []) (esc " x\r\n" ++ letter) V_DKIM 0 rsa_pub.
Proof. bad_rsa. Qed.
(** An oversigned name of a field that is not signed. *)
Lemma bad_oversign : unverifiable (with_rsa [SetHeaders [esc "from"]; SetOversignHeaders [esc "subject"]]) letter V_DKIM 0 rsa_pub.
Proof. bad_rsa. Qed.
(** The name of the signature field oversigned. *)
Lemma bad_oversign_own : unverifiable (with_rsa [SetOversignHeaders [esc "dkim-signature"]]) letter V_DKIM 0 rsa_pub.
Proof. bad_rsa. Qed.
(** ARC with an identity. *)
Lemma bad_arc_identity : unverifiable (with_rsa [SetARCInstance 1; SetIdentity (esc "@ex.org")]) letter V_ARC 0 rsa_pub.
Proof. bad_rsa. Qed.
(** An additional signature with the other algorithm. *)
Definition mixed : options := with_rsa [AddAdditionalSignature; OnMore 0 (SetSignatureAlgorithm ED25519); OnMore 0 (SetPrivateKey ed_key);
  OnMore 0 (SetDomain (esc "ex.org")); OnMore 0 (SetSelector (esc "s2"))].
Lemma bad_mixed : unverifiable mixed letter V_DKIM 0 ed_pub.
Proof. bad_ed. Qed.
(** Ed25519 with SHA-1. *)
Lemma bad_ed_sha1 : unverifiable (with_ed [SetDigestAlgorithm SHA1]) letter V_DKIM 0 ed_pub.
Proof. bad_ed. Qed.
(** A field name with a semicolon. *)
Lemma bad_name : unverifiable (with_rsa [SetHeaders []]) (esc "X;y: 1\r\n" ++ letter) V_DKIM 0 rsa_pub.
Proof. bad_rsa. Qed.
(** From not signed. *)
Lemma bad_no_from : unverifiable (with_rsa [SetHeaders [esc "subject"]]) letter V_DKIM 0 rsa_pub.
Proof. bad_rsa. Qed.
(** An identity outside the domain. *)
Lemma bad_identity : unverifiable (with_rsa [SetIdentity (esc "a@other.org")]) letter V_DKIM 0 rsa_pub.
Proof. bad_rsa. Qed.
(** Without a domain the signature verifies all the same. *)
Example no_domain : signed_by toy (run_ops toy [OnMain (SetPrivateKey (esc "S0VZ")); OnMain (SetSelector (esc "s1"))] new_options) letter V_DKIM 0 rsa_pub = Ok tt.
Proof. vm_compute. reflexivity. Qed.

(** The names in h= of what is produced. *)
Definition announced (o : options) (t : bytes) (names : list bytes) : Prop :=
  exists H tags v, sign toy o t = Ok H /\ field_tags (header_of H) tags /\ has tags "h" v /\ ValueList v = Ok names.
Ltac announce := do 3 eexists; split; [vm_compute; reflexivity|]; split; [apply field_tags_nv; [apply Nat.leb_le; vm_compute; reflexivity|vm_compute; reflexivity]|];
  split; [vm_compute; auto 20|vm_compute; reflexivity].
(** "From" removed, but the default list has "from". *)
Lemma removed_other_case : announced (with_rsa [DelHeaders [esc "From"]]) letter [esc "subject"; esc "from"].
Proof. announce. Qed.
(** All names removed: everything is signed. *)
Lemma removed_all : announced (with_rsa [DelHeaders usual_headers]) letter [esc "subject"; esc "from"].
Proof. announce. Qed.
Lemma removed_case : announced (with_rsa [DelHeaders [esc "subject"]]) letter [esc "from"].
Proof. announce. Qed.

(** The first field produced by [mixed] is an Ed25519 signature and says rsa-sha256. *)
Lemma wrong_algorithm : exists o t H h tags q, sign toy o t = Ok H /\
  (exists v, new_validatory true V_DKIM (open_str (H ++ CRLF ++ t)) = Ok v /\ nth_error (v_sigs v) 0 = Some h) /\
  nth_error (rev (all_signatures o)) 0 = Some q /\ so_alg q = ED25519 /\ field_tags h tags /\ has tags "a" (str "rsa-sha256").
Proof.
  exists mixed, letter. do 4 eexists. split; [vm_compute; reflexivity|]. split; [eexists; split; vm_compute; reflexivity|].
  split; [vm_compute; reflexivity|]. split; [vm_compute; reflexivity|].
  split; [apply field_tags_nv; [apply Nat.leb_le; vm_compute; reflexivity|vm_compute; reflexivity]|]. vm_compute. auto 20.
Qed.

(** The second call signs another body. *)
Definition twice (o : options) (t : bytes) : outcome bytes * outcome bytes :=
  let '(y, r) := CreateSignature toy true (fun _ => 5%Z) o (new_signatory (open_str t)) in
  (r, snd (CreateSignature toy true (fun _ => 5%Z) o y)).
Lemma second_differs : exists o t H1 H2, twice o t = (Ok H1, Ok H2) /\ H1 <> H2.
Proof. exists (with_rsa []), letter. do 2 eexists. split; [vm_compute; reflexivity|]. discriminate. Qed.
(** Without an empty line the last field is there twice in the second call. *)
Lemma second_twice : exists o t H1 H2, twice o t = (Ok H1, Ok H2) /\ H1 <> H2 /\ message_body t [].
Proof.
  exists (with_rsa []), (esc "From: a@ex.org\r\n"). do 2 eexists. split; [vm_compute; reflexivity|]. split; [discriminate|].
  destruct (message_body_exists (esc "From: a@ex.org\r\n")) as (b & M). replace [] with b; auto.
  destruct (parse_all new_message (open_str (esc "From: a@ex.org\r\n"))) as [[m s]| | |] eqn:P; try (vm_compute in P; discriminate).
  pose proof (message_body_at _ _ _ _ (open_str (esc "From: a@ex.org\r\n")) M P eq_refl) as BA. vm_compute in P. injection P as <- <-.
  destruct BA as [[_ E]|(p & _ & E)]; [exact E|]. cbn [m_offset] in E. lia.
Qed.
