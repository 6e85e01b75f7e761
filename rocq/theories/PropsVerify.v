(** Properties C26-C28, C34-C37, C45, C46, C48: verification.
    [strict] is the reading of ISO C in which tolower and isspace of a negative char are
    undefined; [C] are the cryptographic primitives. *)
From Verif Require Import Bytes Outcome Stream Tokenizer Base64 TagList MailParser Canonicalization Util Crypto Signature
  PublicKey Validatory SpecText SpecMail SpecTags SpecCanon SpecVerify SpecSig SpecKey BodyFacts BodyProps HeaderFacts SelectFacts SigFacts VerifyFacts KeyFacts
  VerifyProps KeyExact ResultClass Examples VerifyExamples.

(** C27.  [pre], [b] and [post] are the parts of the field value before, in and after b=. *)
Theorem C27_position : forall C strict now h e0 g e1,
  Signature_Parse C strict now h (new_signature, e0) = ((g, e1), Ok tt) ->
  (exists pre b post, tag_at (str "b") (skipn (h_voff h) (h_text h)) pre b post /\ b <> []) /\
  forall pre b post pre' b' post', tag_at (str "b") (skipn (h_voff h) (h_text h)) pre b post -> b <> [] ->
    tag_at (str "b") (skipn (h_voff h) (h_text h)) pre' b' post' -> pre = pre' /\ b = b' /\ post = post'.
Proof. exact b_position. Qed.
Print Assumptions C27_position.
Theorem C27_only_b : forall C strict now h e0 g e1 pre b post,
  Signature_Parse C strict now h (new_signature, e0) = ((g, e1), Ok tt) -> small_field h ->
  tag_at (str "b") (skipn (h_voff h) (h_text h)) pre b post ->
  b <> [] /\ sg_b g = b64d C (unspaced b) /\
  forall st v d, signed_data st h g v = Ok d -> exists outs x,
    Forall2 (fun f out => FilterHeader false (sg_chead g) (h_text f) = Ok out)
      (selection h_name (m_headers (v_msg v)) [] (sg_headers g)) outs /\
    FilterHeader false (sg_chead g) (firstn (h_voff h) (h_text h) ++ pre ++ post) = Ok x /\ d = with_crlf outs ++ x.
Proof. exact b_only. Qed.
Print Assumptions C27_only_b.
Example C27_case : exists g v, Signature_Parse toy true 1 (sample_header "rsa-sha256" rsa_b) (new_signature, false) = ((g, false), Ok tt) /\
  new_validatory true V_DKIM (open_str (sample_message "rsa-sha256" rsa_b)) = Ok v /\
  small_field (sample_header "rsa-sha256" rsa_b) /\
  signed_data true (sample_header "rsa-sha256" rsa_b) g v = Ok (sample_from ++ CRLF ++ sample_open "rsa-sha256" ++ esc " ; z=1").
Proof. do 2 eexists. split; [vm_compute; reflexivity|]. split; [vm_compute; reflexivity|]. vm_compute. split; reflexivity. Qed.

(** C26.  [accepted]: the primitive accepts the signature data over the digest.
    [authenticated h g v pre post d]: [d] is what should be signed. *)
Theorem C26_iff : forall C strict now h e0 g e1 pre b post,
  Signature_Parse C strict now h (new_signature, e0) = ((g, e1), Ok tt) -> small_field h ->
  tag_at (str "b") (skipn (h_voff h) (h_text h)) pre b post ->
  forall st r p0 p v, PublicKey_Parse C st r p0 = (p, Ok tt) ->
  (CheckSignature C false h g p v = Ok tt <->
   permits p g /\ exists d, authenticated h g v pre post d /\ accepted C g p (digest C (sg_digest g) d)).
Proof. exact check_permits. Qed.
Print Assumptions C26_iff.
Theorem C26_strict : forall C strict h g p v, CheckSignature C strict h g p v = Ok tt -> CheckSignature C false h g p v = Ok tt.
Proof. exact CheckSignature_strict. Qed.
Print Assumptions C26_strict.
(** The same in terms of canonical forms only, for a field of the message. *)
Theorem C26_announced : forall ty strict t v h g pre b post d,
  new_validatory strict ty (open_str t) = Ok v -> In h (m_headers (v_msg v)) -> h_voff h <= length (h_text h) ->
  tag_at (str "b") (skipn (h_voff h) (h_text h)) pre b post -> b <> [] -> authenticated h g v pre post d ->
  exists outs x,
    Forall2 (fun f out => field_form (is_relaxed (sg_chead g)) (h_text f) out)
      (selection h_name (m_headers (v_msg v)) [] (sg_headers g)) outs /\
    field_form (is_relaxed (sg_chead g)) (firstn (h_voff h) (h_text h) ++ pre ++ post) x /\ d = with_crlf outs ++ x.
Proof. exact authenticated_form. Qed.
Print Assumptions C26_announced.
(** How it can end otherwise.  The last case is C48's. *)
Theorem C26_otherwise_partial : forall C strict now h e0 g e1,
  Signature_Parse C strict now h (new_signature, e0) = ((g, e1), Ok tt) -> small_field h ->
  forall v p, has_key p ->
  CheckSignature C false h g p v = Ok tt \/
  CheckSignature C false h g p v = Throw (PermanentError AR_PERMERROR) \/
  CheckSignature C false h g p v = Throw (PermanentError AR_FAIL) \/
  (CheckSignature C false h g p v = UB UB_oob_read /\ short_ed g).
Proof. exact CheckSignature_ends. Qed.
Print Assumptions C26_otherwise_partial.
Example C26_case : verify toy true (sample_message "rsa-sha256" rsa_b) rsa_record = Ok tt /\
  verify toy true (sample_message "ed25519-sha256" (Base64_Encode ed_sig)) ed_record = Ok tt.
Proof. split; vm_compute; reflexivity. Qed.
(** Bytes behind the first 64 of an Ed25519 signature are not looked at. *)
Theorem C26_ed_trailing_refuted : exists b, length b > 64 /\
  verify toy true (sample_message "ed25519-sha256" (Base64_Encode b)) ed_record = Ok tt.
Proof. exists (ed_sig ++ esc "more"). split; vm_compute; [repeat constructor|reflexivity]. Qed.
Print Assumptions C26_ed_trailing_refuted.

(** C28. *)
Theorem C28_body_hash : forall C strict ty t v g b out, in_use strict ty t v -> message_body t b ->
  canonical_body (is_relaxed (sg_cbody g)) b out ->
  (snd (CheckBodyHash C g v) = Ok tt <-> sg_bh g = digest C (sg_digest g) (cut (sg_limit g) (sg_size g) out)) /\
  (snd (CheckBodyHash C g v) <> Ok tt -> snd (CheckBodyHash C g v) = Throw (PermanentError AR_FAIL)).
Proof. exact CheckBodyHash_iff. Qed.
Print Assumptions C28_body_hash.
Theorem C28_get_signature : forall C strict ty t v now h st st1 b out,
  new_validatory strict ty (open_str t) = Ok v -> message_body t b ->
  Signature_Parse C strict now h st = (st1, Ok tt) -> canonical_body (is_relaxed (sg_cbody (fst st1))) b out ->
  snd (fst (GetSignature C strict now h st v)) = st1 /\
  (snd (GetSignature C strict now h st v) = Ok tt <->
   sg_bh (fst st1) = digest C (sg_digest (fst st1)) (cut (sg_limit (fst st1)) (sg_size (fst st1)) out)) /\
  (snd (GetSignature C strict now h st v) <> Ok tt -> snd (GetSignature C strict now h st v) = Throw (PermanentError AR_FAIL)).
Proof. exact get_signature_iff. Qed.
Print Assumptions C28_get_signature.
Theorem C28_parse_failure : forall C strict ty t v now h st st1 e, new_validatory strict ty (open_str t) = Ok v ->
  Signature_Parse C strict now h st = (st1, e) -> e <> Ok tt -> snd (GetSignature C strict now h st v) = e.
Proof. exact get_signature_parse. Qed.
Print Assumptions C28_parse_failure.
(** Every message has exactly one body and every body exactly one canonical form. *)
Theorem C28_one_body : forall t, exists b, message_body t b /\ forall b', message_body t b' -> b' = b.
Proof.
  exact (fun t => match message_body_exists t with ex_intro _ b B => ex_intro _ b (conj B (fun b' B' => message_body_unique t b' b B' B)) end).
Qed.
Print Assumptions C28_one_body.
Example C28_case : message_body (esc "A: b\r\n\r\nhi\r\n") (esc "hi\r\n") /\
  exists v, new_validatory true V_NONE (open_str (esc "A: b\r\n\r\nhi\r\n")) = Ok v.
Proof.
  split; [|eexists; vm_compute; reflexivity].
  apply (mb_blank [esc "A: b"] (esc "A: b\r\n") CRLF (esc "hi\r\n")).
  - apply (hb_cons (esc "A: b") CRLF [] []); [discriminate| |constructor|constructor]. vm_compute. intuition discriminate.
  - constructor.
Qed.

(** C34.  [record_tags r l]: [l] are the tags of the key record [r].  h= is enforced as soon as it
    lists one known hash. *)
Theorem C34_record : forall C strict r l, record_tags r l -> forall p,
  (exists tags, PublicKey_Parse C strict r new_public_key = (kset_tags tags p, Ok tt)) <-> key_says C l p.
Proof. exact key_record_says. Qed.
Print Assumptions C34_record.
(** The same with the lists h=, s= and t= described by [list_text], for a record in which every
    CRLF is followed by WSP. *)
Theorem C34_record_text : forall C strict r l, record_tags r l -> folds_only r -> forall p,
  (exists tags, PublicKey_Parse C strict r new_public_key = (kset_tags tags p, Ok tt)) <->
  (lacks l "v" \/ has l "v" (str "DKIM1")) /\
  (lacks l "h" /\ pk_digests p = [] \/ exists hv vs, has l "h" hv /\ hv <> [] /\ list_text vs hv /\ digests_of vs (pk_digests p)) /\
  key_type l (pk_alg p) /\
  (exists pv, has l "p" pv /\ pv <> [] /\
     match pk_alg p with
     | RSA => pk_ed p = [] /\ exists k, c_d2i_pubkey C (b64d C (unspaced pv)) = Some (Some k) /\ pk_rsa p = Some k
     | ED25519 => pk_rsa p = None /\ pk_ed p = b64d C (unspaced pv) /\ length (pk_ed p) = 32
     end) /\
  (lacks l "s" /\ pk_service p = [] \/ exists sv vs, has l "s" sv /\ sv <> [] /\ list_text vs sv /\ services_of vs (pk_service p)) /\
  (lacks l "t" /\ pk_flags p = [] \/ exists tv, has l "t" tv /\ list_text (pk_flags p) tv).
Proof. exact key_record_text. Qed.
Print Assumptions C34_record_text.
Theorem C34_testing : forall p, SoftFail p = true <-> In (str "y") (pk_flags p).
Proof. exact SoftFail_iff. Qed.
Print Assumptions C34_testing.
Theorem C34_refused : forall C r l, record_tags r l ->
  lacks l "p" \/ has l "p" [] \/ (exists v, has l "v" v /\ v <> str "DKIM1") \/
  (exists k, has l "k" k /\ forall a, k <> alg_name a) \/ has l "h" [] ->
  snd (PublicKey_Parse C false r new_public_key) = Throw (PermanentError AR_PERMERROR).
Proof. exact PublicKey_refused. Qed.
Print Assumptions C34_refused.
Theorem C34_hash_partial : forall C strict r p l hv vs st h g v,
  record_tags r l -> PublicKey_Parse C strict r new_public_key = (p, Ok tt) ->
  has l "h" hv -> list_wide vs hv -> ~ In (digest_name (sg_digest g)) vs -> (exists d, In (digest_name d) vs) ->
  CheckSignature C st h g p v = Throw (PermanentError AR_PERMERROR).
Proof. exact key_hash_refused. Qed.
Print Assumptions C34_hash_partial.
Theorem C34_algorithm : forall C strict r p l a st h g v,
  record_tags r l -> PublicKey_Parse C strict r new_public_key = (p, Ok tt) ->
  key_type l a -> sg_alg g <> a -> CheckSignature C st h g p v = Throw (PermanentError AR_PERMERROR).
Proof. exact key_type_refused. Qed.
Print Assumptions C34_algorithm.
Theorem C34_same_domain : forall C strict r p l tv vs st h g v,
  record_tags r l -> PublicKey_Parse C strict r new_public_key = (p, Ok tt) ->
  has l "t" tv -> list_wide vs tv -> In (str "s") vs -> sg_arc g = false -> sg_mdomain g <> sg_domain g ->
  CheckSignature C st h g p v = Throw (PermanentError AR_PERMERROR).
Proof. exact key_strict_refused. Qed.
Print Assumptions C34_same_domain.
(** A record that allows only a hash unknown to the library is used for any hash. *)
Theorem C34_hash_refuted : exists t r l hv vs, record_tags r l /\ has l "h" hv /\ list_wide vs hv /\
  ~ In (str "sha256") vs /\ verify toy true t r = Ok tt.
Proof. exact unknown_hash. Qed.
Print Assumptions C34_hash_refuted.
Example C34_case : verify toy true (sample_message "rsa-sha256" rsa_b) (esc "h=sha1; p=S0VZ") = perm /\
  verify toy true (sample_message "rsa-sha256" rsa_b) ed_record = perm /\
  verify toy true (sample_message "rsa-sha256" rsa_b) (esc "t=s; p=S0VZ") = perm /\
  verify toy true (sample_message "rsa-sha256" rsa_b) (esc "t=y; h=sha1:sha256; k=rsa; p=S0VZ") = Ok tt /\
  verify toy true (sample_message "rsa-sha256" rsa_b) (esc "p=") = perm.
Proof. vm_compute. repeat split. Qed.

(** C35. *)
Theorem C35_listed : forall strict ty t v, new_validatory strict ty (open_str t) = Ok v ->
  exists m s, parse_all new_message (open_str t) = Ok (m, s) /\ v_msg v = m /\ contents (v_file v) = t /\
    v_sigs v = filter (fun h => match ty with
                                | V_DKIM => same_name (h_name h) (str "DKIM-Signature")
                                | V_ARC => same_name (h_name h) (str "ARC-Message-Signature")
                                | V_NONE => false
                                end) (m_headers m).
Proof. exact listed. Qed.
Print Assumptions C35_listed.
Theorem C35_total : forall strict ty t,
  (strict = true -> forall m s, parse_all new_message (open_str t) = Ok (m, s) -> ty <> V_NONE ->
     Forall (fun h => existsb is_8bit (h_name h) = false) (m_headers m)) ->
  exists v, new_validatory strict ty (open_str t) = Ok v.
Proof. exact new_validatory_total. Qed.
Print Assumptions C35_total.
Example C35_case : exists v, new_validatory true V_ARC (open_str (esc "arc-message-Signature: x\r\nA: b\r\nARC-Message-Signature : y\r\n\r\n")) = Ok v /\
  map h_text (v_sigs v) = [esc "arc-message-Signature: x"; esc "ARC-Message-Signature : y"].
Proof. eexists. vm_compute. split; reflexivity. Qed.

(** C36.  [dkim_end]: returns, PermanentError or TemporaryError (or the undefined tolower of the
    strict reading).  What is missing: [short_ed], C48. *)
Theorem C36_dkim_errors_partial : forall C strict ty t v h, new_validatory strict ty (open_str t) = Ok v -> In h (m_headers (v_msg v)) ->
  (Z.of_nat (length (h_text h)) < 2147483648)%Z ->
  (forall now st, dkim_end strict (snd (GetSignature C strict now h st v))) /\
  (forall resolve g p, (exists r, resolve (sg_selector g ++ str "._domainkey." ++ sg_domain g) = Ok r) ->
     dkim_end strict (snd (GetPublicKey C strict resolve g p))) /\
  (forall now e0 g e1 r p0 p, Signature_Parse C strict now h (new_signature, e0) = ((g, e1), Ok tt) ->
     PublicKey_Parse C strict r p0 = (p, Ok tt) -> ~ short_ed g -> dkim_end strict (CheckSignature C strict h g p v)).
Proof. exact failures. Qed.
Print Assumptions C36_dkim_errors_partial.
Example C36_case : verify toy true (esc "DKIM-Signature") [] = perm /\ verify toy false (esc ":\f\r\n\r\n") [] = perm /\
  (Z.of_nat (length (h_text (sample_header "rsa-sha256" rsa_b))) < 2147483648)%Z.
Proof. vm_compute. repeat split. Qed.
(** With an Ed25519 signature that is too short the process reads out of bounds. *)
Theorem C36_short_ed_refuted : exists t r, verify toy true t r = UB UB_oob_read.
Proof. exists (sample_message "ed25519-sha256" (esc "QUJD")), ed_record. vm_compute. reflexivity. Qed.
Print Assumptions C36_short_ed_refuted.

(** C37.  [resolve] gives success and the text. *)
Theorem C37_lookup : forall C strict resolve g p ok text,
  resolve (sg_selector g ++ str "._domainkey." ++ sg_domain g) = Ok (ok, text) ->
  GetPublicKey C strict resolve g p =
    (if ok then match text with [] => (p, Throw (PermanentError AR_PERMERROR)) | _ => PublicKey_Parse C strict text p end
     else (p, Throw (TemporaryError AR_TEMPERROR))).
Proof. exact GetPublicKey_lookup. Qed.
Print Assumptions C37_lookup.
Theorem C37_only_query : forall C strict resolve resolve' g p,
  resolve (sg_selector g ++ str "._domainkey." ++ sg_domain g) = resolve' (sg_selector g ++ str "._domainkey." ++ sg_domain g) ->
  GetPublicKey C strict resolve g p = GetPublicKey C strict resolve' g p.
Proof. exact GetPublicKey_one_query. Qed.
Print Assumptions C37_only_query.
Example C37_case : exists g, Signature_Parse toy true 1 (sample_header "rsa-sha256" rsa_b) (new_signature, false) = ((g, false), Ok tt) /\
  snd (GetPublicKey toy true (fun q => Ok (beqb q (esc "s1._domainkey.ex.org"), rsa_record)) g new_public_key) = Ok tt /\
  snd (GetPublicKey toy true (fun q => Ok (false, [])) g new_public_key) = Throw (TemporaryError AR_TEMPERROR).
Proof. eexists. split; [vm_compute; reflexivity|]. vm_compute. split; reflexivity. Qed.

(** C45.  Each call comes with the errno it finds; answers include the errno it leaves. *)
Theorem C45_repeatable_partial : forall C strict ty t cs v0, new_validatory strict ty (open_str t) = Ok v0 ->
  session C strict cs v0 = map (fun x => snd (perform C strict (fst x) (snd x) v0)) cs.
Proof. exact session_fresh. Qed.
Print Assumptions C45_repeatable_partial.
(** A GetSignature that meets an overlong l= leaves errno behind, and a later one, whose
    signature is fine, fails: l= is refused because errno is ERANGE. *)
Theorem C45_errno_refuted : exists C t h1 h2 v g1 g2, new_validatory true V_DKIM (open_str t) = Ok v /\
  perform C true false (CallGetSignature 1 h1 new_signature) v = (v, GotSignature g1 true (Throw (PermanentError AR_PERMERROR))) /\
  (exists v', perform C true false (CallGetSignature 1 h2 new_signature) v = (v', GotSignature g2 false (Ok tt))) /\
  exists g3 o, snd (perform C true true (CallGetSignature 1 h2 new_signature) v) = GotSignature g3 true o /\ o <> Ok tt.
Proof. exact errno_order. Qed.
Print Assumptions C45_errno_refuted.
Example C45_case : exists v h, new_validatory true V_DKIM (open_str (sample_message "rsa-sha256" rsa_b)) = Ok v /\ v_sigs v = [h] /\
  exists g o, session toy true [(false, CallGetSignatures); (false, CallGetSignature 1 h new_signature); (false, CallGetSignature 1 h new_signature)] v
    = [Listed [h]; GotSignature g false o; GotSignature g false o] /\ o = Ok tt.
Proof. do 2 eexists. split; [vm_compute; reflexivity|]. split; [vm_compute; reflexivity|]. do 2 eexists. vm_compute. split; reflexivity. Qed.

(** C46.  An object after Reset is the new object, so nothing can tell them apart. *)
Theorem C46_reset : forall (g : signature) (p : public_key) (t : taglist) (m : message),
  Signature_Reset g = new_signature /\ PublicKey_Reset p = new_public_key /\ TagList_Reset t = [] /\ Message_Reset m = new_message.
Proof. exact (fun g p t m => conj eq_refl (conj eq_refl (conj eq_refl eq_refl))). Qed.
Print Assumptions C46_reset.
(** Without Reset a second Parse on the same object is refused or mixes the two: reuse needs it. *)
Example C46_case : exists g e, Signature_Parse toy true 1 (sample_header "rsa-sha256" rsa_b) (new_signature, false) = ((g, e), Ok tt) /\
  snd (Signature_Parse toy true 1 (sample_header "rsa-sha256" rsa_b) (g, e)) = perm /\
  Signature_Parse toy true 1 (sample_header "rsa-sha256" rsa_b) (Signature_Reset g, e) = ((g, e), Ok tt).
Proof. do 2 eexists. split; [vm_compute; reflexivity|]. vm_compute. split; reflexivity. Qed.

(** C48. *)
Theorem C48_in_bounds_partial : forall C strict now h e0 g e1 st r p0 p,
  Signature_Parse C strict now h (new_signature, e0) = ((g, e1), Ok tt) -> small_field h ->
  PublicKey_Parse C st r p0 = (p, Ok tt) -> forall v,
  CheckSignature C strict h g p v <> UB UB_oob_read \/ (sg_alg g = ED25519 /\ length (sg_b g) < 63).
Proof. exact in_bounds. Qed.
Print Assumptions C48_in_bounds_partial.
(** Exactly (with tolower as usual): undefined behaviour for such signatures if the key is for them and
    there is something to check. *)
Theorem C48_exact : forall C strict now h e0 g e1 pre b post,
  Signature_Parse C strict now h (new_signature, e0) = ((g, e1), Ok tt) -> small_field h ->
  tag_at (str "b") (skipn (h_voff h) (h_text h)) pre b post ->
  forall st r p0 p v k, PublicKey_Parse C st r p0 = (p, Ok tt) ->
  (CheckSignature C false h g p v = UB k <->
   k = UB_oob_read /\ (sg_alg g = ED25519 /\ length (sg_b g) < 63) /\ permits p g /\ exists d, authenticated h g v pre post d).
Proof. exact check_undefined. Qed.
Print Assumptions C48_exact.
(** Whatever the primitives do: three bytes of signature data are read as 64. *)
Theorem C48_short_ed_refuted : forall C, exists h g p v, 
  Signature_Parse C true 1 h (new_signature, false) = ((g, false), Ok tt) /\
  PublicKey_Parse C true ed_record new_public_key = (p, Ok tt) /\
  new_validatory true V_DKIM (open_str (h_text h)) = Ok v /\ v_sigs v = [h] /\
  CheckSignature C true h g p v = UB UB_oob_read.
Proof. exact short_ed_read. Qed.
Print Assumptions C48_short_ed_refuted.
Example C48_case : verify toy true (sample_message "ed25519-sha256" (Base64_Encode ed_sig)) ed_record = Ok tt.
Proof. vm_compute. reflexivity. Qed.
