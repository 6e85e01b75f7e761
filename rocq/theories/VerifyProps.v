(** Verification: what CheckSignature authenticates, how calls can end, repeatability. *)
From Verif Require Import Bytes Outcome Stream Tokenizer Base64 TagList MailParser Canonicalization Util Crypto Signature
  PublicKey Validatory BytesFacts StreamFacts SpecText SpecMail SpecCanon SpecTags SpecVerify SpecSig SpecKey
  QPFacts ListFacts MailFacts BodyFacts BodyProps HeaderFacts HeaderProps SelectFacts TagListFacts SigFacts SigProps
  KeyFacts VerifyFacts TagPosition ListWide SpecPass.

(** ** The b= value is cut out *)
Lemma parsed_b C strict now h e0 g e1 : Signature_Parse C strict now h (new_signature, e0) = ((g, e1), Ok tt) ->
  h_voff h <= length (h_text h) /\
  exists pre b post, tag_at (str "b") (skipn (h_voff h) (h_text h)) pre b post /\ b <> [] /\
    sg_b g = b64d C (unspaced b) /\ GetTag (str "b") (sg_tags g) = Some (mkEntry b (Z.of_nat (length pre))).
Proof.
  intros P. apply (proj1 (Signature_Parse_Ok _ _ _ _ _ _)) in P as (L & tags & T & K). split; auto.
  inversion K as [d a dg al b bh ch cb hv hs loc mdom inst ei size lim sel ex N8 Ed Ev Ea Av Eb Nb Ebh Kc Eh Vh Fh Ki Kl Kq Es Kx EQ]. subst g e1.
  cbn [sg_b sg_tags]. unfold V in Eb. destruct (GetTag (str "b") tags) as [e|] eqn:G; [|discriminate]. injection Eb as Eb.
  destruct (TagList_positions [] _ tags (str "b") e T eq_refl G) as (pre & post & TA & EO); [rewrite Eb; auto|].
  exists pre, b, post. rewrite Eb in TA. split; auto. split; auto. split; auto.
  destruct e as [v o]. cbn in Eb, EO. subst. reflexivity.
Qed.
Lemma to_int32_small z : (-2147483648 <= z < 2147483648)%Z -> to_int32 z = z.
Proof. intros B. unfold to_int32. rewrite Z.mod_small by lia. lia. Qed.
Definition small_field (h : header) : Prop := (Z.of_nat (length (h_text h)) < 2147483648)%Z.

Lemma erase_middle (a b c : bytes) : erase_at (a ++ b ++ c) (length a) (length b) = a ++ c.
Proof.
  unfold erase_at. rewrite firstn_app_exact. f_equal. rewrite <- app_length, app_assoc, skipn_app_exact. reflexivity.
Qed.
Lemma strip_b_at g v pre b post : v = pre ++ b ++ post -> (Z.of_nat (length v) < 2147483648)%Z ->
  GetTag (str "b") (sg_tags g) = Some (mkEntry b (Z.of_nat (length pre))) -> strip_b g v = Ok (pre ++ post).
Proof.
  intros -> B G. unfold strip_b. rewrite G. cbn [te_offset te_value]. rewrite !app_length in *.
  rewrite to_int32_small by lia. destruct (Z.ltb_spec (Z.of_nat (length pre)) 0); [lia|].
  destruct (Z.ltb_spec (Z.of_nat (length pre + (length b + length post))) (Z.of_nat (length pre))); [lia|]. cbn [orb].
  rewrite Nat2Z.id, erase_middle. reflexivity.
Qed.

(** ** What is hashed *)
Lemma signed_data_b C strict now h e0 g e1 : Signature_Parse C strict now h (new_signature, e0) = ((g, e1), Ok tt) -> small_field h ->
  exists pre b post, tag_at (str "b") (skipn (h_voff h) (h_text h)) pre b post /\ b <> [] /\ sg_b g = b64d C (unspaced b) /\
    forall st v, signed_data st h g v =
      (let* c := build_cache st (m_headers (v_msg v)) [] in
       let* d := hash_headers st (sg_chead g) (sg_headers g) c in
       let* x := FilterHeader st (sg_chead g) (firstn (h_voff h) (h_text h) ++ pre ++ post) in Ok (d ++ x)).
Proof.
  intros P SF. destruct (parsed_b _ _ _ _ _ _ _ P) as (L & pre & b & post & TA & NB & EB & G). exists pre, b, post.
  split; auto. split; auto. split; auto. intros st v. unfold signed_data.
  destruct (build_cache st _ []); cbn [obind]; auto. destruct (hash_headers st _ _ _); cbn [obind]; auto.
  unfold substr_from. destruct (Nat.leb_spec (h_voff h) (length (h_text h))); [|lia]. cbn [obind].
  rewrite (strip_b_at g _ pre b post); auto.
  - apply TA.
  - unfold small_field in SF. rewrite skipn_length. lia.
Qed.
(** the hashed data, for the given split of the signature field *)
Definition authenticated (h : header) (g : signature) (v : validatory) (pre post d : bytes) : Prop :=
  exists outs x, Forall2 (canon_of false (sg_chead g)) (selection h_name (m_headers (v_msg v)) [] (sg_headers g)) outs /\
    FilterHeader false (sg_chead g) (firstn (h_voff h) (h_text h) ++ pre ++ post) = Ok x /\ d = with_crlf outs ++ x.
Lemma signed_data_iff C strict now h e0 g e1 : Signature_Parse C strict now h (new_signature, e0) = ((g, e1), Ok tt) -> small_field h ->
  exists pre b post, tag_at (str "b") (skipn (h_voff h) (h_text h)) pre b post /\ b <> [] /\ sg_b g = b64d C (unspaced b) /\
    forall v d, signed_data false h g v = Ok d <-> authenticated h g v pre post d.
Proof.
  intros P SF. destruct (signed_data_b _ _ _ _ _ _ _ P SF) as (pre & b & post & TA & NB & EB & SD). exists pre, b, post.
  split; auto. split; auto. split; auto. intros v d. rewrite SD. unfold authenticated.
  destruct (build_cache_lookup (m_headers (v_msg v)) []) as (c & B & _). rewrite B. cbn [obind].
  pose proof (hash_selection (sg_chead g) (m_headers (v_msg v)) (sg_headers g) [] c (cache_start _ _ B)) as HS. split.
  - destruct (hash_headers false _ _ c) as [d1| | |]; cbn [obind]; try discriminate.
    destruct (FilterHeader false _ _) as [x| | |]; cbn [obind]; try discriminate. intros [= <-].
    destruct (proj1 (HS d1) eq_refl) as (outs & F & ->). exists outs, x. auto.
  - intros (outs & x & F & E & ->). rewrite (proj2 (HS (with_crlf outs))) by eauto. cbn [obind]. rewrite E. reflexivity.
Qed.

(** ** Acceptance by the primitive *)
Definition accepted (C : crypto) (g : signature) (p : public_key) (md : bytes) : Prop :=
  match sg_alg g with
  | RSA => exists k, pk_rsa p = Some k /\ c_rsa_verify C (sg_digest g) md (sg_b g) k = true
  | ED25519 => 63 <= length (sg_b g) /\ c_ed_verify C (firstn 64 (sg_b g ++ [chr 0])) md (pk_ed p) = true
  end.
Definition matching_key (g : signature) (p : public_key) : Prop :=
  match sg_alg g with RSA => exists k, pk_rsa p = Some k | ED25519 => length (pk_ed p) = 32 end.
Lemma allows_key g p : key_allows g p = true -> has_key p -> matching_key g p.
Proof.
  unfold key_allows, has_key, matching_key. intros A. apply andb_true_iff in A as [A _]. apply andb_true_iff in A as [_ A].
  destruct (sg_alg g), (pk_alg p); auto; discriminate.
Qed.
Lemma ed_read p : length p = 32 -> c_read 32 p = Ok p.
Proof.
  intros L. unfold c_read. rewrite L. cbn [Nat.leb]. f_equal. rewrite <- L at 1. apply firstn_app_exact.
Qed.
Definition short_ed (g : signature) : Prop := sg_alg g = ED25519 /\ length (sg_b g) < 63.
Lemma verify_digest_cases C g p md : matching_key g p ->
  (verify_digest C g p md = Ok tt /\ accepted C g p md) \/
  (verify_digest C g p md = perm_fail /\ ~ accepted C g p md /\ ~ short_ed g) \/
  (verify_digest C g p md = UB UB_oob_read /\ short_ed g).
Proof.
  unfold matching_key, accepted, verify_digest, short_ed. destruct (sg_alg g).
  - intros (k & E). rewrite E. destruct (c_rsa_verify C (sg_digest g) md (sg_b g) k) eqn:VR.
    + left. split; auto. eauto.
    + right. left. split; auto. split; [intros (k' & [= <-] & X); congruence|intros [X _]; discriminate].
  - intros L. rewrite (ed_read _ L). unfold c_read. destruct (Nat.leb_spec 64 (S (length (sg_b g)))) as [L2|L2]; cbn [obind].
    + destruct (c_ed_verify C _ md (pk_ed p)) eqn:VR.
      * left. split; auto. split; [lia|auto].
      * right. left. split; auto. split; [intros [_ X]; congruence|intros [_ X]; lia].
    + right. right. split; auto. split; auto. lia.
Qed.

Lemma CheckSignature_iff C strict now h e0 g e1 : Signature_Parse C strict now h (new_signature, e0) = ((g, e1), Ok tt) -> small_field h ->
  exists pre b post, tag_at (str "b") (skipn (h_voff h) (h_text h)) pre b post /\ b <> [] /\ sg_b g = b64d C (unspaced b) /\
    forall v p, has_key p ->
    (CheckSignature C false h g p v = Ok tt <->
     key_allows g p = true /\ exists d, authenticated h g v pre post d /\ accepted C g p (digest C (sg_digest g) d)).
Proof.
  intros P SF. destruct (signed_data_iff _ _ _ _ _ _ _ P SF) as (pre & b & post & TA & NB & EB & SD). exists pre, b, post.
  split; auto. split; auto. split; auto. intros v p HK. unfold CheckSignature. destruct (key_allows g p) eqn:KA.
  2:{ split; [discriminate|]. intros [X _]. discriminate. }
  pose proof (allows_key _ _ KA HK) as MK. split.
  - destruct (signed_data false h g v) as [d| | |] eqn:S; cbn [obind]; try discriminate. intros E. split; auto. exists d. apply SD in S. split; auto.
    destruct (verify_digest_cases C g p (digest C (sg_digest g) d) MK) as [(_ & A)|[(X & _)|(X & _)]]; auto; rewrite X in E; discriminate.
  - intros (_ & d & A & AC). apply SD in A. rewrite A. cbn [obind].
    destruct (verify_digest_cases C g p (digest C (sg_digest g) d) MK) as [(X & _)|[(_ & X & _)|(_ & X)]]; auto; [contradiction|].
    unfold accepted, short_ed in *. destruct X as [X1 X2]. rewrite X1 in AC. lia.
Qed.
Lemma CheckSignature_strict C strict h g p v : CheckSignature C strict h g p v = Ok tt -> CheckSignature C false h g p v = Ok tt.
Proof. intros E. destruct (CheckSignature_ctype C strict h g p v) as [X|X]; congruence. Qed.
Lemma CheckSignature_authenticates C strict now h e0 g e1 : Signature_Parse C strict now h (new_signature, e0) = ((g, e1), Ok tt) -> small_field h ->
  exists pre b post, tag_at (str "b") (skipn (h_voff h) (h_text h)) pre b post /\ b <> [] /\ sg_b g = b64d C (unspaced b) /\
    forall st st' r p0 v p, PublicKey_Parse C st' r p0 = (p, Ok tt) -> CheckSignature C st h g p v = Ok tt ->
    exists d, authenticated h g v pre post d /\ accepted C g p (digest C (sg_digest g) d).
Proof.
  intros P SF. destruct (CheckSignature_iff _ _ _ _ _ _ _ P SF) as (pre & b & post & TA & NB & EB & K). exists pre, b, post.
  split; auto. split; auto. split; auto. intros st st' r p0 v p KP CS. apply CheckSignature_strict in CS. apply PublicKey_has in KP.
  apply (proj1 (K v p KP)) in CS. tauto.
Qed.

(** ** How CheckSignature can end *)
Lemma hash_headers_total mode names : forall c, (exists d, hash_headers false mode names c = Ok d) \/ hash_headers false mode names c = perm.
Proof.
  induction names as [|n names IH]; intros c; cbn [hash_headers]; [left; eauto|]. unfold lower_str. cbn [andb obind].
  destruct (cache_pop (lower n) c) as [[h c1]|]; auto.
  destruct (FilterHeader_total mode (h_text h)) as [->|(x & ->)]; cbn [obind]; auto.
  destruct (IH c1) as [(d & ->)| ->]; cbn [obind]; eauto.
Qed.
Lemma CheckSignature_ends C strict now h e0 g e1 : Signature_Parse C strict now h (new_signature, e0) = ((g, e1), Ok tt) -> small_field h ->
  forall v p, has_key p ->
  CheckSignature C false h g p v = Ok tt \/ CheckSignature C false h g p v = perm \/ CheckSignature C false h g p v = perm_fail \/
  (CheckSignature C false h g p v = UB UB_oob_read /\ short_ed g).
Proof.
  intros P SF v p HK. destruct (signed_data_b _ _ _ _ _ _ _ P SF) as (pre & b & post & _ & _ & _ & SD).
  unfold CheckSignature. destruct (key_allows g p) eqn:KA; [|auto]. pose proof (allows_key _ _ KA HK) as MK. rewrite SD.
  destruct (build_cache_lookup (m_headers (v_msg v)) []) as (c & B & _). rewrite B. cbn [obind].
  destruct (hash_headers_total (sg_chead g) (sg_headers g) c) as [(d & ->)| ->]; cbn [obind]; auto.
  destruct (FilterHeader_total (sg_chead g) (firstn (h_voff h) (h_text h) ++ pre ++ post)) as [->|(x & ->)]; cbn [obind]; auto.
  destruct (verify_digest_cases C g p (digest C (sg_digest g) (d ++ x)) MK) as [(X & _)|[(X & _)|(X & Y)]]; rewrite X; auto.
Qed.

(** [dkim_end strict o]: the call returned or threw one of DKIM's two errors (or, in the strict
    reading, a byte above 127 reached tolower). *)
Definition dkim_end (strict : bool) (o : outcome unit) : Prop :=
  o = Ok tt \/ (exists c, o = Throw (PermanentError c)) \/ (exists c, o = Throw (TemporaryError c)) \/
  (strict = true /\ o = UB UB_ctype).
Lemma or_ctype_end strict (x y : outcome unit) : or_ctype x y -> (strict = false -> x = y) -> dkim_end false y -> dkim_end strict x.
Proof.
  intros O F E. assert (X : x = y -> dkim_end strict x).
  { intros ->. destruct E as [E|[E|[E|[E _]]]]; [left|right; left|right; right; left|discriminate]; auto. }
  destruct O as [O|O]; auto. destruct strict; auto. right. right. right. auto.
Qed.
Lemma or_ctype_st_snd {S} (x y : S * outcome unit) : or_ctype_st x y -> or_ctype (snd x) (snd y).
Proof. intros [E|E]; [left; auto|right; congruence]. Qed.

Lemma Parse_ends C strict now h st : h_voff h <= length (h_text h) -> dkim_end strict (snd (Signature_Parse C strict now h st)).
Proof.
  intros L. eapply or_ctype_end; [apply or_ctype_st_snd, Signature_Parse_ctype|intros ->; reflexivity|].
  destruct (Signature_Parse_fine C now h st L) as [E|E]; rewrite E; [left; reflexivity|right; left; eexists; reflexivity].
Qed.
Lemma GetSignature_ends C strict ty t v now h st : in_use strict ty t v -> h_voff h <= length (h_text h) ->
  dkim_end strict (snd (GetSignature C strict now h st v)).
Proof.
  intros U L. destruct (GetSignature_spec C strict ty t v now h st U) as (v' & _ & E). pose proof (Parse_ends C strict now h st L) as PE.
  destruct (Signature_Parse C strict now h st) as [st1 [[]| | |]]; rewrite E; cbn [snd]; auto.
  destruct (body_choices C strict ty t v (fst st1) U) as (out & v2 & E2 & _). rewrite E2. cbn [snd].
  destruct (hash_matches _ _ _); [left; reflexivity|right; left; eexists; reflexivity].
Qed.
Lemma GetPublicKey_ends C strict resolve g p : (exists r, resolve (key_query g) = Ok r) -> dkim_end strict (snd (GetPublicKey C strict resolve g p)).
Proof.
  intros ([ok text] & E). unfold GetPublicKey. rewrite E. cbn [slift]. destruct ok; [|right; right; left; eexists; reflexivity].
  destruct text as [|c r]; [right; left; eexists; reflexivity|].
  eapply or_ctype_end; [apply or_ctype_st_snd, PublicKey_ctype|intros ->; reflexivity|].
  destruct (PublicKey_Parse_fine C (c :: r) p) as [X|X]; rewrite X; [left; reflexivity|right; left; eexists; reflexivity].
Qed.
Lemma CheckSignature_ends_all C strict now h e0 g e1 st r p0 p : Signature_Parse C strict now h (new_signature, e0) = ((g, e1), Ok tt) -> small_field h ->
  PublicKey_Parse C st r p0 = (p, Ok tt) -> forall v,
  dkim_end strict (CheckSignature C strict h g p v) \/
  (CheckSignature C strict h g p v = UB UB_oob_read /\ sg_alg g = ED25519 /\ length (sg_b g) < 63).
Proof.
  intros P SF KP v. apply PublicKey_has in KP. pose proof (CheckSignature_ends _ _ _ _ _ _ _ P SF v p KP) as E.
  pose proof (CheckSignature_ctype C strict h g p v) as O.
  assert (F : strict = false -> CheckSignature C strict h g p v = CheckSignature C false h g p v) by (intros ->; reflexivity).
  destruct E as [E|[E|[E|[E SE]]]].
  1,2,3: left; apply (or_ctype_end strict _ _ O F); rewrite E; first [left; reflexivity|right; left; eexists; reflexivity].
  destruct O as [O|O].
  - destruct strict.
    + left. right. right. right. auto.
    + rewrite E in O. discriminate.
  - right. rewrite O. destruct SE. auto.
Qed.

(** Fields of a message: offset within the text, size. *)
Lemma message_field_ok t m s h : parse_all new_message (open_str t) = Ok (m, s) -> In h (m_headers m) ->
  h_voff h <= length (h_text h) /\ length (h_text h) <= 2 * length t.
Proof.
  intros P IN. destruct (message_fields' t) as (ls & hb & rest & m' & s' & HB & ET & P' & _ & gs & F2 & FL & SF & X).
  rewrite P in P'. injection P' as <- <-.
  assert (LL : length (with_crlf (concat gs)) <= 2 * length t + 1).
  { assert (A : forall ls h, header_block ls h -> length (with_crlf ls) <= 2 * length h).
    { induction 1 as [|l e ls0 t0 N NL LE HB0 IH]; [cbn; lia|]. rewrite with_crlf_cons. repeat rewrite app_length.
      destruct l; [congruence|]. inversion LE; subst; unfold CRLF; cbn [length] in *; lia. }
    pose proof (A _ _ HB) as A1. subst t. rewrite app_length. destruct X as [(_ & ->)|X]; [lia|].
    destruct X as (_ & l & LLn & ->). rewrite with_crlf_app, app_length. destruct LLn as (_ & LLn).
    destruct l as [|c l]; cbn [opt_line]; [change (with_crlf []) with (@nil ascii); cbn [length]; lia|].
    rewrite with_crlf_cons. change (with_crlf []) with (@nil ascii). repeat rewrite app_length. unfold CRLF. cbn [length].
    destruct LLn as [->|[-> _]]; repeat rewrite app_length; cbn [length]; lia. }
  clear X. assert (G : exists g, In g gs /\ field_of h g).
  { clear - F2 IN. induction F2 as [|a g hs gs F _ IH]; [destruct IN|]. destruct IN as [->|IN]; [exists g; cbn; auto|].
    destruct (IH IN) as (g' & I & F'). exists g'. cbn. auto. }
  destruct G as (g & IG & [TX NM]). split.
  - rewrite TX. inversion NM as [t0 NC E1 E2 E3|w1 n w2 rst NC W1 W2 TR E1 E2 E3]; [lia|]. rewrite !app_length. cbn [length]. lia.
  - rewrite TX. apply Forall_forall with (x := g) in FL; auto.
    assert (NG : g <> []) by (intros ->; exact FL). pose proof (joined_crlf g NG) as JC.
    apply in_split in IG as (g1 & g2 & ->). rewrite concat_app in LL. cbn [concat] in LL. rewrite !with_crlf_app, <- JC, !app_length in LL. unfold CRLF in LL. cbn [length] in LL. lia.
Qed.

(** ** Key records *)
Lemma V_has r tags : TagList_Parse [] r = (tags, Ok tt) -> exists l, record_tags r l /\
  (forall n v, V tags n = Some v <-> has l n v) /\ (forall n, V tags n = None <-> lacks l n).
Proof. intros P. destruct (tags_V _ _ P) as (l & R & ND & H). exists l. split; [split; auto|auto]. Qed.
Lemma record_unique r l l' : record_tags r l -> record_tags r l' -> l = l'.
Proof. intros [R _] [R' _]. eapply rendered_unique; eauto. Qed.
Lemma record_parse r l : record_tags r l -> exists tags, TagList_Parse [] r = (tags, Ok tt) /\
  (forall n v, V tags n = Some v <-> has l n v) /\ (forall n, V tags n = None <-> lacks l n).
Proof.
  intros R. destruct R as [R ND]. destruct (TagList_rendered l r R ND) as (tags & P & _). exists tags. split; auto.
  destruct (V_has r tags P) as (l' & R' & H). rewrite (record_unique r l l'); auto. split; auto.
Qed.

Lemma key_record C strict r p l : record_tags r l -> PublicKey_Parse C strict r new_public_key = (p, Ok tt) ->
  (lacks l "v" \/ has l "v" (str "DKIM1")) /\
  (lacks l "h" /\ pk_digests p = [] \/ exists hv vs, has l "h" hv /\ hv <> [] /\ ValueList hv = Ok vs /\ pk_digests p = known_digests vs) /\
  key_type l (pk_alg p) /\
  (exists pv, has l "p" pv /\ pv <> [] /\
     match pk_alg p with
     | RSA => exists k, c_d2i_pubkey C (b64d C (unspaced pv)) = Some (Some k) /\ pk_rsa p = Some k
     | ED25519 => pk_ed p = b64d C (unspaced pv) /\ length (pk_ed p) = 32
     end) /\
  (lacks l "t" /\ pk_flags p = [] \/ exists tv, has l "t" tv /\ ValueList tv = Ok (pk_flags p)).
Proof.
  intros R P. destruct (record_parse r l R) as (tags & T & HS & HN).
  apply (proj1 (PublicKey_Parse_Ok _ _ _ _)) in P as (tags' & T' & K). rewrite T in T'. injection T' as <-.
  destruct K as [ds a rsa ed sv fl pv Kv Kh Kk Ep Np Kp Ks Kt]. cbn [pk_digests pk_alg pk_rsa pk_ed pk_flags].
  split; [|split; [|split; [|split]]].
  - destruct Kv as [E|E]; [left; apply HN; auto|right; apply HS; auto].
  - destruct (V tags "h") as [hv|] eqn:E.
    + destruct Kh as (N & vs & VL & ->). right. exists hv, vs. apply HS in E. auto.
    + left. apply HN in E. auto.
  - unfold key_type. destruct (V tags "k") as [k|] eqn:E; [right; subst k; apply HS; auto|left; apply HN in E; auto].
  - exists pv. apply HS in Ep. split; auto. split; auto. destruct a.
    + destruct Kp as (_ & k & E & ->). eauto.
    + destruct Kp as (_ & -> & L). auto.
  - destruct (V tags "t") as [tv|] eqn:E; [right; exists tv; apply HS in E; auto|left; apply HN in E; auto].
Qed.

Lemma has_fun l n v v' : NoDup (map fst l) -> has l n v -> has l n v' -> v = v'.
Proof. unfold has. intros ND A B. eapply NoDup_fst_fun; eauto. Qed.
Lemma has_lacks l n v : has l n v -> lacks l n -> False.
Proof. intros A B. apply B. apply in_map_iff. exists (str n, v). auto. Qed.

Lemma PublicKey_refused C r l : record_tags r l ->
  lacks l "p" \/ has l "p" [] \/ (exists v, has l "v" v /\ v <> str "DKIM1") \/
  (exists k, has l "k" k /\ forall a, k <> alg_name a) \/ has l "h" [] ->
  snd (PublicKey_Parse C false r new_public_key) = Throw (PermanentError AR_PERMERROR).
Proof.
  intros R B. destruct (PublicKey_Parse_fine C r new_public_key) as [E|E]; auto. exfalso.
  destruct (PublicKey_Parse C false r new_public_key) as [p o] eqn:P. cbn in E. subst o.
  destruct (key_record _ _ _ _ _ R P) as (Kv & Kh & Kk & (pv & Hp & Np & _) & _). destruct R as [_ ND].
  destruct B as [B|[B|[(v & B & N)|[(k & B & N)|B]]]].
  - exact (has_lacks _ _ _ Hp B).
  - apply Np. exact (has_fun _ _ _ _ ND Hp B).
  - destruct Kv as [L|H]; [exact (has_lacks _ _ _ B L)|]. apply N. exact (has_fun _ _ _ _ ND B H).
  - destruct Kk as [[L _]|H]; [exact (has_lacks _ _ _ B L)|]. apply (N (pk_alg p)). exact (has_fun _ _ _ _ ND B H).
  - destruct Kh as [[L _]|(hv & vs & H & Nh & _)]; [exact (has_lacks _ _ _ B L)|]. apply Nh. exact (has_fun _ _ _ _ ND H B).
Qed.

Lemma known_digests_In d vs : In d (known_digests vs) <-> In (digest_name d) vs.
Proof.
  unfold known_digests. rewrite in_flat_map. split.
  - intros (a & I & J). destruct (beqb_spec a (str "sha256")) as [->|N]; [destruct J as [<-|[]]; exact I|].
    destruct (beqb_spec a (str "sha1")) as [->|N2]; [destruct J as [<-|[]]; exact I|destruct J].
  - intros I. exists (digest_name d). split; auto. destruct d; left; reflexivity.
Qed.
Lemma digest_eqb_eq a b : digest_eqb a b = true <-> a = b.
Proof. destruct a, b; cbn; split; congruence. Qed.

Lemma key_hash_refused C strict r p l hv vs st h g v : record_tags r l -> PublicKey_Parse C strict r new_public_key = (p, Ok tt) ->
  has l "h" hv -> list_wide vs hv -> ~ In (digest_name (sg_digest g)) vs -> (exists d, In (digest_name d) vs) ->
  CheckSignature C st h g p v = Throw (PermanentError AR_PERMERROR).
Proof.
  intros R P H VL NI (d & ID). apply ValueList_wide in VL. destruct (key_record _ _ _ _ _ R P) as (_ & Kh & _). destruct R as [_ ND].
  destruct Kh as [[L _]|(hv' & vs' & H' & _ & VL' & E)]; [exfalso; exact (has_lacks _ _ _ H L)|].
  rewrite <- (has_fun _ _ _ _ ND H H'), VL in VL'. injection VL' as <-.
  unfold CheckSignature, key_allows. apply known_digests_In in ID. rewrite <- E in ID. destruct (pk_digests p) as [|x ds] eqn:PD; [destruct ID|].
  assert (X : existsb (digest_eqb (sg_digest g)) (x :: ds) = false).
  { destruct (existsb _ _) eqn:EX; auto. apply existsb_exists in EX as (y & IY & EY). apply digest_eqb_eq in EY. subst y.
    rewrite E in IY. apply known_digests_In in IY. contradiction. }
  rewrite X. reflexivity.
Qed.
Lemma key_type_refused C strict r p l a st h g v : record_tags r l -> PublicKey_Parse C strict r new_public_key = (p, Ok tt) ->
  key_type l a -> sg_alg g <> a -> CheckSignature C st h g p v = Throw (PermanentError AR_PERMERROR).
Proof.
  intros R P KT N. destruct (key_record _ _ _ _ _ R P) as (_ & _ & Kk & _). destruct R as [_ ND].
  assert (E : pk_alg p = a).
  { destruct KT as [[L ->]|H], Kk as [[L' E]|H']; auto; [exfalso; exact (has_lacks _ _ _ H' L)|exfalso; exact (has_lacks _ _ _ H L')|].
    pose proof (has_fun _ _ _ _ ND H H') as X. destruct a, (pk_alg p); auto; discriminate. }
  unfold CheckSignature, key_allows. rewrite E. destruct (sg_alg g), a; try congruence; rewrite andb_false_r; reflexivity.
Qed.
Lemma memb_In x l : memb x l = true <-> In x l.
Proof. unfold memb. rewrite existsb_exists. split; [intros (y & I & E); apply beqb_eq in E; congruence|]. intros I. exists x. rewrite beqb_refl. auto. Qed.
Lemma key_strict_refused C strict r p l tv vs st h g v : record_tags r l -> PublicKey_Parse C strict r new_public_key = (p, Ok tt) ->
  has l "t" tv -> list_wide vs tv -> In (str "s") vs -> sg_arc g = false -> sg_mdomain g <> sg_domain g ->
  CheckSignature C st h g p v = Throw (PermanentError AR_PERMERROR).
Proof.
  intros R P H VL IS AR N. apply ValueList_wide in VL. destruct (key_record _ _ _ _ _ R P) as (_ & _ & _ & _ & Kt). destruct R as [_ ND].
  destruct Kt as [[L _]|(tv' & H' & VL')]; [exfalso; exact (has_lacks _ _ _ H L)|].
  rewrite <- (has_fun _ _ _ _ ND H H'), VL in VL'. injection VL' as ->.
  unfold CheckSignature, key_allows. rewrite AR. apply memb_In in IS. rewrite IS. cbn [orb negb].
  destruct (beqb_spec (sg_domain g) (sg_mdomain g)) as [X|X]; [congruence|]. rewrite andb_false_r. reflexivity.
Qed.

(** ** Key lookup *)
Lemma GetPublicKey_lookup C strict resolve g p ok text :
  resolve (sg_selector g ++ str "._domainkey." ++ sg_domain g) = Ok (ok, text) ->
  GetPublicKey C strict resolve g p =
    (if ok then match text with [] => (p, Throw (PermanentError AR_PERMERROR)) | _ => PublicKey_Parse C strict text p end
     else (p, Throw (TemporaryError AR_TEMPERROR))).
Proof. intros E. unfold GetPublicKey, key_query. rewrite E. reflexivity. Qed.
Lemma GetPublicKey_one_query C strict resolve resolve' g p :
  resolve (sg_selector g ++ str "._domainkey." ++ sg_domain g) = resolve' (sg_selector g ++ str "._domainkey." ++ sg_domain g) ->
  GetPublicKey C strict resolve g p = GetPublicKey C strict resolve' g p.
Proof. intros E. unfold GetPublicKey, key_query. rewrite E. reflexivity. Qed.

(** ** Sequences of calls *)
Inductive call :=
| CallGetSignature (now : Z) (h : header) (g : signature)
| CallCheckBodyHash (g : signature)
| CallCheckSignature (h : header) (g : signature) (p : public_key)
| CallGetSignatures.
Inductive answer :=
| GotSignature (g : signature) (e : bool) (o : outcome unit)
| Returned (o : outcome unit)
| Listed (l : list header).
(** One call; [e] is whether errno is ERANGE before it. *)
Definition perform (C : crypto) (strict : bool) (e : bool) (c : call) (v : validatory) : validatory * answer :=
  match c with
  | CallGetSignature now h g => let '(v1, st1, o) := GetSignature C strict now h (g, e) v in (v1, GotSignature (fst st1) (snd st1) o)
  | CallCheckBodyHash g => let '(v1, o) := CheckBodyHash C g v in (v1, Returned o)
  | CallCheckSignature h g p => (v, Returned (CheckSignature C strict h g p v))
  | CallGetSignatures => (v, Listed (v_sigs v))
  end.
Fixpoint session (C : crypto) (strict : bool) (cs : list (bool * call)) (v : validatory) : list answer :=
  match cs with
  | [] => []
  | (e, c) :: r => let '(v1, a) := perform C strict e c v in a :: session C strict r v1
  end.

Lemma perform_same C strict ty t e c v v0 : in_use strict ty t v -> new_validatory strict ty (open_str t) = Ok v0 ->
  snd (perform C strict e c v) = snd (perform C strict e c v0) /\ in_use strict ty t (fst (perform C strict e c v)).
Proof.
  intros U N0. pose proof (in_use_fresh _ _ _ _ N0) as U0.
  assert (BH : forall g, snd (CheckBodyHash C g v) = snd (CheckBodyHash C g v0)).
  { intros g. destruct (message_body_exists t) as (b & MB). destruct (canonical_exists (is_relaxed (sg_cbody g)) b) as (out & CB).
    destruct (CheckBodyHash_spec C _ _ _ _ g b out U MB CB) as (v1 & E1 & _).
    destruct (CheckBodyHash_spec C _ _ _ _ g b out U0 MB CB) as (v2 & E2 & _). rewrite E1, E2. reflexivity. }
  assert (EMS : v_msg v = v_msg v0 /\ v_sigs v = v_sigs v0).
  { destruct U as (v1 & N1 & EM & ES & _). rewrite N0 in N1. injection N1 as <-. auto. }
  destruct c as [now h g|g|h g p|]; cbn [perform].
  - destruct (GetSignature_spec C strict ty t v now h (g, e) U) as (v1 & U1 & E1).
    destruct (GetSignature_spec C strict ty t v0 now h (g, e) U0) as (v2 & U2 & E2).
    destruct (Signature_Parse C strict now h (g, e)) as [st1 [[]| | |]]; rewrite E1, E2; cbn [fst snd]; rewrite ?BH; auto.
  - destruct (body_choices C strict ty t v g U) as (out & v1 & E1 & U1). specialize (BH g).
    destruct (CheckBodyHash C g v) as [w1 o1]. destruct (CheckBodyHash C g v0) as [w2 o2]. cbn [fst snd] in *. injection E1 as -> ->.
    split; [congruence|auto].
  - destruct EMS as [EM _]. cbn [fst snd]. unfold CheckSignature, signed_data. rewrite EM. auto.
  - destruct EMS as [_ ES]. cbn [fst snd]. rewrite ES. auto.
Qed.
Lemma session_same C strict ty t cs : forall v v0, in_use strict ty t v -> new_validatory strict ty (open_str t) = Ok v0 ->
  session C strict cs v = map (fun x => snd (perform C strict (fst x) (snd x) v0)) cs.
Proof.
  induction cs as [|[e c] cs IH]; intros v v0 U N0; [reflexivity|]. cbn [session map fst snd].
  destruct (perform_same C strict ty t e c v v0 U N0) as [E U']. destruct (perform C strict e c v) as [v1 a]. cbn [fst snd] in *.
  f_equal; auto.
Qed.
Lemma session_fresh C strict ty t cs v0 : new_validatory strict ty (open_str t) = Ok v0 ->
  session C strict cs v0 = map (fun x => snd (perform C strict (fst x) (snd x) v0)) cs.
Proof. intros N0. apply (session_same C strict ty t); auto. apply in_use_fresh. auto. Qed.

(** ** The b= value, by its position in the field *)
Lemma b_position C strict now h e0 g e1 : Signature_Parse C strict now h (new_signature, e0) = ((g, e1), Ok tt) ->
  (exists pre b post, tag_at (str "b") (skipn (h_voff h) (h_text h)) pre b post /\ b <> []) /\
  forall pre b post pre' b' post', tag_at (str "b") (skipn (h_voff h) (h_text h)) pre b post -> b <> [] ->
    tag_at (str "b") (skipn (h_voff h) (h_text h)) pre' b' post' -> pre = pre' /\ b = b' /\ post = post'.
Proof.
  intros P. destruct (parsed_b _ _ _ _ _ _ _ P) as (_ & pre & b & post & TA & NB & _). split; [exists pre, b, post; auto|].
  apply (proj1 (Signature_Parse_Ok _ _ _ _ _ _)) in P as (L & tags & T & _).
  destruct (V_has _ _ T) as (l & [R ND] & _). intros pre1 b1 post1 pre2 b2 post2 T1 N1 T2.
  apply (tag_at_unique l _ (str "b") _ _ _ _ _ _ R ND); auto. split; [discriminate|].
  constructor; [|constructor]. right. left. split; vm_compute; discriminate.
Qed.
Lemma b_only C strict now h e0 g e1 pre b post : Signature_Parse C strict now h (new_signature, e0) = ((g, e1), Ok tt) -> small_field h ->
  tag_at (str "b") (skipn (h_voff h) (h_text h)) pre b post ->
  b <> [] /\ sg_b g = b64d C (unspaced b) /\
  forall st v d, signed_data st h g v = Ok d -> exists outs x,
    Forall2 (canon_of false (sg_chead g)) (selection h_name (m_headers (v_msg v)) [] (sg_headers g)) outs /\
    FilterHeader false (sg_chead g) (firstn (h_voff h) (h_text h) ++ pre ++ post) = Ok x /\ d = with_crlf outs ++ x.
Proof.
  intros P SF TA. destruct (signed_data_iff _ _ _ _ _ _ _ P SF) as (pre' & b' & post' & TA' & NB & EB & SD).
  destruct (b_position _ _ _ _ _ _ _ P) as [_ U]. destruct (U _ _ _ _ _ _ TA' NB TA) as (-> & -> & ->).
  split; auto. split; auto. intros st v d E.
  assert (E' : signed_data false h g v = Ok d).
  { destruct (signed_data_ctype st h g v) as [X|X]; congruence. }
  apply SD in E'. exact E'.
Qed.
Lemma check_iff C strict now h e0 g e1 pre b post : Signature_Parse C strict now h (new_signature, e0) = ((g, e1), Ok tt) -> small_field h ->
  tag_at (str "b") (skipn (h_voff h) (h_text h)) pre b post ->
  forall st r p0 p v, PublicKey_Parse C st r p0 = (p, Ok tt) ->
  (CheckSignature C false h g p v = Ok tt <->
   key_allows g p = true /\ exists d, authenticated h g v pre post d /\ accepted C g p (digest C (sg_digest g) d)).
Proof.
  intros P SF TA. destruct (CheckSignature_iff _ _ _ _ _ _ _ P SF) as (pre' & b' & post' & TA' & NB & EB & K).
  destruct (b_position _ _ _ _ _ _ _ P) as [_ U]. destruct (U _ _ _ _ _ _ TA' NB TA) as (-> & -> & ->).
  intros st r p0 p v KP. apply K. eapply PublicKey_has; eauto.
Qed.

(** ** In terms of the canonical forms only *)
Lemma lf_folds_cut x pre v post : lf_folds (x ++ pre ++ v ++ post) -> v <> [] -> first_ok (fun c => ~ WSP c) v -> lf_folds (x ++ pre ++ post).
Proof.
  intros L NV FO. rewrite app_assoc in *. set (y := x ++ pre) in *. intros a b E.
  destruct (app_split _ _ _ _ E) as [(l & EY & E')|(l & EA & E')].
  - destruct l as [|c l].
    + cbn in E'. subst post. destruct (L (y ++ v) b) as (c & r & EB & W); [rewrite <- app_assoc; reflexivity|eauto].
    + injection E' as <- ->. destruct (L a (l ++ v ++ post)) as (c & r & EB & W); [rewrite EY, <- app_assoc; reflexivity|].
      destruct l as [|c0 l]; [|injection EB as <- _; exists c0, (l ++ post); auto].
      destruct v as [|c0 v]; [congruence|]. injection EB as <- _. cbn in FO. contradiction.
  - subst post. destruct (L (y ++ v ++ l) b) as (c & r & EB & W); [rewrite <- !app_assoc; reflexivity|eauto].
Qed.
Lemma canon_form mode t out : crlf_folds t -> FilterHeader false mode t = Ok out -> field_form (is_relaxed mode) t out.
Proof.
  intros CF E. destruct mode; cbn [is_relaxed field_form].
  - rewrite FilterHeader_simple in E. congruence.
  - destruct (FilterHeader_shape t CF) as [P|(o & P & K)]; rewrite E in P; [discriminate|]. injection P as <-. exact K.
Qed.
Lemma selection_In {A} (name : A -> bytes) hs names : forall before x, In x (selection name hs before names) -> In x hs.
Proof.
  induction names as [|n names IH]; intros before x K; [destruct K|]. cbn [selection] in K. apply in_app_or in K as [K|K]; eauto.
  unfold kth_last in K. destruct (nth_error _ _) eqn:E; [|destruct K]. destruct K as [<-|[]]. apply nth_error_In in E.
  apply in_rev, filter_In in E. tauto.
Qed.
Lemma authenticated_form ty strict t v h g pre b post d : new_validatory strict ty (open_str t) = Ok v -> In h (m_headers (v_msg v)) ->
  h_voff h <= length (h_text h) ->
  tag_at (str "b") (skipn (h_voff h) (h_text h)) pre b post -> b <> [] -> authenticated h g v pre post d ->
  exists outs x,
    Forall2 (fun f out => field_form (is_relaxed (sg_chead g)) (h_text f) out) (selection h_name (m_headers (v_msg v)) [] (sg_headers g)) outs /\
    field_form (is_relaxed (sg_chead g)) (firstn (h_voff h) (h_text h) ++ pre ++ post) x /\ d = with_crlf outs ++ x.
Proof.
  intros NV IN L TA NB (outs & x & F & E & ->). apply new_validatory_spec in NV as (m & s & P & M & _). rewrite M in *.
  destruct (message_texts _ _ _ P) as [TX _]. rewrite Forall_forall in TX. exists outs, x. split; [|split; auto].
  - assert (SI : forall f, In f (selection h_name (m_headers m) [] (sg_headers g)) -> crlf_folds (h_text f)).
    { intros f K. apply selection_In in K. apply lf_crlf_folds. apply TX. auto. }
    clear - F SI. induction F as [|f o fs os FO F IH]; constructor.
    + apply canon_form; [apply SI; left; auto|exact FO].
    + apply IH. intros f' K. apply SI. right. auto.
  - apply canon_form; auto. apply lf_crlf_folds. destruct (TX h IN) as [LF _]. destruct TA as (ET & (_ & FO & _) & _).
    apply lf_folds_cut with (v := b); auto.
    + rewrite <- ET, firstn_skipn. exact LF.
    + destruct b as [|c b]; [exact I|]. cbn in *. destruct FO as [[LO _] _]. intros [->| ->]; vm_compute in LO; congruence.
Qed.

(** ** Put together for a message *)
Lemma get_signature_iff C strict ty t v now h st st1 b out : new_validatory strict ty (open_str t) = Ok v -> message_body t b ->
  Signature_Parse C strict now h st = (st1, Ok tt) -> canonical_body (is_relaxed (sg_cbody (fst st1))) b out ->
  snd (fst (GetSignature C strict now h st v)) = st1 /\
  (snd (GetSignature C strict now h st v) = Ok tt <->
   sg_bh (fst st1) = digest C (sg_digest (fst st1)) (cut (sg_limit (fst st1)) (sg_size (fst st1)) out)) /\
  (snd (GetSignature C strict now h st v) <> Ok tt -> snd (GetSignature C strict now h st v) = perm_fail).
Proof.
  intros NV MB P CB. apply in_use_fresh in NV. destruct (GetSignature_spec C strict ty t v now h st NV) as (v' & _ & E).
  rewrite P in E. rewrite E. cbn [fst snd]. split; auto. eapply CheckBodyHash_iff; eauto.
Qed.
Lemma get_signature_parse C strict ty t v now h st st1 e : new_validatory strict ty (open_str t) = Ok v ->
  Signature_Parse C strict now h st = (st1, e) -> e <> Ok tt -> snd (GetSignature C strict now h st v) = e.
Proof.
  intros NV P NE. apply in_use_fresh in NV. destruct (GetSignature_spec C strict ty t v now h st NV) as (v' & _ & E).
  rewrite P in E. destruct e as [[]| | |]; [congruence|rewrite E; reflexivity..].
Qed.
Lemma parse_fields t m s : parse_all new_message (open_str t) = Ok (m, s) -> has_fields t (m_headers m).
Proof.
  intros P. destruct (message_fields' t) as (ls & h & rest & m' & s' & HB & E & P' & _ & gs & F2 & FL & SF & R).
  rewrite P in P'. injection P' as <- _. exists ls, h, rest, gs. split; auto. split; auto. split.
  - destruct R as [[(e & b & L & EB & _) R]|(_ & R)]; [left; split; eauto|right; auto].
  - auto.
Qed.
Lemma small_message t m s h : parse_all new_message (open_str t) = Ok (m, s) -> In h (m_headers m) ->
  small_fields t -> h_voff h <= length (h_text h) /\ small_field h.
Proof. intros P IN B. destruct (message_field_ok t m s h P IN) as [A D]. split; [exact A|]. exact (B _ _ (parse_fields _ _ _ P) IN). Qed.
Lemma failures C strict ty t v h : new_validatory strict ty (open_str t) = Ok v -> In h (m_headers (v_msg v)) -> small_field h ->
  (forall now st, dkim_end strict (snd (GetSignature C strict now h st v))) /\
  (forall resolve g p, (exists r, resolve (key_query g) = Ok r) -> dkim_end strict (snd (GetPublicKey C strict resolve g p))) /\
  (forall now e0 g e1 r p0 p, Signature_Parse C strict now h (new_signature, e0) = ((g, e1), Ok tt) ->
     PublicKey_Parse C strict r p0 = (p, Ok tt) -> ~ short_ed g -> dkim_end strict (CheckSignature C strict h g p v)).
Proof.
  intros NV IN B. pose proof (new_validatory_spec _ _ _ _ NV) as (m & s & P & M & _). rewrite M in IN.
  destruct (message_field_ok t m s h P IN) as [L _]. rename B into SF. split; [|split].
  - intros. apply (GetSignature_ends C strict ty t); auto. apply in_use_fresh. auto.
  - intros. apply GetPublicKey_ends. auto.
  - intros now e0 g e1 r p0 p PS PK NS. destruct (CheckSignature_ends_all _ _ _ _ _ _ _ _ _ _ _ PS SF PK v) as [E|(_ & X)]; auto.
    exfalso. apply NS. exact X.
Qed.
(** Reads stay in bounds. *)
Lemma in_bounds C strict now h e0 g e1 st r p0 p : Signature_Parse C strict now h (new_signature, e0) = ((g, e1), Ok tt) -> small_field h ->
  PublicKey_Parse C st r p0 = (p, Ok tt) -> forall v,
  CheckSignature C strict h g p v <> UB UB_oob_read \/ short_ed g.
Proof.
  intros P SF PK v. destruct (CheckSignature_ends_all _ _ _ _ _ _ _ _ _ _ _ P SF PK v) as [E|(_ & X)]; auto. left. intros K.
  rewrite K in E. destruct E as [E|[(c & E)|[(c & E)|[_ E]]]]; discriminate.
Qed.
Lemma listed strict ty t v : new_validatory strict ty (open_str t) = Ok v ->
  exists m s, parse_all new_message (open_str t) = Ok (m, s) /\ v_msg v = m /\ contents (v_file v) = t /\
    v_sigs v = filter (fun h => match ty with
                                | V_DKIM => same_name (h_name h) (str "DKIM-Signature")
                                | V_ARC => same_name (h_name h) (str "ARC-Message-Signature")
                                | V_NONE => false
                                end) (m_headers m).
Proof.
  intros N. apply new_validatory_spec in N as (m & s & P & M & CT & E). exists m, s. split; auto. split; auto. split; auto.
  rewrite E. apply filter_ext. intros h. destruct ty; reflexivity.
Qed.
