(** How much of the header is hashed for all signatures of a message. *)
From Verif Require Import Bytes Outcome Stream TagList MailParser Canonicalization Util CStdlib Crypto Signature PublicKey Validatory
  SpecText SpecMail SpecCanon SpecVerify SpecTransit HeadWork
  BytesFacts StreamFacts BodyFacts BodyProps MailFacts SelectFacts VerifyFacts VerifyProps ToolFacts TransitFacts AskMany HeadBounds Examples VerifyExamples.

Lemma keeps_msg C strict now h st v v1 st1 o : GetSignature C strict now h st v = (v1, st1, o) -> v_msg v1 = v_msg v.
Proof.
  unfold GetSignature. destruct (Signature_Parse C strict now h st) as [st2 [u| | |]]; try (intros [= <- _ _]; reflexivity).
  unfold CheckBodyHash. destruct (CanonicalizationBody _ _ _ _ _) as [[[c k] s]| | |]; cbn beta iota; intros [= <- _ _]; reflexivity.
Qed.
Lemma headers_work_bound C strict clock resolve hs : forall v n e,
  headers_work C strict clock resolve hs v n e <= length hs * fields_size (m_headers (v_msg v)) + fields_size hs.
Proof.
  induction hs as [|h hs IH]; intros v n e; cbn [headers_work length]; [cbn; lia|]. rewrite fields_size_cons.
  destruct (GetSignature C strict (clock n) h (new_signature, e) v) as [[v1 st] o] eqn:G. specialize (IH v1 (S n) (snd st)). rewrite (keeps_msg _ _ _ _ _ _ _ _ _ G) in IH.
  assert (X : match o with Ok _ => match GetPublicKey C strict resolve (fst st) new_public_key with (p, Ok _) => header_work strict h (fst st) p v1 | _ => 0 end | _ => 0 end
    <= fields_size (m_headers (v_msg v)) + length (h_text h)).
  { destruct o; try lia. destruct (GetPublicKey _ _ _ _ _) as [p [u| | |]]; try lia. rewrite <- (keeps_msg _ _ _ _ _ _ _ _ _ G). apply header_work_bound. }
  rewrite Nat.mul_succ_l. lia.
Qed.
Lemma filter_size f hs : fields_size (filter f hs) <= fields_size hs.
Proof. induction hs as [|h hs IH]; cbn [filter]; [lia|]. destruct (f h); rewrite ?fields_size_cons; lia. Qed.
Lemma sigs_size strict ty s v : new_validatory strict ty s = Ok v -> fields_size (v_sigs v) <= fields_size (m_headers (v_msg v)).
Proof.
  unfold new_validatory. destruct (parse_all _ _) as [[m s1]| | |]; cbn [obind]; try discriminate.
  assert (X : forall w hs l, collect strict w hs = Ok l -> fields_size l <= fields_size hs).
  { intros w. induction hs as [|h hs IH]; cbn [collect]; intros l; [intros [= <-]; lia|]. destruct (lower_str _ _) as [n| | |]; cbn [obind]; try discriminate.
    destruct (collect _ _ _) as [l1| | |]; cbn [obind]; try discriminate. intros [= <-]. specialize (IH _ eq_refl). destruct beqb; rewrite ?fields_size_cons; lia. }
  destruct ty; [destruct (collect _ _ _) as [l| | |] eqn:E; cbn [obind]; try discriminate; intros [= <-]; cbn; eauto..|intros [= <-]; cbn; lia].
Qed.
Lemma message_work_bound C strict clock resolve ty e t v : new_validatory strict ty (open_str t) = Ok v ->
  message_header_work C strict clock resolve ty e t <= (length (v_sigs v) + 1) * (2 * length t + 2).
Proof.
  intros N. unfold message_header_work. rewrite N. pose proof (headers_work_bound C strict clock resolve (v_sigs v) v 0 e) as B. pose proof (sigs_size _ _ _ _ N) as S.
  assert (Z : fields_size (m_headers (v_msg v)) <= 2 * length t + 2).
  { unfold new_validatory in N. destruct (parse_all _ _) as [[m s1]| | |] eqn:P; cbn [obind] in N; try discriminate. apply message_size in P.
    destruct ty; [destruct (collect _ _ _); cbn [obind] in N; try discriminate; injection N as <-; exact P..|injection N as <-; exact P]. }
  etransitivity; [exact B|]. rewrite Nat.mul_add_distr_r, Nat.mul_1_l. apply Nat.add_le_mono; [apply Nat.mul_le_mono_l; exact Z|lia].
Qed.
Lemma one_work_bound strict ty s t v h g p : new_validatory strict ty (open_str t) = Ok v -> In h (m_headers (v_msg v)) ->
  header_work s h g p v <= 4 * length t + 2.
Proof.
  intros N I. pose proof (header_work_bound s h g p v) as B.
  assert (Z : fields_size (m_headers (v_msg v)) <= 2 * length t + 2).
  { unfold new_validatory in N. destruct (parse_all _ _) as [[m s1]| | |] eqn:P; cbn [obind] in N; try discriminate. apply message_size in P.
    destruct ty; [destruct (collect _ _ _); cbn [obind] in N; try discriminate; injection N as <-; exact P..|injection N as <-; exact P]. }
  apply in_split in I as (l1 & l2 & E). rewrite E, fields_size_app, fields_size_cons in Z, B. lia.
Qed.

(** A message with [n] signatures over one field. *)
Definition from_field (b : bytes) : bytes := sample_from ++ b.
Definition wide_message (n : nat) (b : bytes) : bytes := concat (repeat (ask_field ++ CRLF) n) ++ from_field b ++ CRLF ++ CRLF ++ sample_body.
Definition from_header (b : bytes) : header := mkHeader (str "From") (from_field b) 5.
Section Wide.
Context (b : bytes) (NL : ~ In LF b).
Lemma wide_parsed n : exists m s, parse_all new_message (open_str (wide_message n b)) = Ok (m, s) /\
  m_headers m = repeat ask_header n ++ [from_header b] /\ message_body (wide_message n b) sample_body.
Proof using NL.
  induction n as [|n (m & s & P & H & B)].
  - assert (HB : header_block [from_field b] (from_field b ++ CRLF ++ [])).
    { apply hb_cons; [discriminate| |left; reflexivity|constructor]. unfold from_field. intros I. apply in_app_or in I as [I|I]; [|auto]. revert I. apply no_LF_b. vm_compute. reflexivity. }
    assert (E : wide_message 0 b = (from_field b ++ CRLF ++ []) ++ CRLF ++ sample_body). { unfold wide_message. cbn [repeat concat app]. rewrite <- !app_assoc. reflexivity. }
    rewrite E. destruct (parse_blank _ _ CRLF sample_body HB ltac:(left; reflexivity)) as (m & s & P & _ & H & _). exists m, s. split; [exact P|]. split.
    + rewrite H. reflexivity.
    + apply (mb_blank [from_field b]); [exact HB|left; reflexivity].
  - assert (A : at_field (wide_message n b)). { destruct n; unfold wide_message; cbn [repeat concat]; vm_compute; intros [X|X]; discriminate. }
    destruct (front_parse _ _ _ _ _ ask_block A P) as (m' & s' & P' & H' & b' & B1 & B2).
    rewrite (message_body_unique _ _ _ B1 B) in B2. exists m', s'.
    assert (E : (ask_field ++ CRLF) ++ wide_message n b = wide_message (S n) b). { unfold wide_message. cbn [repeat concat]. rewrite !app_assoc. reflexivity. }
    rewrite E in P', B2. split; [exact P'|]. split; [|exact B2]. rewrite H', H.
    assert (F : all_headers (fold_left add_line [ask_field] new_message) = [ask_header]) by (vm_compute; reflexivity). rewrite F. reflexivity.
Qed.
Lemma wide_opened n : exists v, new_validatory false V_DKIM (open_str (wide_message n b)) = Ok v /\ v_sigs v = repeat ask_header n /\
  m_headers (v_msg v) = repeat ask_header n ++ [from_header b].
Proof using NL.
  destruct (wide_parsed n) as (m & s & P & H & _). destruct (validatory_plain_iff false V_DKIM _ _ _ P ltac:(discriminate)) as (v & N).
  { apply Forall_forall. intros f _. reflexivity. }
  exists v. split; [exact N|]. apply listed in N as (m' & s' & P' & M & _ & ->). rewrite P in P'. injection P' as <- <-. rewrite M, H. split; [|reflexivity].
  rewrite filter_app. assert (E : forall k, filter (fun h => same_name (h_name h) (str "DKIM-Signature")) (repeat ask_header k) = repeat ask_header k).
  { induction k; cbn [repeat filter]; [reflexivity|]. rewrite IHk. replace (same_name (h_name ask_header) (str "DKIM-Signature")) with true by (vm_compute; reflexivity). reflexivity. }
  rewrite E. replace (filter _ [from_header b]) with (@nil header) by (cbn [filter from_header h_name]; reflexivity). apply app_nil_r.
Qed.
Definition asked_key : bytes -> outcome (bool * bytes) := fun _ => Ok (true, rsa_record).
Lemma wide_own now e : exists g p x w w1, Signature_Parse toy false now ask_header (new_signature, e) = ((g, e), Ok tt) /\
  sg_headers g = [str "From"] /\ sg_chead g = SIMPLE /\ sg_cbody g = SIMPLE /\ sg_bh g = digest toy (sg_digest g) (cut (sg_limit g) (sg_size g) sample_body) /\
  (GetPublicKey toy false asked_key g new_public_key = (p, Ok tt)) /\ key_allows g p = true /\
  substr_from (h_text ask_header) (h_voff ask_header) = Ok w /\ strip_b g w = Ok w1 /\
  FilterHeader false SIMPLE (firstn (h_voff ask_header) (h_text ask_header) ++ w1) = Ok x /\ length x = 110.
Proof using. do 5 eexists. split; [vm_compute; reflexivity|]. repeat (split; [vm_compute; reflexivity|]). vm_compute. reflexivity. Qed.
Lemma wide_selected n : selection h_name (repeat ask_header n ++ [from_header b]) [] [str "From"] = [from_header b].
Proof using.
  cbn [selection occurrences filter length]. unfold kth_last. rewrite filter_app, rev_app_distr.
  replace (filter _ [from_header b]) with [from_header b] by (cbn [filter from_header h_name]; reflexivity). reflexivity.
Qed.
Lemma wide_step n now e v : in_use false V_DKIM (wide_message n b) v -> m_headers (v_msg v) = repeat ask_header n ++ [from_header b] ->
  exists v1 g p, GetSignature toy false now ask_header (new_signature, e) v = (v1, (g, e), Ok tt) /\ in_use false V_DKIM (wide_message n b) v1 /\
    GetPublicKey toy false asked_key g new_public_key = (p, Ok tt) /\ header_work false ask_header g p v1 = length b + 126.
Proof using NL.
  intros U MH. destruct (GetSignature_spec toy false V_DKIM _ v now ask_header (new_signature, e) U) as (v1 & U1 & E).
  destruct (wide_own now e) as (g & p & x & w & w1 & P & H & M & MB & BH & K & A & O1 & O2 & O3 & L). rewrite P in E. cbn [fst] in E.
  destruct (wide_parsed n) as (_ & _ & _ & _ & B).
  assert (CB : canonical_body (is_relaxed (sg_cbody g)) sample_body sample_body). { rewrite MB. apply canonical_pass. vm_compute. reflexivity. }
  apply (proj1 (CheckBodyHash_iff toy false V_DKIM _ v g _ _ U B CB)) in BH. rewrite BH in E. exists v1, g, p. split; [exact E|]. split; [exact U1|]. split; [exact K|].
  rewrite <- (keeps_msg _ _ _ _ _ _ _ _ _ E) in MH.
  destruct (build_cache_lookup (m_headers (v_msg v1)) []) as (c & BC & _).
  assert (HS : hash_headers false (sg_chead g) (sg_headers g) c = Ok (with_crlf [from_field b])).
  { apply (hash_selection (sg_chead g) (m_headers (v_msg v1)) (sg_headers g) [] c (cache_start _ _ BC)). exists [from_field b]. split; [|reflexivity].
    rewrite MH, H, M, wide_selected. constructor; [reflexivity|constructor]. }
  rewrite (header_work_exact false ask_header g p v1 (with_crlf [from_field b] ++ x) A).
  - rewrite app_length, L. unfold with_crlf, from_field. cbn [map concat]. rewrite !app_length. replace (length sample_from) with 14 by (vm_compute; reflexivity).
    change (length CRLF) with 2. cbn [length]. lia.
  - unfold signed_data. rewrite BC. cbn [obind]. rewrite HS. cbn [obind]. rewrite O1. cbn [obind]. rewrite O2. cbn [obind]. rewrite M, O3. reflexivity.
Qed.
Lemma wide_works n clock : forall k v i e, in_use false V_DKIM (wide_message n b) v -> m_headers (v_msg v) = repeat ask_header n ++ [from_header b] ->
  headers_work toy false clock asked_key (repeat ask_header k) v i e = k * (length b + 126).
Proof using NL.
  induction k as [|k IH]; intros v i e U MH; cbn [repeat headers_work]; [reflexivity|].
  destruct (wide_step n (clock i) e v U MH) as (v1 & g & p & G & U1 & K & W). rewrite G. cbn [fst snd]. rewrite K, W, (IH v1); [reflexivity|exact U1|].
  rewrite (keeps_msg _ _ _ _ _ _ _ _ _ G). exact MH.
Qed.
Lemma wide_work n clock e : message_header_work toy false clock asked_key V_DKIM e (wide_message n b) = n * (length b + 126).
Proof using NL.
  destruct (wide_opened n) as (v & N & S & M). unfold message_header_work. rewrite N, S. apply (wide_works n); [exact (in_use_fresh _ _ _ _ N)|exact M].
Qed.
Lemma wide_length n : length (wide_message n b) = 116 * n + 22 + length b.
Proof using.
  unfold wide_message, from_field. rewrite !app_length. replace (length sample_from) with 14 by (vm_compute; reflexivity). change (length CRLF) with 2. change (length sample_body) with 4.
  assert (X : length (concat (repeat (ask_field ++ CRLF) n)) = 116 * n).
  { induction n; [reflexivity|]. cbn [repeat concat]. rewrite app_length, IHn. replace (length (ask_field ++ CRLF)) with 116 by (vm_compute; reflexivity). lia. }
  lia.
Qed.
End Wide.
Lemma wide_unbounded k : exists t, k * length t < message_header_work toy false (fun _ => 5%Z) asked_key V_DKIM false t.
Proof.
  set (n := 2 * k + 1). set (w := 116 * n + 22). exists (wide_message n (repeat (chr 97) w)).
  rewrite wide_work by (intros I; apply repeat_spec in I; discriminate). rewrite wide_length, repeat_length. fold w.
  assert (W : 0 < w) by (unfold w; lia). clearbody w. subst n. rewrite Nat.mul_add_distr_l. lia.
Qed.
Lemma wide_exact clock e n b : ~ In LF b -> let t := wide_message n b in
  length t = 116 * n + 22 + length b /\ message_header_work toy false clock asked_key V_DKIM e t = n * (length b + 126).
Proof. intros NL. split; [apply wide_length|apply wide_work; exact NL]. Qed.
Lemma wide_example : let t := wide_message 3 (str "hello") in length t = 375 /\ message_header_work toy false (fun _ => 5%Z) asked_key V_DKIM false t = 393.
Proof. vm_compute. split; reflexivity. Qed.
(** A name that is listed again and again: the one field is hashed once. *)
Lemma again_example : exists g p v h, new_validatory true V_DKIM (open_str (esc "DKIM-Signature: v=1; a=rsa-sha256; d=ex.org; s=s1; h=From:From:From:From; bh=; b=QUJD\r\nFrom: x\r\n\r\n")) = Ok v /\
  v_sigs v = [h] /\ fst (fst (Signature_Parse toy true 5 h (new_signature, false))) = g /\ sg_headers g = [str "From"; str "From"; str "From"; str "From"] /\
  PublicKey_Parse toy true rsa_record new_public_key = (p, Ok tt) /\ header_work true h g p v = 90.
Proof. do 4 eexists. split; [vm_compute; reflexivity|]. repeat (split; [vm_compute; reflexivity|]). vm_compute. reflexivity. Qed.
