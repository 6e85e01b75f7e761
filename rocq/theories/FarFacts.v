(** The place of the b= value as a 32 bit number (for C103). *)
From Verif Require Import Bytes Outcome Stream Tokenizer Base64 TagList MailParser Canonicalization Util Crypto Signature
  PublicKey Validatory BytesFacts StreamFacts SpecText SpecMail SpecCanon SpecTags SpecVerify SpecSig SpecKey SpecParse SpecTool SpecDns SpecPass
  QPFacts ListFacts ListExact ListWide MailFacts BodyFacts BodyProps HeaderFacts HeaderProps SelectFacts TagListFacts SigFacts SigProps
  KeyFacts VerifyFacts TagPosition VerifyProps KeyExact ResultClass SigExact Tool ToolFacts ToolMain PassFacts SpecFar.

Lemma far_strip g v pre b post : v = pre ++ b ++ post -> GetTag (str "b") (sg_tags g) = Some (mkEntry b (Z.of_nat (length pre))) ->
  strip_b g v = if (int_place pre <? 2147483648)%Z then Ok (without v (Z.to_nat (int_place pre)) (length b)) else Throw StdOutOfRange.
Proof.
  intros E G. unfold strip_b. rewrite G. cbn [te_offset te_value]. set (p := Z.of_nat (length pre)). assert (P0 : (0 <= p)%Z) by lia.
  assert (LV : (p <= Z.of_nat (length v))%Z) by (subst v p; rewrite app_length; lia).
  assert (MP : (int_place pre <= p)%Z) by (unfold int_place; fold p; apply Z.mod_le; lia).
  pose proof (Z.mod_pos_bound p 4294967296 ltac:(lia)) as MB. fold (int_place pre) in MB. change (p mod 4294967296)%Z with (int_place pre) in MB.
  assert (T : to_int32 p = if (int_place pre <? 2147483648)%Z then int_place pre else (int_place pre - 4294967296)%Z).
  { unfold to_int32. rewrite <- Z.add_mod_idemp_l by lia. change (p mod 4294967296)%Z with (int_place pre). destruct (Z.ltb_spec (int_place pre) 2147483648).
    - rewrite Z.mod_small by lia. lia.
    - replace (int_place pre + 2147483648)%Z with (int_place pre - 2147483648 + 1 * 4294967296)%Z by lia. rewrite Z.mod_add by lia. rewrite Z.mod_small by lia. lia. }
  rewrite T. destruct (Z.ltb_spec (int_place pre) 2147483648) as [L|L].
  - destruct (Z.ltb_spec (int_place pre) 0); [lia|]. destruct (Z.ltb_spec (Z.of_nat (length v)) (int_place pre)); [lia|]. reflexivity.
  - destruct (Z.ltb_spec (int_place pre - 4294967296) 0); [reflexivity|lia].
Qed.
(** Below 2 GiB it is the b= value that is left out. *)
Lemma near_without (pre b post : bytes) : (Z.of_nat (length pre) < 2147483648)%Z ->
  int_place pre = Z.of_nat (length pre) /\ without (pre ++ b ++ post) (Z.to_nat (int_place pre)) (length b) = pre ++ post.
Proof.
  intros L. assert (E : int_place pre = Z.of_nat (length pre)) by (unfold int_place; apply Z.mod_small; lia). split; [exact E|].
  rewrite E, Nat2Z.id. apply erase_middle.
Qed.

Section Far.
Context (C : crypto) (strict : bool) (now : Z) (h : header) (e0 : bool) (g : signature) (e1 : bool) (pre b post : bytes).
Context (P : Signature_Parse C strict now h (new_signature, e0) = ((g, e1), Ok tt)) (TA : tag_at (str "b") (skipn (h_voff h) (h_text h)) pre b post).
Lemma far_entry : h_voff h <= length (h_text h) /\ GetTag (str "b") (sg_tags g) = Some (mkEntry b (Z.of_nat (length pre))).
Proof using P TA.
  destruct (parsed_b _ _ _ _ _ _ _ P) as (L & pre' & b' & post' & TA' & NB & EB & G). split; [exact L|].
  destruct (b_position _ _ _ _ _ _ _ P) as [_ UQ]. destruct (UQ _ _ _ _ _ _ TA' NB TA) as (-> & -> & ->). exact G.
Qed.
Definition far_data (v : validatory) (d : bytes) : Prop :=
  (int_place pre < 2147483648)%Z /\ exists outs x, Forall2 (canon_of false (sg_chead g)) (selection h_name (m_headers (v_msg v)) [] (sg_headers g)) outs /\
    FilterHeader false (sg_chead g) (firstn (h_voff h) (h_text h) ++ without (skipn (h_voff h) (h_text h)) (Z.to_nat (int_place pre)) (length b)) = Ok x /\ d = with_crlf outs ++ x.
Lemma far_signed v : (forall d, signed_data false h g v = Ok d <-> far_data v d) /\
  ((2147483648 <= int_place pre)%Z -> (exists outs, Forall2 (canon_of false (sg_chead g)) (selection h_name (m_headers (v_msg v)) [] (sg_headers g)) outs) ->
   signed_data false h g v = Throw StdOutOfRange).
Proof using P TA.
  destruct far_entry as [L G]. unfold signed_data. destruct (build_cache_lookup (m_headers (v_msg v)) []) as (c & B & _). rewrite B. cbn [obind].
  pose proof (hash_selection (sg_chead g) (m_headers (v_msg v)) (sg_headers g) [] c (cache_start _ _ B)) as HS.
  assert (SS : substr_from (h_text h) (h_voff h) = Ok (skipn (h_voff h) (h_text h))).
  { unfold substr_from. destruct (Nat.leb_spec (h_voff h) (length (h_text h))); [reflexivity|lia]. }
  pose proof (far_strip g _ pre b post (proj1 TA) G) as ST. rewrite SS. cbn [obind]. rewrite ST. split.
  - intros d. unfold far_data. split.
    + destruct (hash_headers false _ _ c) as [d1| | |]; cbn [obind]; try discriminate. destruct (Z.ltb_spec (int_place pre) 2147483648) as [LT|LT]; cbn [obind]; [|discriminate].
      destruct (FilterHeader false _ _) as [x| | |]; cbn [obind]; try discriminate. intros [= <-]. split; [exact LT|].
      destruct (proj1 (HS d1) eq_refl) as (outs & F & ->). exists outs, x. auto.
    + intros (LT & outs & x & F & E & ->). rewrite (proj2 (HS (with_crlf outs))) by eauto. cbn [obind]. destruct (Z.ltb_spec (int_place pre) 2147483648); [|lia]. cbn [obind]. rewrite E. reflexivity.
  - intros LT (outs & F). rewrite (proj2 (HS (with_crlf outs))) by eauto. cbn [obind]. destruct (Z.ltb_spec (int_place pre) 2147483648); [lia|]. reflexivity.
Qed.
Lemma far_check st r p0 p v : PublicKey_Parse C st r p0 = (p, Ok tt) ->
  (CheckSignature C false h g p v = Ok tt <-> permits p g /\ exists d, far_data v d /\ accepted C g p (digest C (sg_digest g) d)) /\
  ((2147483648 <= int_place pre)%Z -> permits p g -> (exists outs, Forall2 (canon_of false (sg_chead g)) (selection h_name (m_headers (v_msg v)) [] (sg_headers g)) outs) ->
   CheckSignature C false h g p v = Throw StdOutOfRange).
Proof using P TA.
  intros PK. destruct (far_signed v) as [SD FO]. unfold CheckSignature. split.
  - rewrite <- allows_permits. split.
    + destruct (key_allows g p) eqn:KA; [|discriminate]. destruct (signed_data false h g v) as [d| | |] eqn:E; cbn [obind]; try discriminate. intros VD.
      split; [reflexivity|]. exists d. split; [apply SD; reflexivity|].
      destruct (verify_digest_cases C g p (digest C (sg_digest g) d) (allows_key _ _ KA (PublicKey_has _ _ _ _ _ PK))) as [[_ A]|[(X & _)|(X & _)]]; [exact A|rewrite X in VD; discriminate VD..].
    + intros (KA & d & FD & A). rewrite KA. rewrite (proj2 (SD d) FD). cbn [obind].
      destruct (verify_digest_cases C g p (digest C (sg_digest g) d) (allows_key _ _ KA (PublicKey_has _ _ _ _ _ PK))) as [[X _]|[(_ & X & _)|(_ & X)]]; [exact X|contradiction|].
      exfalso. destruct X as [X1 X2]. unfold accepted in A. rewrite X1 in A. lia.
  - intros LT PM CF. rewrite (proj2 (allows_permits _ _) PM), (FO LT CF). reflexivity.
Qed.
End Far.
