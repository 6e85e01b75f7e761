(** Key services, signature lengths, empty domains: proofs. *)
From Verif Require Import Bytes Outcome Stream Base64 Tokenizer BytesFacts QPFacts ListFacts TagList MailParser Canonicalization Util Crypto Signature PublicKey SignatoryOptions Signatory
  Validatory SpecText SpecTags SpecSig SpecKey SpecAddress AddressClean TagListFacts KeyFacts SigFacts VerifyFacts VerifyProps SafetyFacts SigProps VerifyExamples SignExamples Examples.

Lemma service_ignored C strict h g p v s : CheckSignature C strict h g (kset_service s p) v = CheckSignature C strict h g p v.
Proof. reflexivity. Qed.
Lemma other_service : exists t r l sv vs, record_tags r l /\ has l "s" sv /\ list_wide vs sv /\
  ~ In (str "email") vs /\ ~ In (str "*") vs /\ verify toy true t r = Ok tt.
Proof.
  exists (sample_message "rsa-sha256" rsa_b), (esc "s=tlsrpt;p=S0VZ"). do 3 eexists.
  split; [apply record_nv; vm_compute; reflexivity|]. split; [left; vm_compute; reflexivity|]. split; [apply ListWide.ValueList_wide; vm_compute; reflexivity|].
  split; [intros [K|[]]; discriminate|]. split; [intros [K|[]]; discriminate|vm_compute; reflexivity].
Qed.
Lemma service_indistinct : exists p q, PublicKey_Parse toy true (esc "s=tlsrpt; p=S0VZ") new_public_key = (p, Ok tt) /\
  PublicKey_Parse toy true (esc "s=*; p=S0VZ") new_public_key = (q, Ok tt) /\ kset_tags [] p = kset_tags [] q.
Proof. do 2 eexists. split; [vm_compute; reflexivity|]. split; vm_compute; reflexivity. Qed.

Lemma ed_length C strict h g p v : sg_alg g = ED25519 -> CheckSignature C strict h g p v = Ok tt -> 63 <= length (sg_b g).
Proof.
  intros A E. unfold CheckSignature in E. destruct (key_allows g p); [|discriminate]. destruct (signed_data strict h g v) as [d| | |]; try discriminate. cbn [obind] in E.
  unfold verify_digest in E. rewrite A in E. unfold c_read at 1 in E. destruct (Nat.leb 64 (S (length (sg_b g)))) eqn:L; [|discriminate]. apply Nat.leb_le in L. lia.
Qed.
(** A key whose last byte is zero: the zero byte after the 63 is read as the last one. *)
Definition nul_key : bytes := esc "0123456789abcdef0123456789abcde" ++ [chr 0].
Definition short_b : bytes := firstn 63 (sample_digest "ed25519-sha256" ++ nul_key).
Lemma ed_63 : exists b r, length b = 63 /\ verify toy true (sample_message "ed25519-sha256" (Base64_Encode b)) r = Ok tt.
Proof. exists short_b, (esc "k=ed25519; p=" ++ Base64_Encode nul_key). split; vm_compute; reflexivity. Qed.

Definition empty_tag (d s : string) : bytes :=
  esc "DKIM-Signature: v=1; a=rsa-sha256; d=" ++ str d ++ esc "; s=" ++ str s ++ esc "; h=From; bh=QUJD; b=QUJD".
Lemma empty_domain : exists h l g, field_tags h l /\ has l "d" [] /\ Signature_Parse toy true 1 h (new_signature, false) = ((g, false), Ok tt) /\
  key_query g = esc "s1._domainkey.".
Proof.
  exists (mkHeader (esc "DKIM-Signature") (empty_tag "" "s1") 15). do 2 eexists. split; [apply field_tags_nv; [apply Nat.leb_le; vm_compute; reflexivity|vm_compute; reflexivity]|].
  split; [vm_compute; auto 20|]. split; vm_compute; reflexivity.
Qed.
Lemma empty_selector : exists h l g, field_tags h l /\ has l "s" [] /\ Signature_Parse toy true 1 h (new_signature, false) = ((g, false), Ok tt) /\
  key_query g = esc "._domainkey.ex.org".
Proof.
  exists (mkHeader (esc "DKIM-Signature") (empty_tag "ex.org" "") 15). do 2 eexists. split; [apply field_tags_nv; [apply Nat.leb_le; vm_compute; reflexivity|vm_compute; reflexivity]|].
  split; [vm_compute; auto 20|]. split; vm_compute; reflexivity.
Qed.

(** Deciding how a text is folded. *)
Definition fold_ok (b : bytes) : bool := match b with c :: _ => is_wsp c | [] => false end.
Definition single_ok (b : bytes) : bool := match snd (span is_wsp b) with c :: _ => negb (c =?c CR) | [] => true end.
Fixpoint each_fold (ok : bytes -> bool) (t : bytes) : bool :=
  match t with
  | [] => true
  | c :: r => (if c =?c CR then match r with d :: b => if d =?c LF then ok b else true | [] => true end else true) && each_fold ok r
  end.
Lemma each_fold_at ok a b : each_fold ok (a ++ CRLF ++ b) = true -> ok b = true.
Proof.
  induction a as [|c a IH]; [|intros E; apply IH; cbn [app each_fold] in E; apply andb_true_iff in E; tauto].
  change ([] ++ CRLF ++ b) with (CR :: LF :: b). cbn [each_fold]. rewrite !ceqb_refl. intros E. apply andb_true_iff in E. tauto.
Qed.
Lemma is_folds_only t : each_fold fold_ok t = true -> folds_only t.
Proof. intros E a b ->. apply each_fold_at in E. destruct b; [discriminate|]. apply is_wsp_WSP. exact E. Qed.
Lemma is_plain t : each_fold fold_ok t = true -> each_fold single_ok t = true -> plain_folds t.
Proof.
  intros E1 E2. split; [apply is_folds_only; auto|]. intros a w b -> F. apply each_fold_at in E2. unfold single_ok in E2.
  rewrite (span_intro is_wsp w (CR :: b)) in E2; [discriminate| |reflexivity]. apply forallb_forall. rewrite Forall_forall in F. intros c I. apply is_wsp_WSP. auto.
Qed.
Lemma address_two_folds : exists t l a, folds_only t /\ ~ In DQ t /\ ParseAddressList true t = Ok l /\ In a l /\ exists x y, a = x ++ CRLF ++ y.
Proof.
  exists (esc "\r\n \r\n a@b"). do 2 eexists. split; [apply is_folds_only; vm_compute; reflexivity|].
  split; [vm_compute; intuition discriminate|]. split; [vm_compute; reflexivity|]. split; [left; reflexivity|]. exists [], (esc "a@b"). reflexivity.
Qed.
Lemma address_quoted_fold : exists t l a, plain_folds t /\ ParseAddressList true t = Ok l /\ In a l /\ exists x y, a = x ++ CRLF ++ y.
Proof.
  exists (esc "<" ++ DQ :: esc "a\r\n b" ++ DQ :: esc "@c>"). do 2 eexists. split; [apply is_plain; vm_compute; reflexivity|].
  split; [vm_compute; reflexivity|]. split; [left; reflexivity|]. exists (esc "a"), (esc " b@c"). reflexivity.
Qed.
Example folded_case : plain_folds (esc "A (b\r\n c)\r\n\t<d@e>,\r\n f@g") /\ ParseAddressList true (esc "A (b\r\n c)\r\n\t<d@e>,\r\n f@g") = Ok [esc "d@e"; esc "f@g"].
Proof. split; [apply is_plain; vm_compute; reflexivity|vm_compute; reflexivity]. Qed.

Lemma no_key_read C : exists l t, snd (CreateSignature C true (fun _ => 1%Z) (run_ops C l new_options) (new_signatory (open_str t))) = UB UB_oob_read.
Proof. exists [OnMain (SetSignatureAlgorithm ED25519)], (esc "A: b\r\n\r\n"). vm_compute. reflexivity. Qed.
Lemma expiry_overflow C : exists l t, snd (CreateSignature C true (fun _ => 1%Z) (run_ops C l new_options) (new_signatory (open_str t))) = UB UB_overflow.
Proof. exists [SetExpiration 9223372036854775807 false], (esc "A: b\r\n\r\n"). vm_compute. reflexivity. Qed.
Lemma seeded_case : let o := run_ops toy [OnMain (SetSignatureAlgorithm ED25519); OnMain (SetPrivateKey ed_key); OnMain (SetDomain (esc "a.b"));
    OnMain (SetSelector (esc "s"))] new_options in
  (forall x, length x = 32 -> length (c_seed_keypair toy x) = 64) /\ so_ed (o_main o) <> [] /\
  exists H, snd (CreateSignature toy true (fun _ => 1%Z) o (new_signatory (open_str letter))) = Ok H.
Proof.
  cbv zeta. split; [intros x L; cbn [toy c_seed_keypair]; rewrite app_length, L; reflexivity|]. split; [vm_compute; discriminate|]. eexists. vm_compute. reflexivity.
Qed.
