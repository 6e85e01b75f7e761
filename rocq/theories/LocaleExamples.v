(** Concrete locales and messages for the examples beside C110. *)
From Verif Require Import Bytes Outcome Stream Base64 TagList MailParser Canonicalization Util Crypto Signature PublicKey SignatoryOptions Signatory Validatory Tool
  SpecMail SpecParse SpecPass SpecStop SigProps BytesFacts VerifyProps VerifyFacts SelectFacts PassFacts EightVerify Examples VerifyExamples SignExamples Locale SpecLocale LocaleFacts.

(** ISO 8859-1: the capital letters from 192 on. *)
Definition latin1 : locale :=
  mkLocale (fun c => if ((192 <=? code c) && (code c <=? 222) && negb (code c =? 215))%N then ascii_of_N (code c + 32) else tolower c)
           (fun c => isspace c || (code c =? 160)%N).
Lemma plain_latin1 : plain latin1.
Proof.
  intros c. assert (X : ((128 <=? code c)%N || (l_lower latin1 c =?c tolower c) && Bool.eqb (l_space latin1 c) (isspace c)) && ((code c <? 128) || (128 <=? code (l_lower latin1 c)))%N = true)
    by (revert c; apply byte_sweep; vm_compute; reflexivity).
  apply andb_true_iff in X as [X Y]. split; intros H.
  - apply orb_true_iff in X as [X|X]; [apply N.leb_le in X; lia|]. apply andb_true_iff in X as [X1 X2]. apply ceqb_eq in X1. apply eqb_prop in X2. auto.
  - apply orb_true_iff in Y as [Y|Y]; [apply N.ltb_lt in Y; lia|apply N.leb_le in Y; exact Y].
Qed.
(** Turkish with UTF-8: the small letter of I is no single byte, tolower leaves it. *)
Definition turkish : locale := mkLocale (fun c => if c =?c chr 73 then c else tolower c) isspace.
Definition locale_mail : bytes := sample_message "rsa-sha256" rsa_b.

Lemma latin1_case : exists v h v1 e1 g p, new_validatory_in latin1 V_DKIM (open_str locale_mail) = Ok v /\ v_sigs v = [h] /\
  try_one_in latin1 toy 1 (fun _ => Ok (true, rsa_record)) h false v = (v1, e1, g, p, Ok tt).
Proof. do 6 eexists. split; [vm_compute; reflexivity|]. split; [reflexivity|]. vm_compute. reflexivity. Qed.
(** The domain of i= is kept in another form, with which nothing is done but comparing it. *)
Definition capital_field : header := dkim_field "v=1; a=rsa-sha256; d=ex.org; i=@=C9.ex.org; s=s1; h=from; bh=YQ==; b=YQ==".
Lemma capital_differs : exists st st', Signature_Parse toy false 5 capital_field (new_signature, false) = (st, Ok tt) /\
  Signature_Parse_in latin1 toy 5 capital_field (new_signature, false) = (st', Ok tt) /\
  sg_mdomain (fst st) = chr 201 :: str ".ex.org" /\ sg_mdomain (fst st') = chr 233 :: str ".ex.org".
Proof. do 2 eexists. split; [vm_compute; reflexivity|]. split; [vm_compute; reflexivity|]. split; reflexivity. Qed.

(** The message that is accepted has no signature there. *)
Lemma turkish_lost : verify toy false locale_mail rsa_record = Ok tt /\
  exists v, new_validatory_in turkish V_DKIM (open_str locale_mail) = Ok v /\ v_sigs v = [].
Proof. split; [vm_compute; reflexivity|]. eexists. split; [vm_compute; reflexivity|reflexivity]. Qed.
Lemma turkish_i : l_lower turkish (chr 73) <> chr 105.
Proof. vm_compute. discriminate. Qed.

(** Signing: the same in the plain locales; what is signed in the Turkish one is refused elsewhere. *)
Definition relaxed_rsa : options := with_rsa [SetCanonModeHeader RELAXED].
Definition sign_in (L : locale) (o : options) (t : bytes) : outcome bytes := snd (CreateSignature_in L toy (fun _ => 5%Z) o (new_signatory (open_str t))).
Lemma letter_seven : exists fs, has_fields letter fs /\ seven relaxed_rsa fs.
Proof.
  destruct (open_parse letter _ (parse_fields letter _ _ eq_refl)) as (m & s & P & E). eexists. split; [apply (parse_fields letter m s P)|].
  split; [|split; [|left]].
  - apply Forall_forall. intros n I. apply MadeFacts.eight_seven. revert n I. apply Forall_forall. vm_compute. repeat constructor.
  - constructor.
  - vm_compute. discriminate.
Qed.
Lemma turkish_signs : exists x y, sign_in turkish relaxed_rsa letter = Ok x /\ accepts toy false V_DKIM 1 (x ++ CRLF ++ letter) 0 rsa_pub = perm_fail /\
  sign_in latin1 relaxed_rsa letter = Ok y /\ accepts toy false V_DKIM 1 (y ++ CRLF ++ letter) 0 rsa_pub = Ok tt.
Proof. do 2 eexists. split; [vm_compute; reflexivity|]. split; [vm_compute; reflexivity|]. split; [vm_compute; reflexivity|]. vm_compute. reflexivity. Qed.
(** Names with other bytes, in the message and in the list of names. *)
Definition accent_letter : bytes := chr 201 :: str ": x" ++ CRLF ++ letter.
Definition accent_options : options := with_rsa [AddHeaders [[chr 201]]].
Lemma accent_differs : exists x y, sign_in c_locale accent_options accent_letter = Ok x /\ sign_in latin1 accent_options accent_letter = Ok y /\ x <> y.
Proof.
  do 2 eexists. split; [vm_compute; reflexivity|]. split; [vm_compute; reflexivity|]. apply beqb_neq. vm_compute. reflexivity.
Qed.
