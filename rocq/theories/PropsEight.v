(** C100: bytes of 128 and above at tolower and isspace. *)
From Verif Require Import Bytes Outcome Stream Base64 TagList MailParser Canonicalization Util Crypto Signature PublicKey SignatoryOptions Signatory Validatory Tool ErrorText Reasons
  SpecText SpecTags SpecMail SpecCanon SpecSig SpecParse SpecReason SpecPass SpecStop SpecEight VerifyProps SigProps EightFacts EightExact EightVerify Examples VerifyExamples ReasonExamples ToolExamples EightExamples.
Local Open Scope string_scope. Local Open Scope list_scope.

(** C100.  Whatever is done, it ends as if these functions were defined for all bytes, or they are called with a byte for which they are not. *)
Theorem C100_same : forall C,
  (forall mode t, FilterHeader true mode t = UB UB_ctype \/ FilterHeader true mode t = FilterHeader false mode t) /\
  (forall now h st, snd (Signature_Parse C true now h st) = UB UB_ctype \/ Signature_Parse C true now h st = Signature_Parse C false now h st) /\
  (forall r p, snd (PublicKey_Parse C true r p) = UB UB_ctype \/ PublicKey_Parse C true r p = PublicKey_Parse C false r p) /\
  (forall ty s, new_validatory true ty s = UB UB_ctype \/ new_validatory true ty s = new_validatory false ty s) /\
  (forall now h st v, snd (GetSignature C true now h st v) = UB UB_ctype \/ GetSignature C true now h st v = GetSignature C false now h st v) /\
  (forall res g p, snd (GetPublicKey C true res g p) = UB UB_ctype \/ GetPublicKey C true res g p = GetPublicKey C false res g p) /\
  (forall h g p v, CheckSignature C true h g p v = UB UB_ctype \/ CheckSignature C true h g p v = CheckSignature C false h g p v) /\
  (forall clock o y, snd (CreateSignature C true clock o y) = UB UB_ctype \/ CreateSignature C true clock o y = CreateSignature C false clock o y) /\
  (forall clock res fs args, snd (tool_main C true clock res fs args) = Undefined UB_ctype \/ tool_main C true clock res fs args = tool_main C false clock res fs args).
Proof. exact all_same. Qed.
Print Assumptions C100_same.
(** The canonical form of a header field: a byte in front of the colon. *)
Theorem C100_filter : forall mode t, FilterHeader true mode t = UB UB_ctype <-> mode = RELAXED /\ name_part_eight t.
Proof. exact filter_leaves. Qed.
Print Assumptions C100_filter.
Example C100_case_filter : name_part_eight utf8_field /\ ~ name_part_eight (str "a: " ++ [chr 233]).
Proof. exact filter_case. Qed.
(** Opening a message: a byte in the name of a field. *)
Theorem C100_open : forall ty t fs, has_fields t fs ->
  (new_validatory true ty (open_str t) = UB UB_ctype <-> ty <> V_NONE /\ ~ Forall ascii_text (map h_name fs)) /\
  (new_validatory true ty (open_str t) <> UB UB_ctype -> new_validatory true ty (open_str t) = new_validatory false ty (open_str t)).
Proof. exact open_exact. Qed.
Print Assumptions C100_open.
Example C100_case_open : exists fs, has_fields utf8_mail fs /\ ~ Forall ascii_text (map h_name fs).
Proof. exact utf8_open. Qed.
(** Reading a signature. *)
Theorem C100_field : forall C now e0 h, h_voff h <= length (h_text h) ->
  snd (Signature_Parse C true now h (new_signature, e0)) = UB UB_ctype <-> field_leaves now e0 h.
Proof. exact field_exact. Qed.
Print Assumptions C100_field.
Example C100_case_field : field_leaves 5 false identity_field /\
  forall C st, snd (Signature_Parse C true 5 (dkim_field "v=2; a=rsa-sha256; d=ex.org; i=@=E9.ex.org; s=s1; h=from; bh=YQ==; b=YQ==") (new_signature, st)) = perm.
Proof. exact (conj identity_leaves identity_kept). Qed.
(** A key record never. *)
Theorem C100_key : forall C r, PublicKey_Parse C true r new_public_key = PublicKey_Parse C false r new_public_key /\
  PublicKey_what C true r new_public_key = PublicKey_what C false r new_public_key.
Proof. exact (fun C r => conj (key_same C r) (key_what_same C r)). Qed.
Print Assumptions C100_key.
(** Verifying a signature of an opened message: only while the signature is read; else all is the same, with the texts. *)
Theorem C100_verify : forall C ty t fs v now res h e0, has_fields t fs -> new_validatory true ty (open_str t) = Ok v -> In h (v_sigs v) ->
  (field_leaves now e0 h -> snd (try_one C true now res h e0 v) = UB UB_ctype) /\
  (~ field_leaves now e0 h -> try_one C true now res h e0 v = try_one C false now res h e0 v /\ try_what C true now res h e0 v = try_what C false now res h e0 v).
Proof. exact try_exact. Qed.
Print Assumptions C100_verify.
(** The program that verifies: messages without such bytes. *)
Theorem C100_tool : forall C clock res fs args, (forall t, (exists f, fs f = Some t) -> no_eight t) ->
  forall es files a, getopt args = (es, files) -> take_options es new_args = inl a -> a_validate a = true ->
  tool_main C true clock res fs args = tool_main C false clock res fs args /\ main_text C true clock res fs args = main_text C false clock res fs args.
Proof. exact main_same. Qed.
Print Assumptions C100_tool.
Example C100_case_tool : no_eight good_mail.
Proof. exact good_no_eight. Qed.

(** A good message is lost by a further field, *)
Theorem C100_name_refuted : exists t, verify toy false t rsa_record = Ok tt /\ new_validatory true V_DKIM (open_str t) = UB UB_ctype.
Proof. exact (ex_intro _ utf8_mail utf8_lost). Qed.
Print Assumptions C100_name_refuted.
(** with which the program can neither verify nor sign it, *)
Theorem C100_tool_refuted : exists fs, tool_main toy true now5 one_record fs [str "-v"; str "mail"] = (P_lines [], Undefined UB_ctype) /\
  tool_main toy true now5 one_record fs [str "-s"; str "a"; str "-d"; str "b"; str "-k"; str "key"; str "mail"] = (P_nothing, Undefined UB_ctype).
Proof. exact (ex_intro _ utf8_files utf8_tool). Qed.
Print Assumptions C100_tool_refuted.
(** and a signature field by its i=, though it has no such byte itself. *)
Theorem C100_identity_refuted : exists h, snd (Signature_Parse toy false 5 h (new_signature, false)) = Ok tt /\
  ascii_text (h_text h) /\ snd (Signature_Parse toy true 5 h (new_signature, false)) = UB UB_ctype.
Proof. exact (ex_intro _ identity_field identity_lost). Qed.
Print Assumptions C100_identity_refuted.
