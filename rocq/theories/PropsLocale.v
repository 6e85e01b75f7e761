(** Property C110: the locale of the process. *)
From Verif Require Import Bytes Outcome Stream MailParser Crypto Signature PublicKey SignatoryOptions Signatory Validatory Tool Canonicalization SpecPass SpecStop Locale SpecLocale
  LocaleFacts LocaleExamples Examples VerifyExamples SignExamples.

(** C110.  The model with a locale is the model, in the "C" locale. *)
Theorem C110_c : forall C,
  (forall ty s, new_validatory_in c_locale ty s = new_validatory false ty s) /\
  (forall now res h e v, try_one_in c_locale C now res h e v = try_one C false now res h e v) /\
  (forall clock o y, CreateSignature_in c_locale C clock o y = CreateSignature C false clock o y).
Proof. exact (fun C => conj c_open (conj (c_try C) (c_create C))). Qed.
Print Assumptions C110_c.
(** Verifying: the same signatures are found in every message, and each check ends in the same way. *)
Theorem C110_open : forall L, plain L -> forall ty s, new_validatory_in L ty s = new_validatory false ty s.
Proof. exact open_locale. Qed.
Print Assumptions C110_open.
Theorem C110_verify : forall L, plain L -> forall C ty t v now res h e, new_validatory false ty (open_str t) = Ok v -> In h (v_sigs v) ->
  let '(v1, e1, g, p, r) := try_one C false now res h e v in
  exists g', try_one_in L C now res h e v = (v1, e1, g', p, r) /\ but_mail g g'.
Proof. exact try_locale. Qed.
Print Assumptions C110_verify.
Example C110_case : plain latin1 /\ exists v h v1 e1 g p, new_validatory_in latin1 V_DKIM (open_str locale_mail) = Ok v /\ v_sigs v = [h] /\
  try_one_in latin1 toy 1 (fun _ => Ok (true, rsa_record)) h false v = (v1, e1, g, p, Ok tt).
Proof. exact (conj plain_latin1 latin1_case). Qed.
(** The domain of i= can differ. *)
Theorem C110_identity_refuted : plain latin1 /\ exists st st', Signature_Parse toy false 5 capital_field (new_signature, false) = (st, Ok tt) /\
  Signature_Parse_in latin1 toy 5 capital_field (new_signature, false) = (st', Ok tt) /\
  sg_mdomain (fst st) = chr 201 :: str ".ex.org" /\ sg_mdomain (fst st') = chr 233 :: str ".ex.org".
Proof. exact (conj plain_latin1 capital_differs). Qed.
Print Assumptions C110_identity_refuted.
(** Signing. *)
Theorem C110_sign : forall L, plain L -> forall C clock o t fs, has_fields t fs -> seven o fs ->
  CreateSignature_in L C clock o (new_signatory (open_str t)) = CreateSignature C false clock o (new_signatory (open_str t)).
Proof. exact sign_locale. Qed.
Print Assumptions C110_sign.
Example C110_case_sign : exists fs, has_fields letter fs /\ seven relaxed_rsa fs.
Proof. exact letter_seven. Qed.
Theorem C110_names_refuted : plain latin1 /\ exists x y, sign_in c_locale accent_options accent_letter = Ok x /\ sign_in latin1 accent_options accent_letter = Ok y /\ x <> y.
Proof. exact (conj plain_latin1 accent_differs). Qed.
Print Assumptions C110_names_refuted.
(** Where I has another small letter than i, no field spelled DKIM-Signature is a signature, *)
Theorem C110_capital_refuted : forall L, l_lower L (chr 73) <> chr 105 -> forall t v h, new_validatory_in L V_DKIM (open_str t) = Ok v -> In h (v_sigs v) ->
  h_name h <> str "DKIM-Signature".
Proof. exact (fun L N t v h NV I => capital_i L V_DKIM t v h N NV I eq_refl). Qed.
Print Assumptions C110_capital_refuted.
Theorem C110_lost_refuted : l_lower turkish (chr 73) <> chr 105 /\ verify toy false locale_mail rsa_record = Ok tt /\
  exists v, new_validatory_in turkish V_DKIM (open_str locale_mail) = Ok v /\ v_sigs v = [].
Proof. exact (conj turkish_i turkish_lost). Qed.
Print Assumptions C110_lost_refuted.
(** and what is signed there is refused elsewhere. *)
Theorem C110_signed_refuted : exists x y, sign_in turkish relaxed_rsa letter = Ok x /\ accepts toy false V_DKIM 1 (x ++ CRLF ++ letter) 0 rsa_pub = perm_fail /\
  sign_in latin1 relaxed_rsa letter = Ok y /\ accepts toy false V_DKIM 1 (y ++ CRLF ++ letter) 0 rsa_pub = Ok tt.
Proof. exact turkish_signs. Qed.
Print Assumptions C110_signed_refuted.
