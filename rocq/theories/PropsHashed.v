(** Property C107: how much of the header is hashed. *)
From Verif Require Import Bytes Outcome Stream MailParser Canonicalization Util Crypto Signature PublicKey SignatoryOptions Signatory Validatory SpecMail
  MailFacts HeadWork HeadBounds HeadMany Examples VerifyExamples.

(** One check: [header_work] counts the bytes handed to the digest; it is the length of what is hashed, and however long
    h= is no field counts twice. *)
Theorem C107_data : forall strict h g p v d, key_allows g p = true -> signed_data strict h g v = Ok d -> header_work strict h g p v = length d.
Proof. exact header_work_exact. Qed.
Print Assumptions C107_data.
Theorem C107_check : forall strict h g p v, header_work strict h g p v <= length (with_crlf (map h_text (m_headers (v_msg v)))) + length (h_text h).
Proof. exact header_work_bound. Qed.
Print Assumptions C107_check.
Example C107_check_case : exists g p v h,
  new_validatory true V_DKIM (open_str (esc "DKIM-Signature: v=1; a=rsa-sha256; d=ex.org; s=s1; h=From:From:From:From; bh=; b=QUJD\r\nFrom: x\r\n\r\n")) = Ok v /\
  v_sigs v = [h] /\ fst (fst (Signature_Parse toy true 5 h (new_signature, false))) = g /\ sg_headers g = [str "From"; str "From"; str "From"; str "From"] /\
  PublicKey_Parse toy true rsa_record new_public_key = (p, Ok tt) /\ header_work true h g p v = 90.
Proof. exact again_example. Qed.

(** In terms of the message: whatever line ends it has, for any field of it. *)
Theorem C107_message : forall strict ty s t v h g p, new_validatory strict ty (open_str t) = Ok v -> In h (m_headers (v_msg v)) ->
  header_work s h g p v <= 4 * length t + 2.
Proof. exact one_work_bound. Qed.
Print Assumptions C107_message.

(** Signing: the fields are hashed once, for all signatures together. *)
Theorem C107_sign : forall strict mode toSign hs, sign_work strict mode toSign hs <= length (with_crlf (map h_text hs)) /\
  forall d names, sign_headers strict mode toSign hs = Ok (d, names) -> sign_work strict mode toSign hs = length d.
Proof. exact sign_work_both. Qed.
Print Assumptions C107_sign.
Example C107_sign_case : sign_work true RELAXED [str "from"] [header_of (esc "From:  x"); header_of (esc "To: y")] = 8.
Proof. vm_compute. reflexivity. Qed.

(** All signatures of a message. *)
Theorem C107_fields_partial : forall C strict clock resolve ty e t v, new_validatory strict ty (open_str t) = Ok v ->
  message_header_work C strict clock resolve ty e t <= (length (v_sigs v) + 1) * (2 * length t + 2).
Proof. exact message_work_bound. Qed.
Print Assumptions C107_fields_partial.
(** So that it is not proportional to the message. *)
Theorem C107_linear_refuted : forall k, exists t, k * length t < message_header_work toy false (fun _ => 5%Z) asked_key V_DKIM false t.
Proof. exact wide_unbounded. Qed.
Print Assumptions C107_linear_refuted.
Theorem C107_product_refuted : forall clock e n b, ~ In LF b -> let t := wide_message n b in
  length t = 116 * n + 22 + length b /\ message_header_work toy false clock asked_key V_DKIM e t = n * (length b + 126).
Proof. exact wide_exact. Qed.
Print Assumptions C107_product_refuted.
Example C107_product_case : let t := wide_message 3 (str "hello") in length t = 375 /\ message_header_work toy false (fun _ => 5%Z) asked_key V_DKIM false t = 393.
Proof. exact wide_example. Qed.
