(** Properties C83, C44: objects that share a stream, a signer that signs again. *)
From Verif Require Import Bytes Outcome Stream MailParser Canonicalization Crypto Signature PublicKey SignatoryOptions Signatory Validatory VerifyProps
  SharedStream SpecText SpecMail SpecVerify SpecPass SpecShared SharedFacts Examples VerifyExamples SignExamples.

(** C83.  Whatever else is done with the stream and with other objects, before and after: a verifier
    made at the start of the text answers each call as the only verifier on a fresh stream does.
    [made] is the number of the object that [ds1] makes next.  Partial: the caller must have rewound
    the stream. *)
Theorem C83_verifier_partial : forall C strict t ds1 ty ds2 e c v0, from_the_start ds1 -> new_validatory strict ty (open_str t) = Ok v0 ->
  reply_to C strict t (ds1 ++ MakeVerifier ty :: ds2) (Ask (made C strict t ds1) e c) = Answered (snd (perform C strict e c v0)).
Proof. exact verifier_alone. Qed.
Print Assumptions C83_verifier_partial.
Example C83_verifier_case : exists t h g v0, new_validatory true V_DKIM (open_str t) = Ok v0 /\ made toy true t [MakeVerifier V_NONE; Rewind] = 1 /\
  reply_to toy true t ([MakeVerifier V_NONE; Rewind] ++ MakeVerifier V_DKIM :: [MakeSigner; Sign 2 (fun _ => 1%Z) (with_rsa []); Ask 0 false CallGetSignatures])
    (Ask 1 false (CallGetSignature 1 h new_signature)) = Answered (GotSignature g false (Ok tt)).
Proof.
  exists (sample_message "rsa-sha256" rsa_b), (sample_header "rsa-sha256" rsa_b). do 2 eexists. split; [vm_compute; reflexivity|]. split; vm_compute; reflexivity.
Qed.
(** A signer reads when it signs: the stream must have been rewound just before. *)
Theorem C83_signer_partial : forall C strict t ds1 ds2 clock o, from_the_start (ds1 ++ MakeSigner :: ds2) -> unsigned_yet (made C strict t ds1) ds2 ->
  reply_to C strict t (ds1 ++ MakeSigner :: ds2) (Sign (made C strict t ds1) clock o) =
  Signed (snd (CreateSignature C strict clock o (new_signatory (open_str t)))).
Proof. exact signer_alone. Qed.
Print Assumptions C83_signer_partial.
Example C83_signer_case : exists H, from_the_start ([] ++ MakeSigner :: [MakeVerifier V_DKIM; Rewind]) /\ unsigned_yet 0 [MakeVerifier V_DKIM; Rewind] /\
  reply_to toy true letter [MakeSigner; MakeVerifier V_DKIM; Rewind] (Sign 0 (fun _ => 1%Z) (with_rsa [])) = Signed (Ok H).
Proof. eexists. split; [right; exists [MakeSigner; MakeVerifier V_DKIM]; reflexivity|]. split; [repeat constructor|]. vm_compute. reflexivity. Qed.

(** Without that, exactly: an object takes for the message what lies ahead on the stream, a verifier
    when it is made, *)
Theorem C83_verifier_exact : forall C strict t ds1 ty ds2 e c v0, new_validatory strict ty (open_str (ahead (stream_after C strict t ds1))) = Ok v0 ->
  reply_to C strict t (ds1 ++ MakeVerifier ty :: ds2) (Ask (made C strict t ds1) e c) = Answered (snd (perform C strict e c v0)).
Proof. exact verifier_exact. Qed.
Print Assumptions C83_verifier_exact.
(** and a signer when it signs first; *)
Theorem C83_signer_exact : forall C strict t ds1 ds2 clock o, unsigned_yet (made C strict t ds1) ds2 ->
  reply_to C strict t (ds1 ++ MakeSigner :: ds2) (Sign (made C strict t ds1) clock o) =
  Signed (snd (CreateSignature C strict clock o (new_signatory (open_str (ahead (stream_after C strict t (ds1 ++ MakeSigner :: ds2))))))).
Proof. exact signer_exact. Qed.
Print Assumptions C83_signer_exact.
(** a verifier leaves the body ahead. *)
Theorem C83_left_behind : forall C strict t ty v b, new_validatory strict ty (open_str t) = Ok v -> message_body t b ->
  ahead (stream_after C strict t [MakeVerifier ty]) = b.
Proof. exact left_behind. Qed.
Print Assumptions C83_left_behind.
Example C83_left_case : ahead (stream_after toy true letter [MakeVerifier V_DKIM]) = esc "hi\r\n".
Proof. vm_compute. reflexivity. Qed.

(** A second verifier does not see the signature, *)
Theorem C83_second_refuted : exists t h v, new_validatory true V_DKIM (open_str t) = Ok v /\ snd (perform toy true false CallGetSignatures v) = Listed [h] /\
  reply_to toy true t [MakeVerifier V_DKIM; MakeVerifier V_DKIM] (Ask 1 false CallGetSignatures) = Answered (Listed []).
Proof. exact second_blind. Qed.
Print Assumptions C83_second_refuted.
(** or sees one that is only written in the body. *)
Theorem C83_body_refuted : exists t h v, new_validatory true V_DKIM (open_str t) = Ok v /\ snd (perform toy true false CallGetSignatures v) = Listed [] /\
  reply_to toy true t [MakeVerifier V_DKIM; MakeVerifier V_DKIM] (Ask 1 false CallGetSignatures) = Answered (Listed [h]).
Proof. exact second_body. Qed.
Print Assumptions C83_body_refuted.
(** A signer behind a verifier signs something else. *)
Theorem C83_signer_refuted : exists C t o H H' v, new_validatory true V_DKIM (open_str t) = Ok v /\
  snd (CreateSignature C true (fun _ => 1%Z) o (new_signatory (open_str t))) = Ok H /\
  reply_to C true t [MakeVerifier V_DKIM; MakeSigner] (Sign 1 (fun _ => 1%Z) o) = Signed (Ok H') /\ H <> H'.
Proof. exact signer_after. Qed.
Print Assumptions C83_signer_refuted.

(** C44, exactly: for any options, primitives and clocks of the two calls, the second one behaves as on
    the message with the body [next_body], which depends on what the first one left on the stream. *)
Theorem C44_exact : forall C C' strict clock clock' o o' ls h e body y r, header_block ls h -> line_end [] e ->
  CreateSignature C strict clock o (new_signatory (open_str (h ++ e ++ body))) = (y, r) ->
  snd (CreateSignature C' strict clock' o' y) =
  snd (CreateSignature C' strict clock' o' (new_signatory (open_str (h ++ e ++ next_body (ahead (y_file y)) body)))).
Proof. exact signs_again. Qed.
Print Assumptions C44_exact.
(** That is nothing when the whole body was signed, and all of the body when none of it was; *)
Theorem C44_left_whole : forall C strict clock o ls h e body y r, header_block ls h -> line_end [] e -> o_signlen o = false ->
  CreateSignature C strict clock o (new_signatory (open_str (h ++ e ++ body))) = (y, r) -> ahead (y_file y) = [].
Proof. exact signed_whole. Qed.
Print Assumptions C44_left_whole.
Theorem C44_left_none : forall C strict clock o ls h e body y r, header_block ls h -> line_end [] e -> o_signlen o = true -> o_bodylen o = 0%N ->
  CreateSignature C strict clock o (new_signatory (open_str (h ++ e ++ body))) = (y, r) -> ahead (y_file y) = body.
Proof. exact signed_none. Qed.
Print Assumptions C44_left_none.
(** in general what is left by reading pieces of 8096 bytes. *)
Theorem C44_left_pieces : forall C strict clock o ls h e body y r, header_block ls h -> line_end [] e ->
  CreateSignature C strict clock o (new_signatory (open_str (h ++ e ++ body))) = (y, r) ->
  exists k, ahead (y_file y) = skipn (k * N.to_nat 8096) body.
Proof. exact signed_pieces. Qed.
Print Assumptions C44_left_pieces.
Example C44_pieces_case : let t := esc "From: a@ex.org\r\n\r\na\r\nhi\r\n" in
  let y := fst (CreateSignature toy true (fun _ => 5%Z) (with_rsa [SetSignBodyLength 1]) (new_signatory (open_str t))) in
  ahead (y_file y) = [] /\ skipn (N.to_nat 8096) (esc "a\r\nhi\r\n") = [].
Proof. cbv zeta. split; vm_compute; reflexivity. Qed.
(** With SetSignBodyLength(0) the second call gives the same text. *)
Theorem C44_zero_partial : forall C strict clock o ls h e body y r, header_block ls h -> line_end [] e -> o_signlen o = true -> o_bodylen o = 0%N ->
  CreateSignature C strict clock o (new_signatory (open_str (h ++ e ++ body))) = (y, r) -> snd (CreateSignature C strict clock o y) = r.
Proof. exact again_zero. Qed.
Print Assumptions C44_zero_partial.
(** The empty line at the start of the body is lost. *)
Example C44_exact_case : let t b := esc "From: a@ex.org\r\n\r\n" ++ b in
  let y := fst (CreateSignature toy true (fun _ => 5%Z) (with_rsa [SetSignBodyLength 0]) (new_signatory (open_str (t (esc "\r\nhi\r\n"))))) in
  (exists H, snd (CreateSignature toy true (fun _ => 5%Z) (with_rsa [SetSignBodyLength 0]) (new_signatory (open_str (t (esc "\r\nhi\r\n"))))) = Ok H) /\
  next_body (ahead (y_file y)) (esc "\r\nhi\r\n") = esc "hi\r\n" /\
  snd (CreateSignature toy true (fun _ => 5%Z) (with_rsa []) y) = sign toy (with_rsa []) (t (esc "hi\r\n")).
Proof. cbv zeta. split; [eexists; vm_compute; reflexivity|]. split; vm_compute; reflexivity. Qed.
(** A message without an empty line: each further call signs the last field once more (not if the text
    ends in a line that is a CR alone), and nothing else changes. *)
Theorem C44_unended : forall C strict clock o ls h tail fs k y t, header_block ls h -> ~ In LF tail -> has_fields (h ++ tail) fs -> has_signed strict (h ++ tail) k y ->
  has_fields t (fs ++ concat (repeat (if list_eq_dec ascii_dec tail [CR] then [] else last_one fs) k)) -> message_body t [] ->
  snd (CreateSignature C strict clock o y) = snd (CreateSignature C strict clock o (new_signatory (open_str t))).
Proof. exact unended_signs. Qed.
Print Assumptions C44_unended.
Example C44_unended_case : let t := esc "From: a@ex.org\r\nTo: b" in let t3 := esc "From: a@ex.org\r\nTo: b\r\nTo: b\r\nTo: b" in
  let go y := CreateSignature toy true (fun _ => 5%Z) (with_rsa []) y in let y2 := fst (go (fst (go (new_signatory (open_str t))))) in
  (exists fs, has_fields t fs /\ has_fields t3 (fs ++ concat (repeat (last_one fs) 2))) /\ has_signed true t 2 y2 /\
  snd (go y2) = sign toy (with_rsa []) t3 /\ exists H, snd (go y2) = Ok H.
Proof.
  cbv zeta. split; [exact two_more|]. split; [repeat constructor|]. split; [vm_compute; reflexivity|]. eexists. vm_compute. reflexivity.
Qed.
(** A third call can sign a line of the body as a header field: here h= of the second one is From, of the
    third one To and From. *)
Theorem C44_third_refuted : exists t y2 H2 H3 a b c, t = esc "From: a@ex.org\r\n\r\nTo: x\r\nhi\r\n" /\ has_signed true t 2 y2 /\
  (exists y1, has_signed true t 1 y1 /\ snd (CreateSignature toy true (fun _ => 5%Z) (with_rsa [SetSignBodyLength 0]) y1) = Ok H2) /\
  snd (CreateSignature toy true (fun _ => 5%Z) (with_rsa [SetSignBodyLength 0]) y2) = Ok H3 /\
  H2 = a ++ esc "\th=from;\r\n" ++ b /\ H3 = a ++ esc "\th=to:from;\r\n" ++ c.
Proof. exact third_time. Qed.
Print Assumptions C44_third_refuted.
