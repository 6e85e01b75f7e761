(** Property C73: when a signature is accepted, exactly. *)
From Verif Require Import Bytes Outcome Stream MailParser Crypto Signature PublicKey Validatory Resolver Tool SpecTool SpecPass VerifyFacts
  VerifyExamples Examples PassFacts.

(** [in_use]: a Validatory for [t], whatever has been asked of it.  [try_one]: GetSignature,
    GetPublicKey and CheckSignature in turn, on fresh objects.  [set_tags]: the raw tags aside. *)
Theorem C73_exact : forall C ty t v i now resolve er g, in_use false ty t v -> small_fields t ->
  (exists h v1 e1 tags p, nth_error (v_sigs v) i = Some h /\ try_one C false now resolve h er v = (v1, e1, set_tags tags g, p, Ok tt)) <->
  good C ty t i now er (fun n r => resolve n = Ok (true, r)) g.
Proof. exact accepted_good. Qed.
Print Assumptions C73_exact.
(** With the resolver of the library, for well-formed responses. *)
Theorem C73_published : forall C ty t v i now lax answer er g, in_use false ty t v -> small_fields t ->
  (forall n, well_answered (answer n)) ->
  (exists h v1 e1 tags p, nth_error (v_sigs v) i = Some h /\
     try_one C false now (fun n => GetTXT lax (answer n)) h er v = (v1, e1, set_tags tags g, p, Ok tt)) <->
  good C ty t i now er (published answer) g.
Proof. exact accepted_published. Qed.
Print Assumptions C73_published.
(** The command line program prints OK exactly for these. *)
Theorem C73_lines : forall C clock resolve fs args ss f t ls i l, command_line args ss [f] -> Forall usual ss ->
  tool_main C false clock resolve fs args = (P_lines ls, Exit 0) -> fs f = Some t -> small_fields t ->
  nth_error ls i = Some l ->
  exists ty k er, kind ss ty /\
    (l_report l = R_OK <-> exists g, good C ty t i (clock k) er (fun n r => resolve n = Ok (true, r)) g) /\
    (l_report l = R_OK -> exists g, good C ty t i (clock k) er (fun n r => resolve n = Ok (true, r)) g /\ l_domain l = sg_domain g /\ l_selector l = sg_selector g).
Proof. exact line_good. Qed.
Print Assumptions C73_lines.
Example C73_case : exists g, good toy V_DKIM (sample_message "rsa-sha256" rsa_b) 0 1 false (fun n r => n = esc "s1._domainkey.ex.org" /\ r = rsa_record) g /\
  sg_domain g = str "ex.org".
Proof. exact sample_good. Qed.
