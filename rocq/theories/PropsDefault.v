(** Property C74: the fields signed unless told otherwise. *)
From Verif Require Import Bytes Outcome Stream MailParser Crypto SignatoryOptions Signatory SpecText SpecTags SpecMail SpecVerify SpecOptions SpecSign SpecSig
  MailFacts SignExamples Examples DefaultFacts.

(** [selection]: the fields a verifier takes for the names in h=. *)
Theorem C74_usual : forall C strict clock l t y H m s, signs_something C -> parse_all new_message (open_str t) = Ok (m, s) ->
  (forall x ns, In x l -> x <> SetHeaders ns /\ x <> DelHeaders ns) ->
  (forall ns w, In (AddHeaders ns) l \/ In (SetOversignHeaders ns) l -> In w ns -> signable_name w) ->
  let o := run_ops C l new_options in (o_arc o <> 0%N -> o_identity o = []) ->
  CreateSignature C strict clock o (new_signatory (open_str t)) = (y, Ok H) ->
  exists fields, H = joined fields /\ length fields = length (all_signatures o) /\
  Forall (fun x => exists tags v names, field_tags (header_of x) tags /\ has tags "h" v /\ rendered_list names v /\
    forall h n, In h (m_headers m) -> In n usual_headers -> same_name (h_name h) n = true -> In h (selection h_name (m_headers m) [] names)) fields.
Proof. exact usual_signed. Qed.
Print Assumptions C74_usual.
Theorem C74_recommended : forall n, In n recommended_headers -> In n usual_headers.
Proof. exact recommended_usual. Qed.
Print Assumptions C74_recommended.
Example C74_case : exists y H m s, parse_all new_message (open_str letter) = Ok (m, s) /\
  (forall x ns, In x rsa_calls -> x <> SetHeaders ns /\ x <> DelHeaders ns) /\ o_arc (run_ops toy rsa_calls new_options) = 0%N /\
  CreateSignature toy true (fun _ => 5%Z) (run_ops toy rsa_calls new_options) (new_signatory (open_str letter)) = (y, Ok H) /\
  exists h, In h (m_headers m) /\ In (str "subject") recommended_headers /\ same_name (h_name h) (str "subject") = true.
Proof. exact usual_case. Qed.
