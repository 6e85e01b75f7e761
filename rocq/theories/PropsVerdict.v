(** C101: a verifying run of the program. *)
From Verif Require Import Bytes Outcome Stream Base64 TagList MailParser Canonicalization Util Crypto Signature PublicKey SignatoryOptions Signatory Validatory Tool ErrorText Reasons
  SpecText SpecTags SpecMail SpecCanon SpecSig SpecParse SpecReason SpecPass SpecStop SpecTool SpecEight SpecVerdict VerdictCore VerdictRun Examples VerifyExamples ReasonExamples ToolExamples EightExamples VerdictExamples.
Local Open Scope string_scope. Local Open Scope list_scope.

(** C101.  What the program writes and how it ends, for any files of less than 1 GiB. *)
Theorem C101_run : forall C strict clock r fs args ss files a, command_line args ss files -> Forall usual ss -> all_settings ss a -> In Validate ss -> files <> [] -> small_files fs files ->
  forall out z,
    main_text C strict clock (fun n => Ok (r n)) fs args = out /\ snd (tool_main C strict clock (fun n => Ok (r n)) fs args) = z <->
    verifying_run C strict clock r fs (a_type a) files 0 (a_errno a) out z.
Proof. exact run_exact. Qed.
Print Assumptions C101_run.
Example C101_case : verifying_run toy false now5 answers files V_DKIM [str "signed"; str "nofile"; str "forged"; str "two"] 0 false
  (esc "[signed][ex.org][s1] OK\n[forged][ex.org][s1](fail) SOFT:Signature did not verify\n[two][ex.org][](permerror) = Invalid body signed length; exceeds available storage size of unsigned long (l)\n[two][ex.org][](permerror) = Invalid body signed length; exceeds available storage size of unsigned long (l)\n") (Exit 0).
Proof. exact run_case. Qed.
Example C101_case_lost : verifying_run toy true now5 answers lost_files V_DKIM [str "good"; str "utf8"] 0 false (esc "[good][ex.org][s1] OK\n") (Undefined UB_ctype) /\
  verifying_run toy false now5 ed_answers lost_files V_DKIM [str "short"; str "good"] 0 false [] (Undefined UB_oob_read).
Proof. exact lost_case. Qed.
(** One outcome, and only one. *)
Theorem C101_one : forall C strict clock r files ty names n e, ty <> V_NONE -> small_files files names ->
  exists out z, verifying_run C strict clock r files ty names n e out z /\ forall out' z', verifying_run C strict clock r files ty names n e out' z' -> out' = out /\ z' = z.
Proof. exact verifying_one. Qed.
Print Assumptions C101_one.
(** One signature of an opened message. *)
Theorem C101_signature : forall C strict ty t fs v now r h e0 x, new_validatory strict ty (open_str t) = Ok v -> small_fields t -> has_fields t fs -> In h (v_sigs v) ->
  gives C strict r t fs now e0 h x <-> verdict_of C strict now (fun n => Ok (r n)) h e0 v = Some x.
Proof. exact opened_exact. Qed.
Print Assumptions C101_signature.
(** The settings: one reading of any command line, with every number. *)
Theorem C101_settings : forall ss, Forall usual ss -> exists a, all_settings ss a /\ forall a', all_settings ss a' -> a' = a.
Proof. exact settings_exist. Qed.
Print Assumptions C101_settings.
Example C101_case_settings : all_settings [Validate] (mkArgs true [] [] [] (str "rsa") V_DKIM 0 false) /\
  exists a, all_settings [Instance (str " -1"); Validate; Instance (str "99999999999999999999x"); Instance (esc "\t7th")] a /\ a_instance a = 7%N /\ a_errno a = true.
Proof. exact settings_case. Qed.
