(** C102: a run of the command line program. *)
From Verif Require Import Bytes Outcome Stream Base64 TagList MailParser Canonicalization Util Crypto Signature PublicKey SignatoryOptions Signatory Validatory Tool ErrorText Reasons Program
  SpecText SpecTags SpecMail SpecSig SpecTool SpecSignTool SpecVerdict SpecProgram VerdictRun ProgramFacts Examples VerifyExamples ToolExamples VerdictExamples ProgramExamples.
Local Open Scope string_scope. Local Open Scope list_scope.

(** C102.  Standard output, standard error and the end, for any command line ([d] is the date of the build). *)
Theorem C102_exact : forall C strict clock r fs d argv, ~ In (chr 37) d -> (forall name args ss files, argv = name :: args -> command_line args ss files -> In Validate ss -> small_files fs files) ->
  forall out err z, program C strict clock (fun n => Ok (r n)) fs d argv = (out, err, z) <-> program_run C strict clock r fs d argv out err z.
Proof. exact program_exact. Qed.
Print Assumptions C102_exact.
Example C102_case : runs ["dkimpp"; "-vh"; "--bad"] (help_says built (str "dkimpp")) [] (Exit 0) /\
  runs ["dkimpp"; "file"; "--vali"; "--arci"; "-h"] [] [] (Undefined UB_null) /\
  runs ["dkimpp"; "-v"; "--bad"; "-h"] [] (help_says built (str "dkimpp")) (Exit 2) /\
  runs ["dkimpp"; "-d"; "ex.org"; "letter"] [] (help_says built (str "dkimpp")) (Exit 2) /\
  runs ["dkimpp"; "signed"; "-v"; "nofile"] (esc "[signed][ex.org][s1] OK\n") [] (Exit 0) /\
  runs ["dkimpp"; "-d"; "ex.org"; "letter"; "-ss1"; "--keyfile=pem"] [] (esc "keyfile pem could not be open\n") (Exit 1) /\
  runs ["dkimpp"; "-dex..org"; "-ss1"; "-kkey"; "--"; "-v"] [] (esc "Invalid domain (d=)\n") (Exit 1) /\
  exists h, runs ["dkimpp"; "-dex.org"; "-ss1"; "-kkey"; "letter"] h [] (Exit 0).
Proof. exact program_cases. Qed.
(** One outcome, and only one. *)
Theorem C102_one : forall C strict clock r fs d argv, ~ In (chr 37) d -> (forall name args ss files, argv = name :: args -> command_line args ss files -> In Validate ss -> small_files fs files) ->
  exists out err z, program_run C strict clock r fs d argv out err z /\ forall out' err' z', program_run C strict clock r fs d argv out' err' z' -> out' = out /\ err' = err /\ z' = z.
Proof. exact program_one. Qed.
Print Assumptions C102_one.
(** Command lines: read in full, or up to the first reason to stop. *)
Theorem C102_line : forall args, ((exists ss files, command_line args ss files /\ Forall usual ss) /\ forall x, ~ halts args x) \/
  ((forall ss files, command_line args ss files -> ~ Forall usual ss) /\ exists x, halts args x /\ forall y, halts args y -> y = x).
Proof. exact line_or_halt. Qed.
Print Assumptions C102_line.
Example C102_case_line : halts (map str ["file"; "-vs"; "x"; "--keytype"; "rsa"; "-h"]) Wrong /\ halts (map str ["-h"; "--keytype"]) Helps /\ halts (map str ["-a"; "--arcinstance"]) Lacks.
Proof. exact line_cases_ex. Qed.
(** Status 0 says nothing on standard error; the others say nothing on standard output. *)
Theorem C102_status : forall C strict clock r fs d argv out err z, program_run C strict clock r fs d argv out err z ->
  z = Exit 0 /\ err = [] \/ (z = Exit 1 \/ z = Exit 2) /\ out = [] /\ (exists x, err = x ++ [LF]) \/ (exists u, z = Undefined u) /\ err = [].
Proof. exact program_status. Qed.
Print Assumptions C102_status.
(** The run is the one of Tool.v. *)
Theorem C102_same : forall C strict clock resolve fs d name args out err z, program C strict clock resolve fs d (name :: args) = (out, err, z) ->
  snd (tool_main C strict clock resolve fs args) = z /\
  match fst (tool_main C strict clock resolve fs args) with
  | P_nothing => out = []
  | P_usage => out = usage d name
  | P_header t => out = t
  | P_lines _ => out = main_text C strict clock resolve fs args
  end.
Proof. exact program_tool. Qed.
Print Assumptions C102_same.
(** Without a name of its own the program prints a null pointer. *)
Theorem C102_name_refuted : exists C strict clock r fs d, program C strict clock (fun n => Ok (r n)) fs d [] = ([], [], Undefined UB_null).
Proof. exact nameless. Qed.
Print Assumptions C102_name_refuted.
