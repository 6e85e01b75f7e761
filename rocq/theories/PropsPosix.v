(** Property C112: the order of options and files on the command line. *)
From Verif Require Import Bytes Outcome Stream Crypto Signature Validatory Tool Program SpecTool SpecProgram Posix SpecPosix PosixFacts PosixExamples ProgramExamples Examples.
Local Open Scope string_scope. Local Open Scope list_scope.

(** C112.  Options first and files behind them, the order the help gives: POSIXLY_CORRECT makes no difference. *)
Theorem C112_documented : forall C strict clock res fs d name opts ss files, options_only opts ss -> Forall operand files ->
  program_posix C strict clock res fs d (name :: opts ++ files) = program C strict clock res fs d (name :: opts ++ files).
Proof. exact posix_documented. Qed.
Print Assumptions C112_documented.
Example C112_documented_case : options_only [str "-v"] [Validate] /\ Forall operand [str "signed"; str "nofile"] /\
  run_posix ["dkimpp"; "-v"; "signed"; "nofile"] = (esc "[signed][ex.org][s1] OK\n", [], Exit 0).
Proof. exact usual_order. Qed.
(** In any other order, the program with POSIXLY_CORRECT does what it does without it when "--" is put in front of the first file. *)
Theorem C112_dashes : forall C strict clock res fs d name opts ss f r, options_only opts ss -> operand f ->
  program_posix C strict clock res fs d (name :: opts ++ f :: r) = program C strict clock res fs d (name :: opts ++ [DASH; DASH] :: f :: r).
Proof. exact posix_dashes. Qed.
Print Assumptions C112_dashes.
Example C112_dashes_case : options_only [str "-v"] [Validate] /\ operand (str "signed") /\
  run_posix ["dkimpp"; "-v"; "signed"; "-h"] = run_plain ["dkimpp"; "-v"; "--"; "signed"; "-h"] /\
  run_plain ["dkimpp"; "-v"; "signed"; "-h"] = (usage built (str "dkimpp"), [], Exit 0).
Proof. exact first_options. Qed.
(** Every command line, readable or not. *)
Theorem C112_all : forall C strict clock res fs d argv, program_posix C strict clock res fs d argv = program C strict clock res fs d argv \/
  exists pre f r, argv = pre ++ f :: r /\ pre <> [] /\ operand f /\
    program_posix C strict clock res fs d argv = program C strict clock res fs d (pre ++ [DASH; DASH] :: f :: r).
Proof. exact posix_program. Qed.
Print Assumptions C112_all.
(** So an option behind a file is read in one case and taken for a file in the other. *)
Theorem C112_refuted : exists args, run_plain args = (esc "[signed][ex.org][s1] OK\n", [], Exit 0) /\ run_posix args = ([], usage built (str "dkimpp"), Exit 2).
Proof. exact option_behind. Qed.
Print Assumptions C112_refuted.
