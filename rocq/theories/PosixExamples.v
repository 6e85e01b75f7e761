(** Concrete cases for C112. *)
From Verif Require Import Bytes Outcome Stream Crypto Signature Validatory Tool Reasons SignReasons Program SpecText SpecTool SpecProgram ProgramFacts Posix SpecPosix Examples VerifyExamples ToolExamples VerdictExamples ProgramExamples.
Local Open Scope string_scope. Local Open Scope list_scope.

Definition run_posix (args : list string) : bytes * bytes * ending := program_posix toy false now5 (fun n => Ok (answers n)) files built (map str args).
Definition run_plain (args : list string) : bytes * bytes * ending := program toy false now5 (fun n => Ok (answers n)) files built (map str args).
Lemma option_behind : exists args, run_plain args = (esc "[signed][ex.org][s1] OK\n", [], Exit 0) /\ run_posix args = ([], usage built (str "dkimpp"), Exit 2).
Proof. exists ["dkimpp"; "signed"; "-v"]. split; vm_compute; reflexivity. Qed.
Lemma first_options : options_only [str "-v"] [Validate] /\ operand (str "signed") /\
  run_posix ["dkimpp"; "-v"; "signed"; "-h"] = run_plain ["dkimpp"; "-v"; "--"; "signed"; "-h"] /\
  run_plain ["dkimpp"; "-v"; "signed"; "-h"] = (usage built (str "dkimpp"), [], Exit 0).
Proof.
  split; [|split; [right; cbn; discriminate|split; vm_compute; reflexivity]].
  change [str "-v"] with ([DASH :: [chr 118]] ++ []). change [Validate] with ([Validate] ++ []). apply oo_more; [|constructor].
  apply it_short; [discriminate|]. change [Validate] with (Validate :: []). constructor; constructor.
Qed.
Lemma usual_order : options_only [str "-v"] [Validate] /\ Forall operand [str "signed"; str "nofile"] /\
  run_posix ["dkimpp"; "-v"; "signed"; "nofile"] = (esc "[signed][ex.org][s1] OK\n", [], Exit 0).
Proof.
  split; [exact (proj1 first_options)|]. split; [|vm_compute; reflexivity]. repeat apply Forall_cons; [right; cbn; discriminate..|constructor].
Qed.
