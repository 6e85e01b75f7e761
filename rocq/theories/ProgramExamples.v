(** Runs of the program (for C102). *)
From Verif Require Import SpecPass PassFacts Bytes Outcome Stream Base64 TagList MailParser Canonicalization Util Crypto Signature PublicKey SignatoryOptions Signatory Validatory Tool ErrorText Reasons Program
  SpecText SpecTags SpecMail SpecSig SpecTool SpecSignTool SpecVerdict SpecProgram VerdictRun ProgramFacts Examples VerifyExamples ToolExamples VerdictExamples.
Local Open Scope string_scope. Local Open Scope list_scope.

Definition built : bytes := str "Nov 17 2026".
Definition runs (args : list string) (out err : bytes) (z : ending) : Prop := program_run toy false now5 answers files built (map str args) out err z.
Lemma files_small f t : files f = Some t -> small_fields t.
Proof.
  intros E. assert (X : match files f with Some t => (Z.of_nat (length t) <? 1073741824)%Z | None => true end = true).
  { unfold files. repeat (match goal with |- context [if ?b then _ else _] => destruct b end; [vm_compute; reflexivity|]). reflexivity. }
  rewrite E in X. apply small_text, Z.ltb_lt. exact X.
Qed.
Lemma runs_as args out err z : program toy false now5 (fun n => Ok (answers n)) files built (map str args) = (out, err, z) -> runs args out err z.
Proof.
  intros E. apply program_exact; [|intros name ws ss fl _ _ _ f t _; apply files_small|exact E].
  intros I. assert (X : existsb (fun c => c =?c chr 37) built = true) by (apply existsb_exists; exists (chr 37); split; [exact I|reflexivity]). vm_compute in X. discriminate X.
Qed.
Lemma program_cases : runs ["dkimpp"; "-vh"; "--bad"] (help_says built (str "dkimpp")) [] (Exit 0) /\
  runs ["dkimpp"; "file"; "--vali"; "--arci"; "-h"] [] [] (Undefined UB_null) /\
  runs ["dkimpp"; "-v"; "--bad"; "-h"] [] (help_says built (str "dkimpp")) (Exit 2) /\
  runs ["dkimpp"; "-d"; "ex.org"; "letter"] [] (help_says built (str "dkimpp")) (Exit 2) /\
  runs ["dkimpp"; "signed"; "-v"; "nofile"] (esc "[signed][ex.org][s1] OK\n") [] (Exit 0) /\
  runs ["dkimpp"; "-d"; "ex.org"; "letter"; "-ss1"; "--keyfile=pem"] [] (esc "keyfile pem could not be open\n") (Exit 1) /\
  runs ["dkimpp"; "-dex..org"; "-ss1"; "-kkey"; "--"; "-v"] [] (esc "Invalid domain (d=)\n") (Exit 1) /\
  exists h, runs ["dkimpp"; "-dex.org"; "-ss1"; "-kkey"; "letter"] h [] (Exit 0).
Proof.
  split; [apply runs_as; vm_compute; reflexivity|]. split; [apply runs_as; vm_compute; reflexivity|]. split; [apply runs_as; vm_compute; reflexivity|].
  split; [apply runs_as; vm_compute; reflexivity|]. split; [apply runs_as; vm_compute; reflexivity|]. split; [apply runs_as; vm_compute; reflexivity|].
  split; [apply runs_as; vm_compute; reflexivity|]. eexists. apply runs_as. vm_compute. reflexivity.
Qed.
Lemma line_cases_ex : halts (map str ["file"; "-vs"; "x"; "--keytype"; "rsa"; "-h"]) Wrong /\ halts (map str ["-h"; "--keytype"]) Helps /\ halts (map str ["-a"; "--arcinstance"]) Lacks.
Proof.
  assert (K : forall args x, take_options (fst (getopt args)) new_args = inr (halt_end x) -> halts args x).
  { intros args x T. destruct (line_cases _ args (le_n _)) as [(ss & fl & CL & U)|(y & H)].
    - rewrite (ToolArgs.command_getopt _ _ _ CL) in T. destruct (take_usual ss U new_args) as (a & E). cbn [fst] in T. congruence.
    - rewrite (halts_take _ _ H) in T. destruct x, y; auto; discriminate T. }
  split; [apply K; vm_compute; reflexivity|]. split; apply K; vm_compute; reflexivity.
Qed.
Lemma nameless : exists C strict clock r fs d, program C strict clock (fun n => Ok (r n)) fs d [] = ([], [], Undefined UB_null).
Proof. exists toy, false, now5, answers, files, built. reflexivity. Qed.
