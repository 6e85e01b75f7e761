(** Concrete command lines and files for the examples beside the theorems about the program. *)
From Verif Require Import Bytes Outcome Stream Base64 MailParser Util Crypto Signature PublicKey SignatoryOptions Signatory Validatory SpecText SpecTags SpecMail
  SpecVerify SpecSig SpecKey SpecOptions SpecSign VerifyFacts VerifyProps SignRound Tool SpecTool ToolSign ToolArgs ToolMain Examples VerifyExamples SignExamples.

Definition word (s : string) : bytes := str s.
Definition one_record : bytes -> outcome (bool * bytes) := fun q =>
  if beqb q (str "s1._domainkey.ex.org") then Ok (true, rsa_record) else Ok (false, []).
(** A second signature field, with l=, that is good by itself. *)
Definition l_good : bytes :=
  let before := esc "DKIM-Signature: v=1; a=rsa-sha256; d=ex.org; s=s1; h=From; l=4; bh=" ++ sample_bh ++ esc "; b=" in
  before ++ Base64_Encode (chr 2 :: toy_hash 32 (sample_from ++ CRLF ++ before) ++ esc "KEY").
Definition files (f : bytes) : option bytes :=
  if beqb f (str "signed") then Some (sample_message "rsa-sha256" rsa_b)
  else if beqb f (str "forged") then Some (sample_message "rsa-sha256" (esc "QUJD"))
  else if beqb f (str "one") then Some (l_good ++ CRLF ++ sample_from ++ CRLF ++ CRLF ++ sample_body)
  else if beqb f (str "two") then Some (l_field "99999999999999999999" ++ CRLF ++ l_good ++ CRLF ++ sample_from ++ CRLF ++ CRLF ++ sample_body)
  else if beqb f (str "letter") then Some letter
  else if beqb f (str "key") then Some (esc "S0VZ")
  else None.
Definition now5 : nat -> Z := fun _ => 5%Z.
Definition run (args : list string) : printed * ending := tool_main toy false now5 one_record files (map str args).
Definition sign_args : list string := ["-d"; "EX.org"; "--sel"; "s1"; "-kkey"; "letter"]%string.
(** The header printed for [letter]. *)
Definition letter_header : bytes := match run sign_args with (P_header t, _) => t | _ => [] end.
Definition files2 (f : bytes) : option bytes := if beqb f (str "new") then Some (letter_header ++ letter) else None.

Example run_ok : run ["-v"; "signed"]%string = (P_lines [mkLine (str "signed") (str "ex.org") (str "s1") R_OK], Exit 0).
Proof. vm_compute. reflexivity. Qed.
Example run_forged : run ["forged"; "--val"; "nofile"]%string = (P_lines [mkLine (str "forged") (str "ex.org") (str "s1") (R_PERM AR_FAIL)], Exit 0).
Proof. vm_compute. reflexivity. Qed.
Example run_one : run ["-v"; "one"]%string = (P_lines [mkLine (str "one") (str "ex.org") (str "s1") R_OK], Exit 0).
Proof. vm_compute. reflexivity. Qed.
Example run_two : run ["-v"; "two"]%string =
  (P_lines [mkLine (str "two") (str "ex.org") [] (R_PERM AR_PERMERROR); mkLine (str "two") (str "ex.org") [] (R_PERM AR_PERMERROR)], Exit 0).
Proof. vm_compute. reflexivity. Qed.
Example run_sign : run sign_args = (P_header letter_header, Exit 0).
Proof. vm_compute. reflexivity. Qed.
Example run_signed_line : tool_main toy false (fun _ => 6%Z) one_record files2 [str "-v"; str "new"] =
  (P_lines [mkLine (str "new") (str "ex.org") (str "s1") R_OK], Exit 0).
Proof. vm_compute. reflexivity. Qed.
Example run_expired : tool_main toy false (fun _ => 7%Z) one_record files2 [str "-v"; str "new"] =
  (P_lines [mkLine (str "new") (str "ex.org") (str "s1") (R_PERM AR_PERMERROR)], Exit 0).
Proof. vm_compute. reflexivity. Qed.

(** The command lines above, read by the grammar. *)
Lemma written_sel : written (str "sel") (str "selector").
Proof.
  right. split; [exists (str "ector"); reflexivity|]. intros other r [(s & L)|(mk & L)] E; inversion L; subst; discriminate || reflexivity.
Qed.
Lemma sign_line : command_line (map str sign_args) [Domain (str "EX.org"); Selector (str "s1"); Keyfile (str "key")] [str "letter"].
Proof.
  change (command_line ((DASH :: str "d") :: str "EX.org" :: (DASH :: DASH :: str "sel") :: str "s1" :: (DASH :: "k"%char :: str "key") :: str "letter" :: [])
            ([] ++ Domain (str "EX.org") :: Selector (str "s1") :: [Keyfile (str "key")] ++ []) [str "letter"]).
  apply cl_short_next; [apply cu_pending; constructor|].
  apply (cl_long_next _ (str "selector") Selector); [constructor|exact written_sel|].
  apply cl_short; [discriminate|apply cu_value; [constructor|discriminate]|].
  apply cl_operand; [right; discriminate|constructor].
Qed.
Lemma verify_line f : first_ok (fun c => c <> DASH) f -> command_line [str "-v"; f] [Validate] [f].
Proof.
  intros F. change (command_line ((DASH :: str "v") :: f :: []) ([Validate] ++ []) [f]).
  apply cl_short; [discriminate|apply cu_flag; [constructor|constructor]|]. apply cl_operand; [right; exact F|constructor].
Qed.
Lemma all_usual : Forall usual [Domain (str "EX.org"); Selector (str "s1"); Keyfile (str "key")] /\ Forall usual [Validate].
Proof. split; repeat constructor; discriminate. Qed.

(** What the program does not do. *)
Lemma status_hides : exists C strict clock resolve fs args ls, tool_main C strict clock resolve fs args = (P_lines ls, Exit 0) /\ ls <> [] /\
  Forall (fun l => l_report l <> R_OK) ls.
Proof.
  exists toy, false, now5, one_record, files, (map str ["-v"; "forged"]%string). eexists. split; [vm_compute; reflexivity|].
  split; [discriminate|]. constructor; [discriminate|constructor].
Qed.
Lemma neighbour_spoils : exists C strict clock resolve t x args f,
  tool_main C strict clock resolve (fun _ => Some t) args = (P_lines [mkLine f (str "ex.org") (str "s1") R_OK], Exit 0) /\
  exists d s, tool_main C strict clock resolve (fun _ => Some (x ++ CRLF ++ t)) args =
    (P_lines [mkLine f d s (R_PERM AR_PERMERROR); mkLine f d s (R_PERM AR_PERMERROR)], Exit 0).
Proof.
  exists toy, false, now5, one_record, (l_good ++ CRLF ++ sample_from ++ CRLF ++ CRLF ++ sample_body), (l_field "99999999999999999999"),
    [str "-v"; str "m"], (str "m").
  split; [vm_compute; reflexivity|]. exists (str "ex.org"), []. vm_compute. reflexivity.
Qed.
Lemma big_instance_spoils : exists C strict clock resolve fs f,
  tool_main C strict clock resolve fs [str "-v"; f] = (P_lines [mkLine f (str "ex.org") (str "s1") R_OK], Exit 0) /\
  exists n d s, digits n /\ tool_main C strict clock resolve fs [str "-v"; str "-A"; n; f] = (P_lines [mkLine f d s (R_PERM AR_PERMERROR)], Exit 0).
Proof.
  exists toy, false, now5, one_record, files, (str "one"). split; [vm_compute; reflexivity|].
  exists (str "99999999999999999999"), (str "ex.org"), []. split; [|vm_compute; reflexivity].
  split; [discriminate|]. repeat (constructor; [split; vm_compute; discriminate|]). constructor.
Qed.
Lemma absent_signed : exists C strict clock resolve fs args f txt, fs f = None /\ command_line args [Domain (str "ex.org"); Selector (str "s1"); Keyfile (str "key")] [f] /\
  tool_main C strict clock resolve fs args = (P_header txt, Exit 0).
Proof.
  exists toy, false, now5, one_record, files, (map str ["-dex.org"; "-ss1"; "-kkey"; "absent"]%string), (str "absent").
  eexists. split; [reflexivity|]. split; [|vm_compute; reflexivity].
  change (command_line ((DASH :: "d"%char :: str "ex.org") :: (DASH :: "s"%char :: str "s1") :: (DASH :: "k"%char :: str "key") :: str "absent" :: [])
            ([Domain (str "ex.org")] ++ [Selector (str "s1")] ++ [Keyfile (str "key")] ++ []) [str "absent"]).
  do 3 (apply cl_short; [discriminate|apply cu_value; [constructor|discriminate]|]). apply cl_operand; [right; discriminate|constructor].
Qed.
Lemma unknown_format : exists C strict clock resolve fs args txt, tool_main C strict clock resolve fs (args ++ [str "--keyformat"; str "dsa"]) = (P_header txt, Exit 0).
Proof. exists toy, false, now5, one_record, files, (map str sign_args). eexists. vm_compute. reflexivity. Qed.
Lemma keytype_case : exists C strict clock resolve fs args, tool_main C strict clock resolve fs (args ++ [str "--keytype"; str "rsa"]) = (P_nothing, Exit 2) /\
  exists txt, tool_main C strict clock resolve fs (args ++ [str "--keyformat"; str "rsa"]) = (P_header txt, Exit 0).
Proof.
  exists toy, false, now5, one_record, files, (map str sign_args). split; [vm_compute; reflexivity|]. eexists. vm_compute. reflexivity.
Qed.
Lemma expired_case : exists C resolve fs args txt fs2 args2 d s,
  tool_main C false (fun _ => 5%Z) resolve fs args = (P_header txt, Exit 0) /\
  (exists f t, fs2 f = Some (txt ++ t) /\ fs (str "letter") = Some t) /\
  tool_main C false (fun _ => 7%Z) resolve fs2 args2 = (P_lines [mkLine (str "new") d s (R_PERM AR_PERMERROR)], Exit 0).
Proof.
  exists toy, one_record, files, (map str sign_args), letter_header, files2, [str "-v"; str "new"], (str "ex.org"), (str "s1").
  split; [vm_compute; reflexivity|]. split; [|vm_compute; reflexivity]. exists (str "new"), letter. split; vm_compute; reflexivity.
Qed.
Lemma no_value_case : exists C strict clock resolve fs,
  tool_main C strict clock resolve fs (map str ["--arcinstance"; "3"; "-v"; "signed"]%string) = (P_nothing, Undefined UB_null).
Proof. exists toy, false, now5, one_record, files. vm_compute. reflexivity. Qed.
