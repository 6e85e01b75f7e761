(** C58 to C62: the command line program. *)
From Verif Require Import Bytes Outcome Stream TagList MailParser Canonicalization Util CStdlib Resolver Crypto Signature PublicKey
  SignatoryOptions Signatory Validatory SpecText SpecTags SpecMail SpecCanon SpecVerify SpecSig SpecKey SpecOptions SpecSign MailFacts SelectFacts BodyFacts Tool SpecTool
  BodyProps SigProps VerifyFacts VerifyProps SignRound SignProps ToolFacts ToolSign ToolArgs ToolMain Examples VerifyExamples SignExamples ToolExamples SpecPass.

(** A line that says OK names the domain and selector of a genuine signature in that file. *)
Theorem C58_ok : forall C strict clock resolve fs args ss files ls x l, command_line args ss files -> Forall usual ss ->
  tool_main C strict clock resolve fs args = (P_lines ls, x) -> In l ls -> l_report l = R_OK ->
  (forall f t, In f files -> fs f = Some t -> small_fields t) ->
  exists ty t h k g, kind ss ty /\ In (l_file l) files /\ fs (l_file l) = Some t /\ In h (file_fields ty (Some t)) /\
    genuine C strict resolve t h (clock k) g /\ l_domain l = sg_domain g /\ l_selector l = sg_selector g.
Proof. exact main_ok. Qed.
Print Assumptions C58_ok.
Example C58_case : command_line [str "-v"; str "signed"] [Validate] [str "signed"] /\ Forall usual [Validate] /\
  run ["-v"; "signed"]%string = (P_lines [mkLine (str "signed") (str "ex.org") (str "s1") R_OK], Exit 0).
Proof. exact (conj (verify_line (str "signed") (ltac:(discriminate))) (conj (proj2 all_usual) run_ok)). Qed.

(** When the program ends with status 0 there is one line for each signature field of each file,
    in order, and it says what the library calls give. *)
Theorem C59_lines : forall C strict clock resolve fs args ss files ls, command_line args ss files -> Forall usual ss ->
  tool_main C strict clock resolve fs args = (P_lines ls, Exit 0) ->
  exists ty, kind ss ty /\
  Forall2 (fun fh l => l_file l = fst fh /\ exists t k e0, fs (fst fh) = Some t /\ judged C strict ty resolve t (snd fh) (clock k) e0 l) (all_fields ty fs files) ls.
Proof. exact main_lines. Qed.
Print Assumptions C59_lines.
(** The lines do not depend on each other when no field sets errno. *)
Theorem C59_independent_partial : forall C strict clock resolve fs args ss f more ty ls, command_line args ss (f :: more) -> Forall usual ss -> In Validate ss ->
  (forall v, ~ In (Instance v) ss) -> kind ss ty ->
  Forall (fun p => ~ sets_errno (snd p)) (all_fields ty fs (f :: more)) ->
  tool_main C strict clock resolve fs args = (P_lines ls, Exit 0) ->
  Forall2 (fun fh l => l_file l = fst fh /\ exists t k, fs (fst fh) = Some t /\ judged C strict ty resolve t (snd fh) (clock k) false l) (all_fields ty fs (f :: more)) ls.
Proof. exact main_quiet. Qed.
Print Assumptions C59_independent_partial.
(** With the DNS lookup of the program it does end with status 0.  Missing: fields with an Ed25519
    signature shorter than 63 bytes, files of a gigabyte, checked iterators. *)
Theorem C59_ends_partial : forall C clock lax answer fs args ss f more, command_line args ss (f :: more) -> Forall usual ss -> In Validate ss ->
  (forall ty f' t, In f' (f :: more) -> fs f' = Some t -> small_fields t /\ Forall (harmless C) (file_fields ty (Some t))) ->
  exists ls, tool_main C false clock (fun q => GetTXT lax (answer q)) fs args = (P_lines ls, Exit 0).
Proof. exact main_ends. Qed.
Print Assumptions C59_ends_partial.
Theorem C59_neighbour_refuted : exists C strict clock resolve t x args f,
  tool_main C strict clock resolve (fun _ => Some t) args = (P_lines [mkLine f (str "ex.org") (str "s1") R_OK], Exit 0) /\
  exists d s, tool_main C strict clock resolve (fun _ => Some (x ++ CRLF ++ t)) args =
    (P_lines [mkLine f d s (R_PERM AR_PERMERROR); mkLine f d s (R_PERM AR_PERMERROR)], Exit 0).
Proof. exact neighbour_spoils. Qed.
Print Assumptions C59_neighbour_refuted.
Theorem C59_instance_refuted : exists C strict clock resolve fs f,
  tool_main C strict clock resolve fs [str "-v"; f] = (P_lines [mkLine f (str "ex.org") (str "s1") R_OK], Exit 0) /\
  exists n d s, digits n /\ tool_main C strict clock resolve fs [str "-v"; str "-A"; n; f] = (P_lines [mkLine f d s (R_PERM AR_PERMERROR)], Exit 0).
Proof. exact big_instance_spoils. Qed.
Print Assumptions C59_instance_refuted.
(** The status does not tell whether a signature was good. *)
Theorem C59_status_refuted : exists C strict clock resolve fs args ls, tool_main C strict clock resolve fs args = (P_lines ls, Exit 0) /\ ls <> [] /\
  Forall (fun l => l_report l <> R_OK) ls.
Proof. exact status_hides. Qed.
Print Assumptions C59_status_refuted.
Example C59_case : run ["forged"; "--val"; "nofile"]%string = (P_lines [mkLine (str "forged") (str "ex.org") (str "s1") (R_PERM AR_FAIL)], Exit 0).
Proof. exact run_forged. Qed.

(** The printed header put before the message: verifying gives OK, for at most a second. *)
Theorem C60_round_trip : forall C strict clock resolve fs args ss mail others txt, command_line args ss (mail :: others) -> Forall usual ss ->
  tool_main C strict clock resolve fs args = (P_header txt, Exit 0) -> forall t, fs mail = Some t -> ~ starts_wsp t -> has_from t ->
  exists a k o, settings ss a /\ fs (a_keyfile a) = Some k /\ chain C (tool_ops a k) new_options = Ok o /\
  forall clock2 resolve2 fs2 args2 ss2 f more p r, (a_instance a <= 50)%N ->
    serves C o (o_main o) p -> PublicKey_Parse C strict r new_public_key = (p, Ok tt) ->
    resolve2 (a_selector a ++ str "._domainkey." ++ map low (a_domain a)) = Ok (true, r) -> r <> [] ->
    command_line args2 ss2 (f :: more) -> Forall usual ss2 -> In Validate ss2 -> (forall v, ~ In (Instance v) ss2) -> kind ss2 (tool_type a) ->
    fs2 f = Some (txt ++ t) -> small_fields (txt ++ t) -> (clock2 0%nat <= clock 0%nat + 1)%Z ->
    exists ls x, tool_main C strict clock2 resolve2 fs2 args2 =
      (P_lines (mkLine f (map low (a_domain a)) (a_selector a) R_OK :: ls), x).
Proof. exact main_round_trip. Qed.
Print Assumptions C60_round_trip.
Example C60_case : command_line (map str sign_args) [Domain (str "EX.org"); Selector (str "s1"); Keyfile (str "key")] [str "letter"] /\
  run sign_args = (P_header letter_header, Exit 0) /\
  tool_main toy false (fun _ => 6%Z) one_record files2 [str "-v"; str "new"] =
    (P_lines [mkLine (str "new") (str "ex.org") (str "s1") R_OK], Exit 0).
Proof. exact (conj sign_line (conj run_sign run_signed_line)). Qed.

(** Two seconds later, and ever after, it is refused. *)
Theorem C61_short_lived : forall C clock resolve fs args ss mail others txt, signs_something C -> command_line args ss (mail :: others) -> Forall usual ss ->
  tool_main C false clock resolve fs args = (P_header txt, Exit 0) -> forall t, fs mail = Some t -> ~ starts_wsp t -> has_from t ->
  exists a, settings ss a /\
  forall clock2 resolve2 fs2 args2 ss2 f more, (a_instance a <= 50)%N ->
    command_line args2 ss2 (f :: more) -> Forall usual ss2 -> In Validate ss2 -> (forall v, ~ In (Instance v) ss2) -> kind ss2 (tool_type a) ->
    fs2 f = Some (txt ++ t) -> (0 <= clock 0%nat)%Z -> (clock 0%nat + 1 < clock2 0%nat <= LONG_MAX)%Z ->
    exists d s ls x, tool_main C false clock2 resolve2 fs2 args2 = (P_lines (mkLine f d s (R_PERM AR_PERMERROR) :: ls), x).
Proof. exact main_expired. Qed.
Print Assumptions C61_short_lived.
Theorem C61_expired_refuted : exists C resolve fs args txt fs2 args2 d s,
  tool_main C false (fun _ => 5%Z) resolve fs args = (P_header txt, Exit 0) /\
  (exists f t, fs2 f = Some (txt ++ t) /\ fs (str "letter") = Some t) /\
  tool_main C false (fun _ => 7%Z) resolve fs2 args2 = (P_lines [mkLine (str "new") d s (R_PERM AR_PERMERROR)], Exit 0).
Proof. exact expired_case. Qed.
Print Assumptions C61_expired_refuted.
(** A message file that cannot be opened is signed. *)
Theorem C61_absent_refuted : exists C strict clock resolve fs args f txt, fs f = None /\ command_line args [Domain (str "ex.org"); Selector (str "s1"); Keyfile (str "key")] [f] /\
  tool_main C strict clock resolve fs args = (P_header txt, Exit 0).
Proof. exact absent_signed. Qed.
Print Assumptions C61_absent_refuted.

(** Command lines of the grammar have one reading, and the program acts on it. *)
Theorem C62_unique : forall args ss files ss' files', command_line args ss files -> command_line args ss' files' -> ss = ss' /\ files = files'.
Proof. exact command_unique. Qed.
Print Assumptions C62_unique.
Theorem C62_obeyed : forall C strict clock resolve fs args ss files, command_line args ss files -> Forall usual ss ->
  exists a, settings ss a /\
  tool_main C strict clock resolve fs args =
    match files with
    | [] => (P_nothing, Exit 2)
    | f :: _ =>
        if a_validate a then let '(ls, e) := tool_files C strict clock resolve fs (a_type a) files 0 (a_errno a) in (P_lines ls, e)
        else if blank (a_selector a) || blank (a_domain a) || blank (a_keyfile a) then (P_nothing, Exit 2)
        else let '(t, e) := tool_sign C strict clock a (fs (a_keyfile a)) (fs f) in
             (match t with [] => P_nothing | _ => P_header t end, e)
    end.
Proof. exact main_command. Qed.
Print Assumptions C62_obeyed.
Theorem C62_help : forall C strict clock resolve fs args s1 s2 files, command_line args (s1 ++ Help :: s2) files -> Forall usual s1 ->
  tool_main C strict clock resolve fs args = (P_usage, Exit 0).
Proof. exact main_help. Qed.
Print Assumptions C62_help.
(** Anything else gives no header and no line. *)
Theorem C62_otherwise : forall C strict clock resolve fs args, ~ (exists ss files, command_line args ss files) ->
  tool_main C strict clock resolve fs args = (P_nothing, Exit 2) \/ tool_main C strict clock resolve fs args = (P_usage, Exit 0) \/
  tool_main C strict clock resolve fs args = (P_nothing, Undefined UB_null).
Proof. exact main_bad. Qed.
Print Assumptions C62_otherwise.
Example C62_case : command_line (map str sign_args) [Domain (str "EX.org"); Selector (str "s1"); Keyfile (str "key")] [str "letter"] /\
  command_line [str "-v"; str "signed"] [Validate] [str "signed"] /\ run [] = (P_nothing, Exit 2) /\ run ["-vq"; "signed"]%string = (P_nothing, Exit 2) /\
  run ["--key"; "x"]%string = (P_nothing, Exit 2) /\ run ["-q"]%string = (P_nothing, Exit 2) /\ run ["-h"; "-q"]%string = (P_usage, Exit 0).
Proof.
  split; [exact sign_line|]. split; [apply verify_line; discriminate|]. split; [vm_compute; reflexivity|]. split; [vm_compute; reflexivity|].
  split; [vm_compute; reflexivity|]. split; vm_compute; reflexivity.
Qed.

(** --arcinstance leads to strtoul(NULL). *)
Theorem C62_no_value : forall C strict clock resolve fs args s1 s2 files, command_line args (s1 ++ NoInstance :: s2) files -> Forall usual s1 ->
  tool_main C strict clock resolve fs args = (P_nothing, Undefined UB_null).
Proof. exact main_no_instance. Qed.
Print Assumptions C62_no_value.
Theorem C62_instance_refuted : exists C strict clock resolve fs,
  tool_main C strict clock resolve fs (map str ["--arcinstance"; "3"; "-v"; "signed"]%string) = (P_nothing, Undefined UB_null).
Proof. exact no_value_case. Qed.
Print Assumptions C62_instance_refuted.
(** --keytype, as documented, is refused; a format that does not exist is taken for rsa. *)
Theorem C62_keytype : forall C strict clock resolve fs args, tool_main C strict clock resolve fs (str "--keytype" :: args) = (P_nothing, Exit 2).
Proof. exact main_keytype. Qed.
Print Assumptions C62_keytype.
Theorem C62_keytype_refuted : exists C strict clock resolve fs args, tool_main C strict clock resolve fs (args ++ [str "--keytype"; str "rsa"]) = (P_nothing, Exit 2) /\
  exists txt, tool_main C strict clock resolve fs (args ++ [str "--keyformat"; str "rsa"]) = (P_header txt, Exit 0).
Proof. exact keytype_case. Qed.
Print Assumptions C62_keytype_refuted.
Theorem C62_format_refuted : exists C strict clock resolve fs args txt, tool_main C strict clock resolve fs (args ++ [str "--keyformat"; str "dsa"]) = (P_header txt, Exit 0).
Proof. exact unknown_format. Qed.
Print Assumptions C62_format_refuted.
