(** C80: the text of the reports. *)
From Verif Require Import Bytes Outcome MailParser Crypto Signature PublicKey Validatory SpecText SpecTool Tool ToolText SpecReport Reasons ReportFacts ReasonText
  Examples VerifyExamples ToolExamples ReportExamples.

(** A line of the output that reads like the report of a good signature is one.  Missing: key
    records with LF, and names with "]". *)
Theorem C80_ok_line_partial : forall C strict clock resolve fs args ls x out f d s,
  (forall q r, resolve q = Ok (true, r) -> ~ In LF r) -> Forall (fun a => ~ In LF a) args ->
  tool_main C strict clock resolve fs args = (P_lines ls, x) -> printing ls (main_why C strict clock resolve fs args) out ->
  line_of out (ok_line f d s) -> ~ In "]"%char f -> ~ In "]"%char d -> ~ In "]"%char s -> In (mkLine f d s R_OK) ls.
Proof. exact ok_reported. Qed.
Print Assumptions C80_ok_line_partial.
Example C80_case : exists ls, tool_main toy false now5 one_record files [str "-v"; str "signed"; str "forged"] = (P_lines ls, Exit 0) /\
  printing ls (main_why toy false now5 one_record files [str "-v"; str "signed"; str "forged"])
    (esc "[signed][ex.org][s1] OK\n[forged][ex.org][s1](fail) = Signature did not verify\n").
Proof. exact report_case. Qed.

(** The same of what is printed, with all texts of exceptions as they are: *)
Theorem C80_output_partial : forall C strict clock resolve fs args ls x f d s,
  (forall q r, resolve q = Ok (true, r) -> ~ In LF r) -> Forall (fun a => ~ In LF a) args ->
  tool_main C strict clock resolve fs args = (P_lines ls, x) -> line_of (main_text C strict clock resolve fs args) (ok_line f d s) ->
  ~ In "]"%char f -> ~ In "]"%char d -> ~ In "]"%char s -> In (mkLine f d s R_OK) ls.
Proof. exact ok_printed. Qed.
Print Assumptions C80_output_partial.
Example C80_case_output : main_text toy false now5 one_record files [str "-v"; str "signed"; str "forged"] =
  esc "[signed][ex.org][s1] OK\n[forged][ex.org][s1](fail) = Signature did not verify\n".
Proof. exact output_case. Qed.
(** what is printed is a printing of the reports. *)
Theorem C80_printed : forall C strict clock resolve fs args ls x, tool_main C strict clock resolve fs args = (P_lines ls, x) ->
  printing ls (main_why C strict clock resolve fs args) (main_text C strict clock resolve fs args).
Proof. exact main_printing. Qed.
Print Assumptions C80_printed.

(** A key record can write the line. *)
Theorem C80_record_refuted : exists C strict clock resolve fs args ls, tool_main C strict clock resolve fs args = (P_lines ls, Exit 0) /\
  Forall (fun a => ~ In LF a) args /\ Forall (fun l => l_report l <> R_OK) ls /\
  exists f d s, line_of (main_text C strict clock resolve fs args) (ok_line f d s) /\ ~ In "]"%char f /\ ~ In "]"%char d /\ ~ In "]"%char s.
Proof. exact forged_line. Qed.
Print Assumptions C80_record_refuted.
(** A message alone can write it with a CR at its end. *)
Theorem C80_fold_refuted : exists C strict clock resolve fs args ls, tool_main C strict clock resolve fs args = (P_lines ls, Exit 0) /\
  Forall (fun a => ~ In LF a) args /\ Forall (fun l => l_report l <> R_OK) ls /\ (forall q, resolve q = Ok (false, [])) /\
  exists f d s, line_of (main_text C strict clock resolve fs args) (ok_line f d s ++ [CR]) /\ ~ In "]"%char f /\ ~ In "]"%char d /\ ~ In "]"%char s.
Proof. exact fold_line. Qed.
Print Assumptions C80_fold_refuted.
(** The domain between the brackets need not be the one that signed. *)
Theorem C80_brackets_refuted : exists C strict clock resolve fs args ls, tool_main C strict clock resolve fs args = (P_lines ls, Exit 0) /\
  exists f d s, line_of (main_text C strict clock resolve fs args) (ok_line f d s) /\ (forall l, In l ls -> l_domain l <> d) /\ ~ In "]"%char d.
Proof. exact bracket_line. Qed.
Print Assumptions C80_brackets_refuted.
(** A message of printable bytes can send control characters to the terminal. *)
Theorem C80_control_refuted : exists C strict clock resolve fs args t ls, fs (str "m") = Some t /\ Forall (fun c => printable c \/ LWSP c) t /\
  tool_main C strict clock resolve fs args = (P_lines ls, Exit 0) /\ Forall (Forall printable) args /\ (forall q, resolve q = Ok (false, [])) /\
  In (chr 27) (main_text C strict clock resolve fs args).
Proof. exact escape_printed. Qed.
Print Assumptions C80_control_refuted.
