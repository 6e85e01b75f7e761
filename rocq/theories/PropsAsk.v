(** Properties C88 and C89: the questions the program asks the DNS. *)
From Verif Require Import Bytes Outcome Stream MailParser Crypto Util Signature Validatory Tool SpecTool ToolAsk SpecAsk AskFacts AskMany Examples VerifyExamples.

(** C88.  Which questions, in which order, and that each line is made with the answer to its own
    ([looked_up]); answers may change in the meantime. *)
Theorem C88_exact : forall C strict clock answers fs args ss files ls qs, command_line args ss files -> Forall usual ss ->
  ask_main C strict clock answers fs args = (P_lines ls, qs, Exit 0) ->
  exists ty, kind ss ty /\ looked_up C strict ty clock answers fs 0 (all_fields ty fs files) ls qs.
Proof. exact ask_exact. Qed.
Print Assumptions C88_exact.
(** So only for signatures that parse and whose body hash is right, and once for each at most, however the
    program ends. *)
Theorem C88_names : forall C strict clock answers fs args ss files p qs x, command_line args ss files -> Forall usual ss ->
  ask_main C strict clock answers fs args = (p, qs, x) ->
  exists ty, kind ss ty /\ length qs <= length (all_fields ty fs files) /\
  forall q, In q qs -> exists f t h n e0, In f files /\ fs f = Some t /\ In h (file_fields ty (Some t)) /\ asks_for C strict t h (clock n) e0 q.
Proof. exact ask_names. Qed.
Print Assumptions C88_names.
(** With answers that do not change it is the program of C58-C62. *)
Theorem C88_same : forall C strict clock answers resolve, (forall k q, answers k q = resolve q) -> forall fs args,
  exists qs, ask_main C strict clock answers fs args = (let '(p, x) := tool_main C strict clock resolve fs args in (p, qs, x)).
Proof. exact main_same. Qed.
Print Assumptions C88_same.
Example C88_case : ask_main toy false (fun _ => 5%Z) (fun k _ => match k with 0 => Ok (true, rsa_record) | _ => Ok (false, []) end)
  (fun _ => Some (sample_message "rsa-sha256" rsa_b)) [str "-v"; str "m"; str "m"] =
  (P_lines [mkLine (str "m") (str "ex.org") (str "s1") R_OK; mkLine (str "m") (str "ex.org") (str "s1") (R_TEMP AR_TEMPERROR)],
   [str "s1._domainkey.ex.org"; str "s1._domainkey.ex.org"], Exit 0).
Proof. vm_compute. reflexivity. Qed.

(** C89.  There is no limit to the number of questions for one message. *)
Theorem C89_limit_refuted : forall n, exists C clock answers t args, length t <= 200 * n + 200 /\
  exists ls qs, ask_main C false clock answers (fun _ => Some t) args = (P_lines ls, qs, Exit 0) /\ length qs = n.
Proof. exact ask_unbounded. Qed.
Print Assumptions C89_limit_refuted.
(** And answers are not kept: the same is asked again and again. *)
Theorem C89_same_name_refuted : forall clock answers n, (forall i q, answers i q = Ok (false, [])) ->
  exists t ls, ask_main toy false clock answers (fun _ => Some t) [str "-v"; str "m"] = (P_lines ls, repeat (str "s1._domainkey.ex.org") n, Exit 0).
Proof. exact (fun clock answers n A => ex_intro _ _ (ex_intro _ _ (ask_many clock answers n A))). Qed.
Print Assumptions C89_same_name_refuted.
(** What holds: not more than signature fields of the files. *)
Theorem C89_fields_partial : forall C strict clock answers fs args ss files p qs x, command_line args ss files -> Forall usual ss ->
  ask_main C strict clock answers fs args = (p, qs, x) ->
  exists ty, kind ss ty /\ length qs <= length (all_fields ty fs files).
Proof. exact ask_count. Qed.
Print Assumptions C89_fields_partial.
