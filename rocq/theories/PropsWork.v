(** Properties C86 and C87: the work of reading. *)
From Verif Require Import Bytes Outcome Stream MailParser Tokenizer Work SpecWork SpecText SpecTags TagList WorkFacts ListWork.

(** C86.  For messages whose fields have their colon in the first line. *)
Theorem C86_linear_partial : forall t m s, parse_all new_message (open_str t) = Ok (m, s) ->
  Forall (fun h => colon_early (h_text h)) (m_headers m) -> parse_work t <= 10 * length t + 1.
Proof. exact parse_linear. Qed.
Print Assumptions C86_linear_partial.
Example C86_case : let t := str "A: b" ++ CRLF ++ str " c" ++ CRLF ++ str "D:e" in
  exists m s, parse_all new_message (open_str t) = Ok (m, s) /\ map h_text (m_headers m) = [str "A: b" ++ CRLF ++ str " c"; str "D:e"] /\ parse_work t = 38.
Proof. eexists. eexists. split; [vm_compute; reflexivity|]. split; reflexivity. Qed.
(** The whole field is searched again at every line until it has a colon. *)
Theorem C86_linear_refuted : forall k, exists t, k * length t < parse_work t.
Proof. exact no_linear_bound. Qed.
Print Assumptions C86_linear_refuted.
Theorem C86_blank_lines_refuted : forall n, let t := chr 88 :: LF :: concat (repeat [SP; LF] n) in
  length t = 2 * n + 2 /\ n * n <= parse_work t.
Proof. exact (fun n => conj (long_length n) (long_work n)). Qed.
Print Assumptions C86_blank_lines_refuted.
(** It is not worse than that. *)
Theorem C86_bound : forall t, parse_work t <= 1 + 39 * (length t * length t).
Proof. exact parse_quadratic. Qed.
Print Assumptions C86_bound.

(** C87.  For texts whose CRLFs are folds. *)
Theorem C87_linear_partial : forall t, folds_only t -> list_work t <= 25 + 34 * length t.
Proof. exact list_linear. Qed.
Print Assumptions C87_linear_partial.
Example C87_case : folds_only (str "a : b") /\ list_work (str "a : b") = 30.
Proof. exact work_case. Qed.
(** So for the tags of all fields of all messages. *)
Theorem C87_message : forall t m s h a v b, parse_all new_message (open_str t) = Ok (m, s) -> In h (m_headers m) ->
  h_text h = a ++ v ++ b -> tag_value v -> list_work v <= 25 + 34 * length v.
Proof. exact message_list. Qed.
Print Assumptions C87_message.
(** Blanks in front of another CRLF are read and put back at every one of them. *)
Theorem C87_linear_refuted : forall k, exists t, k * length t < list_work t.
Proof. exact no_linear_list. Qed.
Print Assumptions C87_linear_refuted.
Theorem C87_blanks_refuted : forall n, let t := chr 97 :: repeat SP n ++ CRLF ++ [chr 88] in
  length t = n + 4 /\ n * n <= list_work t + 9 * n.
Proof. exact (fun n => conj (stray_length n) (stray_work n)). Qed.
Print Assumptions C87_blanks_refuted.
(** Such a text can stand in a key record. *)
Theorem C87_in_record : forall n, let t := chr 97 :: repeat SP n ++ CRLF ++ [chr 88] in
  exists tags e, TagList_Parse [] (str "h=" ++ t) = (tags, Ok tt) /\ GetTag (str "h") tags = Some e /\ te_value e = t.
Proof. exact stray_tag. Qed.
Print Assumptions C87_in_record.
Theorem C87_bound : forall t, list_work t <= 25 + 40 * length t + 9 * (length t * length t).
Proof. exact list_quadratic. Qed.
Print Assumptions C87_bound.
