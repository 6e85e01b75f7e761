(** Property C109: the work of reading a tag list and of bringing a header field into its relaxed form. *)
From Verif Require Import Bytes Outcome Stream MailParser SpecTags TagWork ListWork TagWorkFacts.

(** Tag lists: of every text, also of one that is refused. *)
Theorem C109_tags : forall t, taglist_work t <= 14 + 6 * length t.
Proof. exact taglist_linear. Qed.
Print Assumptions C109_tags.
(** The fields of every message. *)
Theorem C109_relaxed : forall strict t m s h, parse_all new_message (open_str t) = Ok (m, s) -> In h (m_headers m) ->
  filter_work strict (h_text h) <= 29 + 36 * length (h_text h).
Proof. exact relaxed_linear. Qed.
Print Assumptions C109_relaxed.
(** The signature field, without the value of b=. *)
Theorem C109_signature : forall strict t m s h a v b, parse_all new_message (open_str t) = Ok (m, s) -> In h (m_headers m) -> h_text h = a ++ v ++ b -> tag_value v ->
  filter_work strict (a ++ b) <= 29 + 36 * length (h_text h).
Proof. exact stripped_linear. Qed.
Print Assumptions C109_signature.
Example C109_tags_case : taglist_work (str "v=1; b= x") = 32 /\ filter_work true (str "Ab : c") = 89.
Proof. exact work_cases. Qed.
Example C109_case : exists m s h, parse_all new_message (open_str small) = Ok (m, s) /\ In h (m_headers m) /\ h_text h = small_text /\
  small_text = (str "A: v=1;" ++ CRLF ++ str " b=") ++ str "xy" ++ [] /\ tag_value (str "xy") /\
  filter_work true small_text = 171 /\ filter_work true ((str "A: v=1;" ++ CRLF ++ str " b=") ++ []) = 145.
Proof. exact small_case. Qed.
(** Of texts that are no field of a message the second claim is false: [n] blanks in front of a CRLF that is no fold. *)
Theorem C109_relaxed_refuted : forall strict n, n * n <= filter_work strict (COLON :: stray n) + 9 * n.
Proof. exact stray_filter. Qed.
Print Assumptions C109_relaxed_refuted.
