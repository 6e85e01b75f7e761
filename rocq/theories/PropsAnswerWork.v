(** Property C117: the work of reading an answer of the DNS, and the length of the text that is taken from it. *)
From Verif Require Import Bytes Outcome Resolver Examples ResolverExamples AnswerWork AnswerWorkFacts.

(** Every packet, well-formed or not.  Names are not followed through pointers; behind the header at most one byte more is looked at than
    there are, since the name in front of the records is skipped twice. *)
Theorem C117_once : forall lax pkt, (answer_work lax (QAnswer pkt) <= (N.of_nat (length pkt) - 12) + 5)%N.
Proof. exact answer_once. Qed.
Print Assumptions C117_once.
Example C117_case : answer_work true (QAnswer (head2 ++ rr rd_a ++ rr rd_b)) = 22%N /\ answer_work true (QAnswer deep_name) = 10%N /\ length deep_name = 17 /\
  answer_work true (QAnswer []) = 4%N.
Proof. exact answer_cases. Qed.
(** The text is shorter than the packet. *)
Theorem C117_text : forall lax pkt ok t, GetTXT lax (QAnswer pkt) = Ok (ok, t) -> (N.of_nat (length t) <= N.of_nat (length pkt) - 12)%N.
Proof. exact text_short. Qed.
Print Assumptions C117_text.
Example C117_text_case : GetTXT true (QAnswer (head2 ++ rr rd_a ++ rr rd_b)) = Ok (true, esc "p=ABC") /\ length (head2 ++ rr rd_a ++ rr rd_b) = 43.
Proof. exact text_case. Qed.
