(** Property C116: the work of decoding quoted-printable and encoded words. *)
From Verif Require Import Bytes WordWork WordWorkFacts.

(** Of every text, also of one that is refused. *)
Theorem C116_quoted : forall t sp, qp_work t sp <= 12 * length t + 1.
Proof. exact qp_linear. Qed.
Print Assumptions C116_quoted.
(** Words that are none are not read again. *)
Theorem C116_words : forall t, word_work t <= 31 * length t + 13.
Proof. exact word_linear. Qed.
Print Assumptions C116_words.
Example C116_case : qp_work (str "a=3Db") false = 11 /\ qp_work (str "a=3") true = 9 /\ word_work (str "x =?q?q?a_b?= y") = 52 /\
  word_work (str "=?q?B?YWI=?=") = 39.
Proof. exact word_work_cases. Qed.
