(** Property C20 for all texts, also for those with line breaks that are no folds and with blank names. *)
From Verif Require Import Bytes Outcome Canonicalization SpecText SpecCanon SpecOutcome SpecRelaxed RelaxedFacts Examples.

(** What is returned is the relaxed form, and everything that has a relaxed form is accepted.  [strict] is the reading
    of ISO C in which tolower of a negative char is undefined. *)
Theorem C20_exact : forall strict t out, FilterHeader strict RELAXED t = Ok out <->
  relaxed_text t out /\ (strict = true -> forall n v, t = n ++ COLON :: v -> ~ In COLON n -> Forall (fun c => (code c < 128)%N) n).
Proof. exact strict_text. Qed.
Print Assumptions C20_exact.
(** The texts with a colon and without a lone CR are those that have a relaxed form, and they have one. *)
Theorem C20_one : forall t, (exists out, relaxed_text t out /\ forall x, relaxed_text t x -> x = out) <-> In COLON t /\ ~ has_lone_CR t.
Proof. exact relaxed_text_one. Qed.
Print Assumptions C20_one.
Example C20_exact_case : relaxed_text (esc "A : b \t\r\nC  d\r\n  e ") (esc "a:b \t\r\nC d e") /\ relaxed_text (esc " \t:  x") (esc " :x") /\
  ~ relaxed_text (esc "A : b  c") (esc "a:b  c") /\ ~ relaxed_text (esc "A : b \r\nc") (esc "a:b c").
Proof. repeat split; try (apply filter_text; vm_compute; reflexivity); intros R; apply filter_text in R; vm_compute in R; discriminate R. Qed.
Example C20_exact_eight : FilterHeader true RELAXED (chr 228 :: esc ": x") = UB UB_ctype /\
  FilterHeader true RELAXED (esc "A: " ++ [chr 228]) = Ok (esc "a:" ++ [chr 228]).
Proof. split; vm_compute; reflexivity. Qed.
(** Texts that no message has as a field: a second pass may still shorten them. *)
Example C20_exact_twice : relaxed_text (esc "A:b\r\n\r\n c") (esc "a:b\r\n c") /\ relaxed_text (esc "a:b\r\n c") (esc "a:b c").
Proof. split; apply filter_text; vm_compute; reflexivity. Qed.
