(** Property C115: the work of reading a list of addresses. Where plain char is signed; where it is unsigned there need be no
    end (C08). *)
From Verif Require Import Bytes Outcome Stream SpecAddress SpecDepth AddressWork ListWork AddressWorkFacts.

(** Linear, without carriage returns, double quotes and backslashes. What is missing are the other texts. *)
Theorem C115_linear_partial : forall t, ~ In CR t -> ~ In DQ t -> ~ In BS t -> address_work true t <= 30 * (length t + 2).
Proof. exact address_linear. Qed.
Print Assumptions C115_linear_partial.
Example C115_linear_case : address_work true (str "Ann <a@b.c>, (x) d@e") = 96 /\ ~ In CR (str "Ann <a@b.c>, (x) d@e") /\
  ~ In DQ (str "Ann <a@b.c>, (x) d@e") /\ ~ In BS (str "Ann <a@b.c>, (x) d@e").
Proof. pose proof address_work_cases; tauto. Qed.
(** Without carriage returns: with the logarithm of the number of double quotes and backslashes. *)
Theorem C115_log_partial : forall t, ~ In CR t -> address_work true t <= Nat.log2 (marks t + 2) * 30 * (length t + 2).
Proof. exact address_log. Qed.
Print Assumptions C115_log_partial.
(** Every text. *)
Theorem C115_bound : forall t, address_work true t <= Nat.log2 (marks t + 2) * (30 + 6 * length t) * (length t + 2).
Proof. exact address_any. Qed.
Print Assumptions C115_bound.
Example C115_log_case : address_work true quoted_name = 51 /\ marks quoted_name = 2 /\ ~ In CR quoted_name.
Proof. pose proof address_work_cases; tauto. Qed.
(** The logarithm is reached: quoted-strings in quoted-strings, each of which is read as a list again. *)
Theorem C115_tight : forall k, exists t, ~ In CR t /\ marks t + 2 = 2 ^ S k /\ k * length t <= 2 * address_work true t.
Proof. exact address_tight. Qed.
Print Assumptions C115_tight.
(** No factor is enough for a linear bound, even without carriage returns. *)
Theorem C115_linear_refuted : forall k, exists t, ~ In CR t /\ k * length t < address_work true t.
Proof. exact no_linear_address. Qed.
Print Assumptions C115_linear_refuted.
(** With carriage returns it is quadratic: blanks in front of a CRLF that is no fold. *)
Theorem C115_blanks_refuted : forall n, length (stray n) = n + 3 /\ n * n <= address_work true (stray n) + 9 * n.
Proof. exact stray_address. Qed.
Print Assumptions C115_blanks_refuted.
