(** Property C79: how deep the address parser recurses. *)
From Verif Require Import Bytes Outcome Tokenizer SpecText SpecAddress SpecDepth DepthFacts Examples.

(** [pal cs d] is the parser with the recursion limited to [d] calls inside of each other.  The limit
    does not show where there are fewer than 2^(d+1) - 2 quotes and backslashes. *)
Theorem C79_depth : forall cs d t, marks t + 2 < 2 ^ S d -> pal cs d t = ParseAddressList cs t.
Proof. exact ParseAddressList_depth. Qed.
Print Assumptions C79_depth.
Theorem C79_length : forall cs d t, length t + 2 < 2 ^ S d -> pal cs d t = ParseAddressList cs t.
Proof. exact ParseAddressList_log. Qed.
Print Assumptions C79_length.
Example C79_case : let t := str """p@q,\""r@s\""""" in marks t + 2 < 2 ^ 4 /\ pal true 3 t = Ok [str "p@q"; str "r@s"].
Proof. split; [vm_compute; lia|vm_compute; reflexivity]. Qed.

(** No smaller bound holds: an address inside of n quoted strings needs n + 1 calls. *)
Theorem C79_exact : forall cs n, marks (nested n) + 2 = 2 ^ S n /\ pal cs n (nested n) = Diverge /\ pal cs (S n) (nested n) = Ok [str "a@b"].
Proof. exact (fun cs n => conj (marks_nested n) (nested_deep cs n)). Qed.
Print Assumptions C79_exact.
Example C79_case_nested : nested 2 = str """\""a@b\""""".
Proof. reflexivity. Qed.
