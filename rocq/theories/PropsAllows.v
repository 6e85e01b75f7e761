(** Property C34: exactly which signatures a key record is used for. *)
From Verif Require Import Bytes Outcome Crypto Signature PublicKey Validatory SpecSig SpecKey SpecAllows Examples AllowFacts.

(** A record that does not allow the signature refuses it; one that does makes no other difference than its key. *)
Theorem C34_exact : forall C strict r l p, record_tags r l -> PublicKey_Parse C strict r new_public_key = (p, Ok tt) ->
  forall st h g v, (record_allows l g -> CheckSignature C st h g p v = CheckSignature C st h g (unrestricted p) v) /\
  (~ record_allows l g -> CheckSignature C st h g p v = Throw (PermanentError AR_PERMERROR)).
Proof. exact key_restricts. Qed.
Print Assumptions C34_exact.
Example C34_exact_case : exists l1 l2 p1 p2 g,
  record_tags (esc "h=sha1; p=S0VZ") l1 /\ PublicKey_Parse toy true (esc "h=sha1; p=S0VZ") new_public_key = (p1, Ok tt) /\ ~ record_allows l1 g /\
  record_tags (esc "h=sha512; p=S0VZ") l2 /\ PublicKey_Parse toy true (esc "h=sha512; p=S0VZ") new_public_key = (p2, Ok tt) /\ record_allows l2 g.
Proof. exact allows_cases. Qed.
