(** Vocabulary for the questions the program asks the DNS. *)
From Verif Require Import Bytes Outcome SpecText SpecMail SpecCanon SpecVerify Stream MailParser Canonicalization Util Crypto Signature
  PublicKey Validatory BodyFacts BodyProps VerifyFacts Tool SpecTool.

(** The field [h] of the message [t] is a reason to ask for [q]: it is a signature that parses, the
    body has the announced hash, and [q] is the name of its key record. *)
Definition asks_for (C : crypto) (strict : bool) (t : bytes) (h : header) (now : Z) (e0 : bool) (q : bytes) : Prop :=
  exists g e1 b out, Signature_Parse C strict now h (new_signature, e0) = ((g, e1), Ok tt) /\
    message_body t b /\ canonical_body (is_relaxed (sg_cbody g)) b out /\
    sg_bh g = digest C (sg_digest g) (cut (sg_limit g) (sg_size g) out) /\
    q = sg_selector g ++ str "._domainkey." ++ sg_domain g.

(** [looked_up k fields ls qs]: for the signature fields [fields] (with the names of their files) the
    lines [ls] are printed and the questions [qs] are asked, the first of them being the k-th. *)
Section Asking.
  Variables (C : crypto) (strict : bool) (ty : validator_type) (clock : nat -> Z) (answers : nat -> bytes -> outcome (bool * bytes))
    (fs : bytes -> option bytes).
  Inductive looked_up : nat -> list (bytes * header) -> list line -> list bytes -> Prop :=
  | lu_none k : looked_up k [] [] []
  | lu_not f h fields l ls qs t n e0 k : fs f = Some t -> (forall q, ~ asks_for C strict t h (clock n) e0 q) ->
      l_file l = f -> judged C strict ty (answers k) t h (clock n) e0 l -> looked_up k fields ls qs ->
      looked_up k ((f, h) :: fields) (l :: ls) qs
  | lu_asked f h fields l ls q qs t n e0 k : fs f = Some t -> asks_for C strict t h (clock n) e0 q ->
      l_file l = f -> judged C strict ty (answers k) t h (clock n) e0 l -> looked_up (S k) fields ls qs ->
      looked_up k ((f, h) :: fields) (l :: ls) (q :: qs).
End Asking.
