(** C47: encoded words. *)
From Verif Require Import Bytes Outcome Stream Tokenizer QuotedPrintable Base64 EncodedWord SpecText SpecWord QPFacts Base64Facts WordFacts WordExact Examples.

(** Decode returns text or throws PermanentError, on every input. *)
Theorem C47_total : forall junk t, ew_decode junk t = Throw (PermanentError AR_PERMERROR) \/ exists d, ew_decode junk t = Ok d.
Proof. exact decode_total. Qed.
Print Assumptions C47_total.
(** Exactly what it returns, for text behind folding whitespace. *)
Theorem C47_decoded : forall junk w r, FWSs w -> first_ok (fun c => ~ WSP c /\ c <> CR) r ->
  (forall d, ew_decode junk (w ++ r) = Ok d <-> decoded junk r d) /\
  ((forall d, ~ decoded junk r d) -> ew_decode junk (w ++ r) = Throw (PermanentError AR_PERMERROR)).
Proof. exact decode_iff. Qed.
Print Assumptions C47_decoded.
(** Exactly what it returns, for every text. *)
Theorem C47_exact : forall junk t,
  (forall d, ew_decode junk t = Ok d <-> exists w r, t = w ++ r /\ begun w r /\ decoded junk r d) /\
  ((forall w r d, t = w ++ r -> begun w r -> ~ decoded junk r d) -> ew_decode junk t = Throw (PermanentError AR_PERMERROR)).
Proof. exact decode_exact. Qed.
Print Assumptions C47_exact.
Example C47_case_stray : ew_decode (fun _ => []) (esc " \r\na") = Ok (esc " a") /\ ew_decode (fun _ => []) (esc " \r\n \r\na") = Ok (esc "a").
Proof. vm_compute. split; reflexivity. Qed.
Theorem C47_plain : forall junk w s w2, FWSs w -> trimmed s -> Forall WSP w2 -> ~ In CR s -> ~ In EQUALS s -> ew_decode junk (w ++ s ++ w2) = Ok s.
Proof. exact decode_plain. Qed.
Print Assumptions C47_plain.
(** Text in which "?=" does not occur is no encoded word. *)
Theorem C47_verbatim : forall junk w s, FWSs w -> trimmed s -> ~ In CR s -> (forall a b, s <> a ++ [MARK; EQUALS] ++ b) -> ew_decode junk (w ++ s) = Ok s.
Proof. exact decode_verbatim. Qed.
Print Assumptions C47_verbatim.
(** A malformed word is returned as it is. *)
Theorem C47_malformed : forall junk w b r d, FWSs w -> bad junk b r -> decoded junk r d -> ew_decode junk (w ++ b ++ r) = Ok (b ++ d).
Proof. exact decode_bad. Qed.
Print Assumptions C47_malformed.
Theorem C47_words : forall junk w cs enc x y r d, FWSs w -> parts cs enc x -> content junk enc x y -> word_end r -> words junk r d ->
  ew_decode junk (w ++ word cs enc x ++ r) = Ok (y ++ d).
Proof. exact decode_words. Qed.
Print Assumptions C47_words.

Example C47_case_words : ew_decode (fun _ => []) (esc " =?utf-8?q?a=3Db?=\r\n =?x?B?Yw==?=") = Ok (esc "a=bc").
Proof. vm_compute. reflexivity. Qed.
Example C47_case_content : forall junk, content junk (esc "q") (esc "a=3Db") (esc "a=b") /\ content junk (esc "B") (Base64_Encode (esc "c")) (esc "c").
Proof.
  intros junk. split.
  - left. split; [left; reflexivity|]. apply qp_decode_grammar. vm_compute. reflexivity.
  - right. split; [right; reflexivity|]. symmetry. apply Base64_round.
Qed.
Example C47_case_bad : ew_decode (fun _ => []) (esc "=?x?q?a=3d?= =?x?z?a?= =?x?q?a") = Ok (esc "=?x?q?a=3d?= =?x?z?a?= =?x?q?a").
Proof. vm_compute. reflexivity. Qed.
Example C47_case_lone : ew_decode (fun _ => []) (esc "a\rb") = Throw (PermanentError AR_PERMERROR).
Proof. vm_compute. reflexivity. Qed.
