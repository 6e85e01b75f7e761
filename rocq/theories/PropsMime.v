(** Property C94: encoded words as RFC 2047 has them. *)
From Verif Require Import Bytes Outcome EncodedWord SpecText SpecWord SpecMime MimeFacts Examples.

(** C94.  Text with encoded words is decoded to what RFC 2047 displays, exactly when no word stands behind an ordinary part;
    for texts without "=?" in ordinary parts and without ";" in Q words (missing: the other texts, see below). *)
Theorem C94_displayed_partial : forall junk l t d, unstructured l t d -> Forall tame_item l -> (ew_decode junk t = Ok d <-> ~ word_behind l).
Proof. exact displayed_exact. Qed.
Print Assumptions C94_displayed_partial.
Example C94_case : exists l, unstructured l (str "=?x?q?b?= =?x?q?b?= a") (str "bb a") /\ Forall tame_item l /\ ~ word_behind l /\
  ew_decode (fun _ => []) (str "=?x?q?b?= =?x?q?b?= a") = Ok (str "bb a").
Proof. exact displayed_case. Qed.
(** The blank in front of a word is lost, *)
Theorem C94_blank_refuted : forall junk, exists l t d d', unstructured l t d /\ ew_decode junk t = Ok d' /\ t = str "a =?x?q?b?=" /\ d = str "a b" /\ d' = str "ab".
Proof. exact blank_lost. Qed.
Print Assumptions C94_blank_refuted.
(** a word with a semicolon is left as it is, *)
Theorem C94_semicolon_refuted : forall junk, exists l t d, unstructured l t d /\ ew_decode junk t = Ok t /\ t = str "=?x?q?a;b?=" /\ d = str "a;b".
Proof. exact semicolon_left. Qed.
Print Assumptions C94_semicolon_refuted.
(** and text that is no word is decoded: in the middle of an ordinary part, and across a blank. *)
Theorem C94_inside_refuted : forall junk, exists l t d, unstructured l t t /\ ew_decode junk t = Ok d /\ t = str "a=?x?q?b?=" /\ d = str "ab".
Proof. exact inside_decoded. Qed.
Print Assumptions C94_inside_refuted.
Theorem C94_across_refuted : forall junk, exists l t d, unstructured l t t /\ ew_decode junk t = Ok d /\ t = str "=?x y?q?b?=" /\ d = str "b".
Proof. exact across_decoded. Qed.
Print Assumptions C94_across_refuted.
