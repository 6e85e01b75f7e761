(** Properties C16-C19: body canonicalization.  The body [b] lies in the stream at [off]
    (whatever was read before and whatever the stream's flags are), or there is none
    (offset -1, [b] empty). *)
From Verif Require Import Bytes Outcome Stream Canonicalization SpecText SpecMail SpecCanon BodyFacts BodyProps Examples.

(** C16.  [chunk] is the size of the read buffer; the library's is 8096. *)
Theorem C16_body_canonical : forall chunk s mode off b out, 0 < chunk ->
  ((off = (-1)%Z /\ b = []) \/ (exists pre, rev (s_prev s) ++ s_rest s = pre ++ b /\ off = Z.of_nat (length pre))) ->
  canonical_body (match mode with RELAXED => true | SIMPLE => false end) b out ->
  forall size, exists calls s', CanonicalizationBody_ chunk s mode off false size = Ok (calls, true, s') /\ concat calls = out.
Proof. exact body_canonical. Qed.
Print Assumptions C16_body_canonical.
(** The specification gives every body exactly one canonical form. *)
Theorem C16_spec_total : forall r b, exists out, canonical_body r b out /\ forall out', canonical_body r b out' -> out' = out.
Proof.
  exact (fun r b => ex_intro _ (out_fun r (canon_list r b))
    (conj (proj2 (canonical_out r b _) eq_refl) (fun out' => proj1 (canonical_out r b out')))).
Qed.
Print Assumptions C16_spec_total.
Example C16_case_relaxed : exists calls s',
  CanonicalizationBody_ 3 (open_str (esc "H: x\r\n\r\n a\t \tb \r\n\n c\r\n \r\n\r\n")) RELAXED 8 false 0 = Ok (calls, true, s') /\
  concat calls = esc " a b\r\n\r\n c\r\n".
Proof. do 2 eexists. vm_compute. split; reflexivity. Qed.
Example C16_case_simple : exists calls s',
  CanonicalizationBody (open_str (esc "a \n\n")) SIMPLE 0 false 0 = Ok (calls, true, s') /\ concat calls = esc "a \r\n".
Proof. do 2 eexists. vm_compute. split; reflexivity. Qed.
Example C16_case_none : exists calls s' calls2 s2,
  CanonicalizationBody (open_str (esc "a")) SIMPLE (-1) false 0 = Ok (calls, true, s') /\ concat calls = esc "\r\n" /\
  CanonicalizationBody (open_str (esc "a")) RELAXED (-1) false 0 = Ok (calls2, true, s2) /\ concat calls2 = [].
Proof. do 4 eexists. vm_compute. repeat split. Qed.

Theorem C17_body_limit : forall chunk s mode off b out, 0 < chunk ->
  ((off = (-1)%Z /\ b = []) \/ (exists pre, rev (s_prev s) ++ s_rest s = pre ++ b /\ off = Z.of_nat (length pre))) ->
  canonical_body (match mode with RELAXED => true | SIMPLE => false end) b out ->
  forall size, exists calls s',
    CanonicalizationBody_ chunk s mode off true size = Ok (calls, (size <=? N.of_nat (length out))%N, s') /\
    concat calls = firstn (N.to_nat size) out.
Proof. exact body_limited. Qed.
Print Assumptions C17_body_limit.
Example C17_case : exists calls s' calls2 s2,
  CanonicalizationBody (open_str (esc "ab\r\n")) SIMPLE 0 true 3 = Ok (calls, true, s') /\ concat calls = esc "ab\r" /\
  CanonicalizationBody (open_str (esc "ab\r\n")) SIMPLE 0 true 5 = Ok (calls2, false, s2) /\ concat calls2 = esc "ab\r\n".
Proof. do 4 eexists. vm_compute. repeat split. Qed.

(** C18, C19.  [canonicalizes mode b out]: CanonicalizationBody on a stream holding just [b]
    passes [out] to the callback. *)
Theorem C18_total : forall mode b, exists out, canonicalizes mode b out.
Proof. exact code_total. Qed.
Print Assumptions C18_total.
Theorem C18_idempotent : forall mode b out, canonicalizes mode b out -> canonicalizes mode out out.
Proof. exact code_idem. Qed.
Print Assumptions C18_idempotent.
Theorem C18_newline_convention : forall mode b b' out,
  without_cr b = without_cr b' -> canonicalizes mode b out -> canonicalizes mode b' out.
Proof. exact code_newlines. Qed.
Print Assumptions C18_newline_convention.
Theorem C18_empty_lines : forall mode b es out, Forall (fun e => e = CRLF \/ e = [LF]) es ->
  canonicalizes mode b out -> canonicalizes mode (b ++ concat es) out.
Proof. exact code_blank_lines. Qed.
Print Assumptions C18_empty_lines.
Example C18_case : without_cr (esc "a\r\nb\r\n") = without_cr (esc "a\nb\n") /\
  canonicalizes RELAXED (esc "a \r\nb") (esc "a\r\nb\r\n").
Proof. split; [reflexivity|]. do 2 eexists. vm_compute. split; reflexivity. Qed.

(** C19.  Same relaxed form exactly if the lines agree up to [ws_equal] and empty lines at the end. *)
Theorem C19_relaxed_same_iff : forall b b' ls ls' out, lines_of b ls -> lines_of b' ls' -> canonicalizes RELAXED b out ->
  (canonicalizes RELAXED b' out <-> exists n n', Forall2 ws_equal (ls ++ repeat [] n) (ls' ++ repeat [] n')).
Proof. exact code_same_iff. Qed.
Print Assumptions C19_relaxed_same_iff.
Theorem C19_visible_bytes_kept : forall mode b out, canonicalizes mode b out -> visible out = visible b.
Proof. exact code_visible. Qed.
Print Assumptions C19_visible_bytes_kept.
Example C19_case : canonicalizes RELAXED (esc "a  b\t\n\n") (esc "a b\r\n") /\ canonicalizes RELAXED (esc "a\tb") (esc "a b\r\n").
Proof. split; do 2 eexists; vm_compute; split; reflexivity. Qed.
