(** Property C118: the length of the lines of a generated field. *)
From Verif Require Import Bytes Outcome Stream MailParser Canonicalization Util Crypto SignatoryOptions Signatory Validatory
  SpecText SpecMail SpecVerify SpecPass SpecSign SpecMade SpecLines LinesFacts LinesExamples MadeExamples VerifyExamples SignExamples Examples.

(** C118.  A line of more than 998 bytes, in a field that is accepted, for a message with short lines: i= is written on one line. *)
Theorem C118_lines_refuted : exists l t p H, snd (CreateSignature toy true (fun _ => 5%Z) (run_ops toy l new_options) (new_signatory (open_str t))) = Ok H /\
  accepts toy true V_DKIM 5 (H ++ CRLF ++ t) 0 p = Ok tt /\ lines_within 998 t /\ ~ lines_within 998 H.
Proof. exact long_refuted. Qed.
Print Assumptions C118_lines_refuted.

(** Exactly, for options made by the setters and names without line breaks: the lines have at most [n] bytes if and only if the line of
    d=, s=, i= and l= and each name with three bytes more has room.  All other lines have at most 131 bytes; digests have at
    most 64 (EVP_MAX_MD_SIZE). *)
Theorem C118_exact : forall C strict clock l t fs n H, let o := run_ops C l new_options in
  has_fields t fs -> snd (CreateSignature C strict clock o (new_signatory (open_str t))) = Ok H ->
  131 <= n -> (o_arc o < 18446744073709551616)%N -> (forall d, length (digest C (o_digest o) d) <= 64) ->
  Forall unbroken (listed_names h_name o fs) -> lines_within n H <-> has_room n o (listed_names h_name o fs).
Proof. exact built_exact. Qed.
Print Assumptions C118_exact.
Example C118_case : snd (CreateSignature toy true (fun _ => 5%Z) full (new_signatory (open_str letter))) = Ok full_made_text /\ lines_within 998 full_made_text /\ has_fields letter letter_fields.
Proof. exact full_case. Qed.

(** With any names and options: room for these is enough. *)
Theorem C118_enough : forall C strict clock o t fs n H, has_fields t fs -> snd (CreateSignature C strict clock o (new_signatory (open_str t))) = Ok H ->
  131 <= n -> (o_arc o < 18446744073709551616)%N -> (forall d, length (digest C (o_digest o) d) <= 64) ->
  has_room n o (listed_names h_name o fs) -> lines_within n H.
Proof. exact lines_short. Qed.
Print Assumptions C118_enough.

(** For 998 bytes: an identity of 233 bytes, domain and selector of 254 together and names of 995 are short enough. *)
Theorem C118_usual_partial : forall C strict clock o t fs H, has_fields t fs -> snd (CreateSignature C strict clock o (new_signatory (open_str t))) = Ok H ->
  (o_arc o < 18446744073709551616)%N -> (o_bodylen o < 18446744073709551616)%N -> (forall d, length (digest C (o_digest o) d) <= 64) ->
  3 * length (o_identity o) <= 700 -> Forall (fun q => length (so_domain q) + length (so_selector q) <= 254) (all_signatures o) ->
  Forall (fun x => length x <= 995) (listed_names h_name o fs) -> lines_within 998 H.
Proof. exact usual_short. Qed.
Print Assumptions C118_usual_partial.
