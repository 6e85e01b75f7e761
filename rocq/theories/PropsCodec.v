(** Properties C01-C04: quoted-printable and base64. *)
From Verif Require Import Bytes Outcome QuotedPrintable Base64 SpecText SpecBase64 QPFacts Base64Facts Base64Bits Examples.

Theorem C01_qp_round_trip : forall s, qp_decode (qp_encode s) false = Ok s.
Proof. exact qp_round_trip. Qed.
Print Assumptions C01_qp_round_trip.
Example C01_case : qp_encode (esc "a;\0=\f\r\n z") = str "a=3B=00=3D=FF=0D=0A=20z".
Proof. vm_compute. reflexivity. Qed.

Theorem C02_qp_output_safe : forall s, Forall (fun c => printable c /\ c <> SEMI) (qp_encode s).
Proof. exact qp_output_safe. Qed.
Print Assumptions C02_qp_output_safe.

Theorem C03_qp_decode_grammar : forall us s,
  (forall d, qp_decode s us = Ok d <-> qp_text us s d) /\
  ((forall d, ~ qp_text us s d) -> qp_decode s us = Throw (PermanentError AR_PERMERROR)).
Proof. exact qp_decode_grammar. Qed.
Print Assumptions C03_qp_decode_grammar.
Example C03_case_accept : qp_text true (esc "a_=3D \r\n\tb") (str "a =b").
Proof. apply C03_qp_decode_grammar. vm_compute. reflexivity. Qed.
Example C03_case_refuse : qp_decode (str "=3d") false = Throw (PermanentError AR_PERMERROR).
Proof. vm_compute. reflexivity. Qed.

Theorem C04_base64_round_trip : forall junk d,
  Base64_Decode junk (Base64_Encode d) = d /\ Forall b64_letter (Base64_Encode d).
Proof. exact (fun junk d => conj (Base64_round junk d) (Base64_letters d)). Qed.
Print Assumptions C04_base64_round_trip.
Theorem C04_base64_folded : forall strict junk d t,
  spaced (fun c => between 9 13 c \/ c = SP) (Base64_Encode d) t ->
  exists s, strip_space strict t = Ok s /\ Base64_Decode junk s = d.
Proof. exact Base64_folded. Qed.
Print Assumptions C04_base64_folded.
Example C04_case : spaced (fun c => between 9 13 c \/ c = SP) (Base64_Encode (str "hello")) (esc "aGV\r\n\tsbG8=").
Proof.
  change (Base64_Encode (str "hello")) with (str "aGVsbG8=").
  repeat first [apply spaced_nil | apply spaced_keep |
    apply spaced_ins; [left; split; vm_compute; discriminate|]].
Qed.
(** The encoder's output is the encoding of RFC 4648, bit for bit, and no other text is. *)
Theorem C04_base64_rfc4648 : forall d t, b64_text d t <-> t = Base64_Encode d.
Proof. exact b64_exact. Qed.
Print Assumptions C04_base64_rfc4648.
Example C04_case_rfc4648 : b64_text (esc "\fa") (str "/2E=").
Proof. apply C04_base64_rfc4648. vm_compute. reflexivity. Qed.
