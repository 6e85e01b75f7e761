(** Properties C14-C15: splitting a message into header fields and body. *)
From Verif Require Import Bytes Outcome Stream MailParser SpecText SpecMail MailFacts ListExact Examples.

(** C14.  All lines ended by CRLF, with a blank line: the message is put together again. *)
Theorem C14_lossless_crlf : forall ls body, Forall (fun l => l <> [] /\ ~ In LF l) ls ->
  let t := with_crlf ls ++ CRLF ++ body in
  exists m s', parse_all new_message (open_str t) = Ok (m, s') /\
    concat (map (fun h => h_text h ++ CRLF) (m_headers m)) ++ CRLF ++ skipn (Z.to_nat (m_offset m)) t = t.
Proof. exact message_lossless_crlf. Qed.
Print Assumptions C14_lossless_crlf.
Theorem C14_no_blank_line_crlf : forall ls, Forall (fun l => l <> [] /\ ~ In LF l) ls ->
  exists m s', parse_all new_message (open_str (with_crlf ls)) = Ok (m, s') /\ m_offset m = (-1)%Z /\
    concat (map (fun h => h_text h ++ CRLF) (m_headers m)) = with_crlf ls.
Proof. exact message_noblank_crlf. Qed.
Print Assumptions C14_no_blank_line_crlf.
(** Any line ends: the same with the header's line ends rewritten to CRLF. *)
Theorem C14_lossless : forall ls h e body, header_block ls h -> line_end [] e ->
  exists m s', parse_all new_message (open_str (h ++ e ++ body)) = Ok (m, s') /\
    m_offset m = Z.of_nat (length (h ++ e)) /\
    concat (map (fun h => h_text h ++ CRLF) (m_headers m)) = with_crlf ls.
Proof. exact message_lossless. Qed.
Print Assumptions C14_lossless.
(** No blank line; [tail] is the text behind the last line end. *)
Theorem C14_no_blank_line : forall ls h tail l, header_block ls h -> last_line tail l ->
  exists m s', parse_all new_message (open_str (h ++ tail)) = Ok (m, s') /\ m_offset m = (-1)%Z /\
    concat (map (fun h => h_text h ++ CRLF) (m_headers m)) = with_crlf (ls ++ opt_line l).
Proof. exact message_noblank'. Qed.
Print Assumptions C14_no_blank_line.
Example C14_case : exists m s', parse_all new_message (open_str (esc "A: x\r\n\ty\nB:z\r\n\r\nbody")) = Ok (m, s') /\
  map h_text (m_headers m) = [esc "A: x\r\n\ty"; esc "B:z"] /\ m_offset m = 16%Z.
Proof. do 2 eexists. vm_compute. repeat split. Qed.
Example C14_case_noblank : exists m s', parse_all new_message (open_str (esc "A: x\r\nB:z")) = Ok (m, s') /\
  map h_text (m_headers m) = [esc "A: x"; esc "B:z"] /\ m_offset m = (-1)%Z.
Proof. do 2 eexists. vm_compute. repeat split. Qed.

(** C15.  For every byte string: the header fields are groups [gs] of consecutive lines, a new
    group at every line that does not begin with WSP. *)
Theorem C15_fields : forall t, exists ls h rest m s', header_block ls h /\ t = h ++ rest /\
  parse_all new_message (open_str t) = Ok (m, s') /\ m_done m = true /\
  exists gs,
    Forall2 (fun f g => h_text f = joined g /\ named (joined g) (h_name f) (h_voff f)) (m_headers m) gs /\
    Forall field_lines gs /\
    match gs with [] => True | _ :: r => Forall starts_field r end /\
    (((exists e body, line_end [] e /\ rest = e ++ body /\ m_offset m = Z.of_nat (length (h ++ e))) /\ concat gs = ls) \/
     (m_offset m = (-1)%Z /\ exists l, last_line rest l /\ concat gs = ls ++ opt_line l)).
Proof. exact message_fields'. Qed.
Print Assumptions C15_fields.
(** Inside a field every CRLF is followed by WSP. *)
Theorem C15_folded : forall t m s' h, parse_all new_message (open_str t) = Ok (m, s') -> In h (m_headers m) -> folds_only (h_text h).
Proof. exact message_folds. Qed.
Print Assumptions C15_folded.
Example C15_case : exists m s', parse_all new_message (open_str (esc " x\r\n y:\r\n Sub ject \t: v:w\r\nnocolon\r\n\r\n")) = Ok (m, s') /\
  map h_name (m_headers m) = [esc "x\r\n y"; []] /\ map h_voff (m_headers m) = [7; 0].
Proof. do 2 eexists. vm_compute. repeat split. Qed.
