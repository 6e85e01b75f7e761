(** How much work reading does.  The parser of messages: the bytes that its string operations look at or
    copy. *)
From Verif Require Import Bytes Outcome Stream MailParser Tokenizer.

(** Header::ParseLine, MailParser.cpp:35-55.  The new text is appended (a byte each, as std::string
    does it on average).  Without a value offset find(':') looks at the whole text, or up to the
    colon; then the name is copied and trimmed, by four operations that look at it once. *)
Definition line_work (h : header) (data : bytes) : nat :=
  let t := h_text (Header_ParseLine h data) in
  (length t - length (h_text h)) +
  match h_voff h with
  | O => match find_char COLON t with Some sep => S sep + 4 * sep | None => length t end
  | S _ => 0
  end.

(** Message::ParseLine, MailParser.cpp:85-126. *)
Definition ParseLine_work (m : message) (s : istream) : nat :=
  let '(r, _) := getline s in
  let '(ok, raw) := r in
  S (length raw) +
  if (ok : bool) then
    match chop_cr raw with
    | [] => 0
    | c :: l => line_work (if is_wsp c then match m_tmp m with Some h => h | None => new_header end else new_header) (c :: l)
    end
  else 0.

(** The loop, Validatory.cpp:50, Signatory.cpp:57. *)
Fixpoint work_loop (fuel : nat) (m : message) (s : istream) : nat :=
  match fuel with
  | O => 0
  | S f =>
      let '(r, s1) := Message_ParseLine m s in
      let '(ok, m1) := r in
      ParseLine_work m s + (if ok && negb (m_done m1) then work_loop f m1 s1 else 0)
  end.
Definition parse_work (t : bytes) : nat := work_loop (fuel_of (open_str t)) new_message (open_str t).

(** Lists: the calls of peek, get and putback on the stream (a second peek at the same byte is not
    counted).  ReadWhiteSpace, Tokenizer.cpp:66-75 and 94-121. *)
Fixpoint wsps_work (fuel : nat) (s : istream) : nat :=
  match fuel with
  | O => 0
  | S f => let '(t, s1) := read_wsp s in match t with [] => 1 | _ => 2 + wsps_work f s1 end
  end.
Definition fws_work (s : istream) : nat :=
  wsps_work (fuel_of s) s +
  match read_wsps (fuel_of s) s [] with
  | Ok (w, s1) =>
      match read_crlf s1 with
      | Ok ([], _) => 1
      | Ok (t, s2) =>
          4 + let '(t2, s3) := read_wsp s2 in
              match t2 with
              | [] => 1 + length (w ++ t)                      (* putback, 116-119 *)
              | _ => 2 + wsps_work (fuel_of s3) s3
              end
      | _ => 3
      end
  | _ => 0
  end.
(** ValueList, Tokenizer.cpp:129-180. *)
Fixpoint skip_work (fuel : nat) (s : istream) : nat :=
  match fuel with
  | O => 0
  | S f => fws_work s + match read_fws s with Ok ([], _) => 0 | Ok (_, s1) => skip_work f s1 | _ => 0 end
  end.
Fixpoint value_work (fuel : nat) (s : istream) : nat :=
  match fuel with
  | O => 0
  | S f =>
      fws_work s +
      match read_fws s with
      | Ok ([], s1) =>
          let '(o, s2) := peek s1 in
          1 + match o with
              | None => 0
              | Some c => if c =?c COLON then 0 else let '(_, s3) := get s2 in 1 + value_work f s3
              end
      | Ok (_, s1) => value_work f s1
      | _ => 0
      end
  end.
Fixpoint items_work (fuel : nat) (s : istream) : nat :=
  match fuel with
  | O => 0
  | S f =>
      skip_work (fuel_of s) s +
      match skip_fws (fuel_of s) s with
      | Ok s1 =>
          let '(o, s2) := peek s1 in
          1 + match o with
              | None => 0
              | Some _ =>
                  value_work (fuel_of s2) s2 +
                  match vl_value (fuel_of s2) s2 [] [] with
                  | Ok (_ :: _, s3) => let '(g, s4) := get s3 in
                                       1 + match g with None => 0 | Some _ => items_work f s4 end
                  | _ => 0
                  end
              end
      | _ => 0
      end
  end.
Definition list_work (t : bytes) : nat := items_work (fuel_of (open_str t)) (open_str t).
