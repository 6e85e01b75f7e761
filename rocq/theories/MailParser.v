(** Model of src/MailParser.cpp and src/MailParser.hpp. *)
From Verif Require Import Bytes Outcome Stream.

(** DKIM::Header, MailParser.hpp:24-39. *)
Record header := mkHeader { h_name : bytes; h_text : bytes; h_voff : nat }.

(** Header::Header, MailParser.cpp:26-29. *)
Definition new_header : header := mkHeader [] [] 0.

(** [m_name.erase(0, find_first_not_of(" \t")); m_name.erase(find_last_not_of(" \t") + 1)],
    MailParser.cpp:51-52.  npos in the first erases everything, npos + 1 = 0 in the second. *)
Definition trim_wsp (n : bytes) : bytes :=
  let n1 := match find_first_not is_wsp n with Some i => skipn i n | None => [] end in
  match find_last_not is_wsp n1 with Some j => firstn (S j) n1 | None => [] end.

(** Header::ParseLine, MailParser.cpp:35-55; the boolean result is not used by the caller. *)
Definition Header_ParseLine (h : header) (data : bytes) : header :=
  let t := (match h_text h with [] => [] | x => x ++ CRLF end) ++ data in
  match h_voff h with
  | O => match find_char COLON t with
         | None => mkHeader (h_name h) t 0
         | Some sep => mkHeader (trim_wsp (firstn sep t)) t (S sep)
         end
  | S _ => mkHeader (h_name h) t (h_voff h)
  end.

(** DKIM::Message, MailParser.hpp:40-56.  The list holds copies instead of shared pointers:
    the only header that is shared after being listed is m_tmpHeader when the input ended
    inside the header block, and a later successful ParseLine without Reset (which would
    change it) is outside the model. *)
Record message := mkMessage {
  m_tmp : option header;
  m_offset : Z;
  m_headers : list header;
  m_done : bool }.

(** Message::Message / Message::Reset, MailParser.cpp:67-78. *)
Definition new_message : message := mkMessage None 0 [] false.
Definition Message_Reset (m : message) : message := new_message.

Definition opt_list {A} (o : option A) : list A := match o with Some x => [x] | None => [] end.

(** [line.erase(line.size()-1)] when the line ends in CR, MailParser.cpp:99-100. *)
Definition chop_cr (line : bytes) : bytes :=
  match rev line with
  | c :: r => if c =?c CR then rev r else line
  | [] => line
  end.

(** Message::ParseLine, MailParser.cpp:85-126. *)
Definition Message_ParseLine (m : message) (s : istream) : bool * message * istream :=
  let '(r, s1) := getline s in
  let '(ok, raw) := r in
  if ok then
    match chop_cr raw with
    | [] =>
        let '(off, s2) := tellg s1 in
        (true, mkMessage None off (m_headers m ++ opt_list (m_tmp m)) true, s2)
    | c :: l =>
        if is_wsp c then
          let h := match m_tmp m with Some h => h | None => new_header end in
          (true, mkMessage (Some (Header_ParseLine h (c :: l))) (m_offset m) (m_headers m) (m_done m), s1)
        else
          (true, mkMessage (Some (Header_ParseLine new_header (c :: l))) (m_offset m)
                   (m_headers m ++ opt_list (m_tmp m)) (m_done m), s1)
    end
  else (false, mkMessage (m_tmp m) (-1) (m_headers m ++ opt_list (m_tmp m)) true, s1).

(** [while (m_msg.ParseLine(m_file) && !m_msg.IsDone()) { }], Validatory.cpp:50, Signatory.cpp:57. *)
Fixpoint parse_loop (fuel : nat) (m : message) (s : istream) : outcome (message * istream) :=
  match fuel with
  | O => Diverge
  | S f =>
      let '(r, s1) := Message_ParseLine m s in
      let '(ok, m1) := r in
      if ok && negb (m_done m1) then parse_loop f m1 s1 else Ok (m1, s1)
  end.
Definition parse_all (m : message) (s : istream) : outcome (message * istream) :=
  parse_loop (fuel_of s) m s.
