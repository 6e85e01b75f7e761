(** How much work it is to decode quoted-printable and encoded words: the calls of peek, get, putback and tellg on the stream (a
    second peek at the same byte is not counted), and the bytes that are given to the Base64 routine. *)
From Verif Require Import Bytes Outcome Stream Tokenizer QuotedPrintable EncodedWord Work.

(** QuotedPrintable::Decode, QuotedPrintable.cpp:34-92.  2: peek and tellg for the text of the exception. *)
Fixpoint qp_loop_work (fuel : nat) (sp : bool) (s : istream) : nat :=
  match fuel with
  | O => 0
  | S f =>
      let '(o, s1) := peek s in
      1 + match o with
          | None => 0
          | Some c =>
              if sp && (c =?c USCORE) then let '(_, s2) := get s1 in 1 + qp_loop_work f sp s2
              else if c =?c EQUALS then
                let '(_, s2) := get s1 in
                let '(o1, s3) := peek s2 in
                2 + match o1 with
                    | Some h1 =>
                        if is_uhex h1 then
                          let '(_, s4) := get s3 in
                          let '(o2, s5) := peek s4 in
                          2 + match o2 with
                              | Some h2 => if is_uhex h2 then let '(_, s6) := get s5 in 1 + qp_loop_work f sp s6 else 2
                              | None => 2
                              end
                        else 2
                    | None => 2
                    end
              else if qp_safe c then let '(_, s2) := get s1 in 1 + qp_loop_work f sp s2
              else
                fws_work s1 +
                match read_fws s1 with
                | Ok ([], _) => 2
                | Ok (_, s2) => qp_loop_work f sp s2
                | _ => 0
                end
          end
  end.
Definition qp_work (t : bytes) (convert_to_space : bool) : nat := qp_loop_work (fuel_of (open_str t)) convert_to_space (open_str t).

(** The whitespace loop, EncodedWord.cpp:44-58. *)
Fixpoint space_work (fuel : nat) (s : istream) : nat :=
  match fuel with
  | O => 0
  | S f =>
      let '(w, s1) := read_wsp s in
      match w with
      | _ :: _ => 2 + space_work f s1
      | [] => 1 + match read_crlf s1 with Ok ([], _) => 1 | Ok (_, s2) => 4 + space_work f s2 | _ => 3 end
      end
  end.
(** "Read until '?'", EncodedWord.cpp:74-81, and the parts of a word, 71-121. *)
Fixpoint until_work (fuel : nat) (s : istream) : nat :=
  match fuel with
  | O => 0
  | S f =>
      let '(o, s1) := peek s in
      1 + match o with
          | None => 0
          | Some c => if c =?c QMARK then 0 else let '(_, s2) := get s1 in 1 + until_work f s2
          end
  end.
Definition field_work (fail : bool) (s : istream) : nat :=
  if fail then 0
  else let '(o, s1) := peek s in
       1 + match o with
           | Some c => if c =?c QMARK then let '(_, s2) := get s1 in 1 + until_work (fuel_of s2) s2 else 0
           | None => 0
           end.
Definition close_work (fail : bool) (s : istream) : nat :=
  if fail then 0
  else let '(o, s1) := peek s in
       1 + match o with
           | Some c =>
               if c =?c QMARK then
                 let '(_, s2) := get s1 in
                 let '(o2, s3) := peek s2 in
                 2 + match o2 with Some e => if e =?c EQUALS then 2 else 0 | None => 0 end
               else 0
           | None => 0
           end.
(** EncodedWord.cpp:123-138. *)
Definition payload_work (fail : bool) (encoding encdata : bytes) : nat :=
  if fail then 0
  else if beqb encoding (str "q") || beqb encoding (str "Q") then qp_work encdata true
  else if beqb encoding (str "b") || beqb encoding (str "B") then length encdata
  else 0.
(** EncodedWord.cpp:41-156. *)
Fixpoint ew_loop_work (fuel : nat) (s : istream) (ws : bytes) : nat :=
  match fuel with
  | O => 0
  | S f =>
      space_work (fuel_of s) s +
      match ew_space (fuel_of s) s ws with
      | Ok (_, s1) =>
          let '(o, s2) := peek s1 in
          1 + match o with
              | None => 0
              | Some c =>
                  let '(_, s3) := get s2 in
                  1 + if c =?c EQUALS then
                        field_work false s3 +
                        match ew_field false s3 with
                        | Ok (f1, _, _, s4) =>
                            field_work f1 s4 +
                            match ew_field f1 s4 with
                            | Ok (f2, encoding, _, s5) =>
                                field_work f2 s5 +
                                match ew_field f2 s5 with
                                | Ok (f3, encdata, _, s6) =>
                                    let '(f4, _, s7) := ew_close f3 s6 in
                                    close_work f3 s6 + payload_work f4 encoding encdata + ew_loop_work f s7 []
                                | _ => 0
                                end
                            | _ => 0
                            end
                        | _ => 0
                        end
                      else ew_loop_work f s3 []
              end
      | _ => 0
      end
  end.
(** EncodedWord::Decode, EncodedWord.cpp:33-159. *)
Definition word_work (t : bytes) : nat :=
  skip_work (fuel_of (open_str t)) (open_str t) +
  match skip_fws (fuel_of (open_str t)) (open_str t) with
  | Ok s => ew_loop_work (fuel_of s) s []
  | _ => 0
  end.
