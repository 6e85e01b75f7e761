(** Model of src/QuotedPrintable.cpp. *)
From Verif Require Import Bytes Outcome Stream Tokenizer.

(** [(peek >= 'A' && peek <= 'F') || (peek >= '0' && peek <= '9')], QuotedPrintable.cpp:55, 64. *)
Definition is_uhex (c : ascii) : bool := in_range 65 70 c || in_range 48 57 c.

(** one digit of strtol(hex, nullptr, 16), restricted to the digits that reach it. *)
Definition uhex_val (c : ascii) : N :=
  if in_range 65 70 c then (code c - 55)%N else (code c - 48)%N.

(** QuotedPrintable.cpp:75-77: printable except ';' and '='. *)
Definition qp_safe (c : ascii) : bool :=
  in_range 33 58 c || (c =?c chr 60) || in_range 62 126 c.

Definition USCORE : ascii := chr 95.

(** QuotedPrintable::Decode, QuotedPrintable.cpp:34-92. *)
Fixpoint qp_loop (fuel : nat) (sp : bool) (s : istream) (out : bytes) : outcome bytes :=
  match fuel with
  | O => Diverge
  | S f =>
      let '(o, s1) := peek s in
      match o with
      | None => Ok out
      | Some c =>
          if sp && (c =?c USCORE) then
            let '(_, s2) := get s1 in qp_loop f sp s2 (out ++ [SP])
          else if c =?c EQUALS then
            let '(_, s2) := get s1 in
            let '(o1, s3) := peek s2 in
            match o1 with
            | Some h1 =>
                if is_uhex h1 then
                  let '(_, s4) := get s3 in
                  let '(o2, s5) := peek s4 in
                  match o2 with
                  | Some h2 =>
                      if is_uhex h2 then
                        let '(_, s6) := get s5 in
                        qp_loop f sp s6 (out ++ [chr (16 * uhex_val h1 + uhex_val h2)])
                      else perm
                  | None => perm
                  end
                else perm
            | None => perm
            end
          else if qp_safe c then
            let '(g, s2) := get s1 in qp_loop f sp s2 (out ++ [as_char g])
          else
            let* (w, s2) := read_fws s1 in
            match w with
            | [] => perm
            | _ => qp_loop f sp s2 out
            end
      end
  end.
Definition qp_decode (input : bytes) (convert_to_space : bool) : outcome bytes :=
  qp_loop (fuel_of (open_str input)) convert_to_space (open_str input) [].

(** qp_table, QuotedPrintable.cpp:99-116: [true] stands for an entry 1, [false] for 3. *)
Definition qp_table : list bool :=
  let r16 b := repeat b 16 in
  r16 false ++ r16 false ++
  [false] ++ repeat true 15 ++
  [true;true;true;true;true;true;true;true;true;true;true;false;true;false;true;true] ++
  r16 true ++ r16 true ++ r16 true ++
  repeat true 15 ++ [false] ++
  repeat false 128.
Definition qp_plain (c : ascii) : bool := nth (N.to_nat (code c)) qp_table false.

(** qp_digits, QuotedPrintable.cpp:127.  [(i >> 4) & 0x0f] on a (possibly negative) char
    is the upper nibble. *)
Definition qp_digits : bytes := str "0123456789ABCDEF".
Definition qp_digit (n : N) : ascii := nth (N.to_nat n) qp_digits NUL.

(** QuotedPrintable::Encode, QuotedPrintable.cpp:97-134 (the reserve is not modelled). *)
Definition qp_encode (input : bytes) : bytes :=
  flat_map (fun c =>
    if qp_plain c then [c]
    else [EQUALS; qp_digit (code c / 16); qp_digit (code c mod 16)]) input.
