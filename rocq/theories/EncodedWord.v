(** Model of src/EncodedWord.cpp. *)
From Verif Require Import Bytes Outcome Stream Tokenizer QuotedPrintable Base64.

Definition QMARK : ascii := chr 63.

(** The whitespace loop, EncodedWord.cpp:44-58: WSP is collected, CRLF is dropped. *)
Fixpoint ew_space (fuel : nat) (s : istream) (ws : bytes) : outcome (bytes * istream) :=
  match fuel with
  | O => Diverge
  | S f =>
      let '(w, s1) := read_wsp s in
      match w with
      | _ :: _ => ew_space f s1 (ws ++ w)
      | [] =>
          let* (w2, s2) := read_crlf s1 in
          match w2 with
          | _ :: _ => ew_space f s2 ws
          | [] => Ok (ws, s2)
          end
      end
  end.

(** One "read until '?'" loop, EncodedWord.cpp:74-81 (= 87-94 = 100-107); the boolean is
    [fail]. *)
Fixpoint ew_until (fuel : nat) (s : istream) (acc : bytes) : outcome (bool * bytes * istream) :=
  match fuel with
  | O => Diverge
  | S f =>
      let '(o, s1) := peek s in
      match o with
      | None => Ok (true, acc, s1)
      | Some c => if c =?c QMARK then Ok (false, acc, s1)
                  else let '(g, s2) := get s1 in ew_until f s2 (acc ++ [as_char g])
      end
  end.

(** One "?text" field, EncodedWord.cpp:71-83 (= 84-96 = 97-109): [fail], the text, the text
    including the '?' to append to [buffer]. *)
Definition ew_field (fail : bool) (s : istream) : outcome (bool * bytes * bytes * istream) :=
  if fail then Ok (true, [], [], s)
  else
    let '(o, s1) := peek s in
    match o with
    | Some c =>
        if c =?c QMARK then
          let '(g, s2) := get s1 in
          let* (r, s3) := ew_until (fuel_of s2) s2 [] in
          let '(fl, txt) := r in
          Ok (fl, txt, as_char g :: txt, s3)
        else Ok (true, [], [], s1)
    | None => Ok (true, [], [], s1)
    end.

(** The closing "?=" and the byte after it, EncodedWord.cpp:110-121. *)
Definition ew_close (fail : bool) (s : istream) : bool * bytes * istream :=
  if fail then (true, [], s)
  else
    let '(o, s1) := peek s in
    match o with
    | Some c =>
        if c =?c QMARK then
          let '(g, s2) := get s1 in
          let '(o2, s3) := peek s2 in
          match o2 with
          | Some e =>
              if e =?c EQUALS then
                let '(g2, s4) := get s3 in
                let '(o3, s5) := peek s4 in
                let bad := match o3 with None => false | Some x => negb (is_lwsp x) end in
                (bad, [as_char g; as_char g2], s5)
              else (true, [as_char g], s3)
          | None => (true, [as_char g], s3)
          end
        else (true, [], s1)
    | None => (true, [], s1)
    end.

(** The decoding attempt, EncodedWord.cpp:123-138: [None] is fail; catch(...) turns every
    exception into fail. *)
Definition ew_payload (junk : bytes -> bytes) (fail : bool) (encoding encdata : bytes)
  : outcome (option bytes) :=
  if fail then Ok None
  else if beqb encoding (str "q") || beqb encoding (str "Q") then
    match qp_decode encdata true with
    | Ok d => Ok (Some d)
    | Throw _ => Ok None
    | UB k => UB k
    | Diverge => Diverge
    end
  else if beqb encoding (str "b") || beqb encoding (str "B") then
    Ok (Some (Base64_Decode junk encdata))
  else Ok None.

(** The main loop, EncodedWord.cpp:41-156. *)
Fixpoint ew_loop (junk : bytes -> bytes) (fuel : nat) (s : istream) (ws out : bytes)
  : outcome bytes :=
  match fuel with
  | O => Diverge
  | S f =>
      let* (ws1, s1) := ew_space (fuel_of s) s ws in
      let '(o, s2) := peek s1 in
      match o with
      | None => Ok out
      | Some c =>
          if c =?c EQUALS then
            let '(g, s3) := get s2 in
            let* (r1, s4) := ew_field false s3 in
            let '(f1, _, b1) := r1 in
            let* (r2, s5) := ew_field f1 s4 in
            let '(f2, encoding, b2) := r2 in
            let* (r3, s6) := ew_field f2 s5 in
            let '(f3, encdata, b3) := r3 in
            let '(r4, s7) := ew_close f3 s6 in
            let '(f4, b4) := r4 in
            let* p := ew_payload junk f4 encoding encdata in
            match p with
            | Some d => ew_loop junk f s7 [] (out ++ d)
            | None => ew_loop junk f s7 [] (out ++ ws1 ++ [as_char g] ++ b1 ++ b2 ++ b3 ++ b4)
            end
          else
            let '(g, s3) := get s2 in ew_loop junk f s3 [] (out ++ ws1 ++ [as_char g])
      end
  end.

(** EncodedWord::Decode, EncodedWord.cpp:33-159. *)
Definition ew_decode (junk : bytes -> bytes) (input : bytes) : outcome bytes :=
  let* s := skip_fws (fuel_of (open_str input)) (open_str input) in
  ew_loop junk (fuel_of s) s [] [].
