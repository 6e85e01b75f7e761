(** Model of src/Canonicalization.cpp. *)
From Verif Require Import Bytes Outcome Stream Tokenizer.

(** DKIM.hpp:34-37. *)
Inductive canon_mode := SIMPLE | RELAXED.

(** The unfolding loop, Canonicalization.cpp:85-98. *)
Fixpoint fh_loop (fuel : nat) (s : istream) (x : bytes) : outcome bytes :=
  match fuel with
  | O => Diverge
  | S f =>
      (* while (!ReadWhiteSpace(data, READ_FWS).empty()) found = true; *)
      let* (w, s1) := read_fws s in
      let* s2 := (match w with [] => Ok s1 | _ => skip_fws (fuel_of s1) s1 end) in
      let found := match w with [] => false | _ => true end in
      let '(o, s3) := peek s2 in
      match o with
      | None => Ok x
      | Some _ =>
          let '(g, s4) := get s3 in
          fh_loop f s4 (x ++ (if found then [SP] else []) ++ [as_char g])
      end
  end.

Definition is_sp (c : ascii) : bool := c =?c SP.

(** CanonicalizationHeader::FilterHeader, Canonicalization.cpp:44-122. *)
Definition FilterHeader (strict : bool) (mode : canon_mode) (input : bytes) : outcome bytes :=
  match mode with
  | SIMPLE => Ok input
  | RELAXED =>
      match find_char COLON input with
      | None => perm
      | Some colon =>
          let* name := lower_str strict (firstn colon input) in
          let output := name ++ skipn colon input in
          let* x := fh_loop (fuel_of (open_str output)) (open_str output) [] in
          match find_char COLON x with
          | None => perm
          | Some cs =>
              (* find_first_not_of(' ', colonSplit + 1) and the erase, 112-114 *)
              let x1 := match find_first_not is_sp (skipn (S cs) x) with
                        | Some k => erase_at x (S cs) k
                        | None => x
                        end in
              (* 115-119 *)
              match find_last_not is_sp (firstn cs x1) with
              | Some cb => if Nat.eqb (S cb) cs then Ok x1 else Ok (erase_at x1 (S cb) (cs - S cb))
              | None => Ok x1
              end
          end
      end
  end.

(** State of the body loop: pendingwsp, lines, buf. *)
Record body_st := mkBody { b_pending : bool; b_lines : nat; b_buf : bytes }.

(** One byte of the body, Canonicalization.cpp:144-186. *)
Definition body_byte (mode : canon_mode) (st : body_st) (c : ascii) : body_st :=
  if c =?c CR then st
  else if c =?c LF then mkBody false (S (b_lines st)) (b_buf st)
  else if (match mode with RELAXED => true | SIMPLE => false end) && is_wsp c
  then mkBody true (b_lines st) (b_buf st)
  else mkBody false 0
         (b_buf st ++ concat (repeat CRLF (b_lines st)) ++ (if b_pending st then [SP] else []) ++ [c]).

(** [left = min(buf.size(), bodySize); func(buf, left); bodySize -= left], or func(buf, size):
    what is passed to the callback and the remaining bodySize, Canonicalization.cpp:188-195, 207-214. *)
Definition emit (limit : bool) (size : N) (buf : bytes) : bytes * N :=
  if limit then
    let left := N.min (N.of_nat (length buf)) size in
    (firstn (N.to_nat left) buf, (size - left)%N)
  else (buf, size).

(** The read loop, Canonicalization.cpp:136-199.  [chunk] is sizeof buffer.  Returns the
    callback arguments so far, the remaining bodySize, emptyBody and the stream. *)
Fixpoint body_loop (chunk : nat) (mode : canon_mode) (limit : bool) (fuel : nat) (s : istream)
  (size : N) (pending : bool) (lines : nat) (empty : bool) (calls : list bytes)
  : outcome (list bytes * N * bool * istream) :=
  match fuel with
  | O => Diverge
  | S f =>
      if good s then
        if limit && (size =? 0)%N then Ok (calls, size, empty, s)
        else
          let '(data, s1) := sread chunk s in
          let st := fold_left (body_byte mode) data (mkBody pending lines []) in
          let '(out, size1) := emit limit size (b_buf st) in
          let empty1 := match b_buf st with [] => empty | _ => false end in
          body_loop chunk mode limit f s1 size1 (b_pending st) (b_lines st) empty1 (calls ++ [out])
      else Ok (calls, size, empty, s)
  end.

(** CanonicalizationBody, Canonicalization.cpp:124-218: the callback arguments in order, the
    return value and the stream afterwards. *)
Definition CanonicalizationBody_ (chunk : nat) (s : istream) (mode : canon_mode) (bodyOffset : Z)
  (limit : bool) (size : N) : outcome (list bytes * bool * istream) :=
  let* r :=
    (if (bodyOffset =? -1)%Z then Ok ([], size, true, s)
     else
       let s1 := seekg bodyOffset (clear s) in
       body_loop chunk mode limit (S (fuel_of s1)) s1 size false 0 true []) in
  let '(calls, size1, empty, s2) := r in
  let '(calls2, size2) :=
    (if negb empty || (match mode with RELAXED => false | SIMPLE => true end) then
       let '(out, z) := emit limit size1 CRLF in (calls ++ [out], z)
     else (calls, size1)) in
  Ok (calls2, negb (limit && (0 <? size2)%N), s2).

(** [char buffer[8096]], Canonicalization.cpp:140. *)
Definition buffer_size : nat := N.to_nat 8096.
Definition CanonicalizationBody := CanonicalizationBody_ buffer_size.
