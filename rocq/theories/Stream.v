(** std::istream over an in-memory buffer (std::stringstream / std::ifstream read side).
    Zipper: [s_prev] is what lies before the read position (reversed), [s_rest] what lies
    behind it.  badbit is not distinguished from failbit.  Follows libstdc++'s
    bits/istream.tcc; the sentry of every input function fails (and sets failbit) when any
    flag is set. *)
From Verif Require Import Bytes Outcome.

Record istream := mkStream {
  s_prev : bytes;
  s_rest : bytes;
  s_eof : bool;
  s_fail : bool }.

Definition open_str (s : bytes) : istream := mkStream [] s false false.

Definition good (s : istream) : bool := negb (s_eof s) && negb (s_fail s).

Definition set_eof (s : istream) := mkStream (s_prev s) (s_rest s) true (s_fail s).
Definition set_fail (s : istream) := mkStream (s_prev s) (s_rest s) (s_eof s) true.

(** istream::clear(). *)
Definition clear (s : istream) := mkStream (s_prev s) (s_rest s) false false.

(** istream::peek(): [None] is EOF. *)
Definition peek (s : istream) : option ascii * istream :=
  if good s then
    match s_rest s with
    | c :: _ => (Some c, s)
    | [] => (None, set_eof s)
    end
  else (None, set_fail s).

(** istream::get(): [None] is EOF. *)
Definition get (s : istream) : option ascii * istream :=
  if good s then
    match s_rest s with
    | c :: r => (Some c, mkStream (c :: s_prev s) r false false)
    | [] => (None, set_fail (set_eof s))
    end
  else (None, set_fail s).

(** [(char)data.get()]: EOF (-1) becomes the byte 0xff. *)
Definition as_char (o : option ascii) : ascii :=
  match o with Some c => c | None => chr 255 end.

(** istream::putback(c), C++11: clears eofbit first.  With nothing before the position it fails. *)
Definition putback (c : ascii) (s : istream) : istream :=
  if s_fail s then set_fail s
  else match s_prev s with
       | _ :: p => mkStream p (c :: s_rest s) false false
       | [] => set_fail s
       end.

Definition s_size (s : istream) : nat := length (s_prev s) + length (s_rest s).

(** istream::tellg(): -1 when any flag is set (the sentry fails). *)
Definition tellg (s : istream) : Z * istream :=
  if good s then (Z.of_nat (length (s_prev s)), s) else ((-1)%Z, set_fail s).

(** istream::seekg(off, beg), C++11: clears eofbit; fails outside [0, size]. *)
Definition seekg (off : Z) (s : istream) : istream :=
  if s_fail s then mkStream (s_prev s) (s_rest s) false true
  else if ((0 <=? off) && (off <=? Z.of_nat (s_size s)))%Z then
         let all := rev_append (s_prev s) (s_rest s) in
         mkStream (rev (firstn (Z.to_nat off) all)) (skipn (Z.to_nat off) all) false false
       else mkStream (s_prev s) (s_rest s) false true.

(** istream::read(buf, n) and gcount(): the bytes read. *)
Definition sread (n : nat) (s : istream) : bytes * istream :=
  if good s then
    let d := firstn n (s_rest s) in
    let short := Nat.ltb (length (s_rest s)) n in
    (d, mkStream (rev_append d (s_prev s)) (skipn n (s_rest s)) short short)
  else ([], set_fail s).

(** the bytes up to the first LF, and whether there is one. *)
Fixpoint take_line (s : bytes) : bytes * bool :=
  match s with
  | [] => ([], false)
  | c :: r => if c =?c LF then ([], true)
              else let '(l, t) := take_line r in (c :: l, t)
  end.

(** std::getline(stream, line); the boolean is the stream's state afterwards.
    The line is cleared first; at end of input eofbit is set, and failbit when nothing
    (not even the delimiter) was extracted. *)
Definition getline (s : istream) : bool * bytes * istream :=
  if good s then
    let '(l, t) := take_line (s_rest s) in
    let n := length l + (if t then 1 else 0) in
    let s' := mkStream (rev_append (firstn n (s_rest s)) (s_prev s)) (skipn n (s_rest s))
                (negb t) (Nat.eqb n 0) in
    (negb (Nat.eqb n 0), l, s')
  else (false, [], set_fail s).

(** Enough fuel for any loop that consumes at least one byte per iteration. *)
Definition fuel_of (s : istream) : nat := S (length (s_rest s)).
