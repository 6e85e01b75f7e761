(** Bytes, byte strings and the std::string / <cctype> operations the library uses.
    A C++ [char] is an [ascii] (exactly 256 values); a [std::string] is a list of them. *)
From Coq Require Export Ascii String List NArith ZArith Lia Bool Arith.
Export ListNotations.

Definition bytes := list ascii.

(** A byte string literal, written as a Coq string. *)
Definition str (s : string) : bytes := list_ascii_of_string s.

Definition code (c : ascii) : N := N_of_ascii c.
Definition chr (n : N) : ascii := ascii_of_N n.

Definition CR : ascii := chr 13.
Definition LF : ascii := chr 10.
Definition SP : ascii := chr 32.
Definition HT : ascii := chr 9.
Definition CRLF : bytes := [CR; LF].
Definition COLON : ascii := chr 58.
Definition SEMI : ascii := chr 59.
Definition EQUALS : ascii := chr 61.
Definition AT : ascii := chr 64.
Definition DOT : ascii := chr 46.

Infix "=?c" := Ascii.eqb (at level 70).
Global Arguments Ascii.eqb : simpl never.
Global Arguments chr : simpl never.
Global Arguments code : simpl never.
Global Arguments CR : simpl never.
Global Arguments LF : simpl never.
Global Arguments SP : simpl never.
Global Arguments HT : simpl never.
Global Arguments CRLF : simpl never.
Global Arguments COLON : simpl never.
Global Arguments SEMI : simpl never.
Global Arguments EQUALS : simpl never.
Global Arguments AT : simpl never.
Global Arguments DOT : simpl never.

(** [lo <= c <= hi] as unsigned byte values. *)
Definition in_range (lo hi : N) (c : ascii) : bool :=
  ((lo <=? code c) && (code c <=? hi))%N.

Definition is_upper := in_range 65 90.
Definition is_lower := in_range 97 122.
Definition is_digit := in_range 48 57.

(** Tokenizer.cpp:69: ' ' or '\t'. *)
Definition is_wsp (c : ascii) : bool := (c =?c SP) || (c =?c HT).
(** Tokenizer.cpp:83: ' ', '\t', '\r' or '\n'. *)
Definition is_lwsp (c : ascii) : bool := is_wsp c || (c =?c CR) || (c =?c LF).

(** std::string operator==. *)
Fixpoint beqb (a b : bytes) : bool :=
  match a, b with
  | [], [] => true
  | x :: a', y :: b' => (x =?c y) && beqb a' b'
  | _, _ => false
  end.

(** std::string::find(char): [None] is npos. *)
Fixpoint find_char (c : ascii) (s : bytes) : option nat :=
  match s with
  | [] => None
  | x :: s' => if x =?c c then Some 0
               else match find_char c s' with Some n => Some (S n) | None => None end
  end.

(** first index whose byte does not satisfy [p] (find_first_not_of). *)
Fixpoint find_first_not (p : ascii -> bool) (s : bytes) : option nat :=
  match s with
  | [] => None
  | x :: s' => if p x then match find_first_not p s' with Some n => Some (S n) | None => None end
               else Some 0
  end.

(** last index whose byte does not satisfy [p] (find_last_not_of). *)
Fixpoint find_last_not (p : ascii -> bool) (s : bytes) : option nat :=
  match s with
  | [] => None
  | x :: s' => match find_last_not p s' with
               | Some n => Some (S n)
               | None => if p x then None else Some 0
               end
  end.

(** std::string::erase(pos, n) for pos <= size. *)
Definition erase_at (s : bytes) (pos n : nat) : bytes :=
  firstn pos s ++ skipn (pos + n) s.

Definition memb (x : bytes) (l : list bytes) : bool := existsb (beqb x) l.

(** tolower in the "C" locale on a byte. *)
Definition tolower (c : ascii) : ascii :=
  if is_upper c then chr (code c + 32) else c.
Definition lower (s : bytes) : bytes := map tolower s.

(** isspace in the "C" locale. *)
Definition isspace (c : ascii) : bool := in_range 9 13 c || (c =?c SP).

(** The part of a string a C function sees through c_str(). *)
Fixpoint c_str (s : bytes) : bytes :=
  match s with
  | [] => []
  | x :: s' => if (code x =? 0)%N then [] else x :: c_str s'
  end.

(** bytes whose value as a signed [char] is negative. *)
Definition is_8bit (c : ascii) : bool := (128 <=? code c)%N.
