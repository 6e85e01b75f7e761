(** Outcomes of a C++ call, and DKIM's exception classes. *)
From Verif Require Import Bytes.

(** Exception.hpp:28-36. *)
Inductive ar_class :=
  AR_NONE | AR_PASS | AR_FAIL | AR_POLICY | AR_NEUTRAL | AR_TEMPERROR | AR_PERMERROR.

(** C++ exception types that can leave the modelled code.  Message texts are not modelled.
    [StdOutOfRange] is std::out_of_range as thrown by std::string::substr/erase. *)
Inductive exn :=
| PermanentError (c : ar_class)      (* Exception.hpp:37-59 *)
| TemporaryError (c : ar_class)      (* Exception.hpp:60-82 *)
| StdOutOfRange.

(** Kinds of undefined behaviour the modelled code can reach. *)
Inductive ub_kind :=
| UB_ctype        (* tolower/isspace on a negative char, ISO C 7.4p1 *)
| UB_oob_read     (* read outside an object *)
| UB_null         (* null pointer handed to a function that dereferences it *)
| UB_overflow     (* signed integer overflow *)
| UB_uninit.      (* read of an uninitialised scalar *)

Inductive outcome (A : Type) :=
| Ok (a : A)
| Throw (e : exn)
| UB (k : ub_kind)
| Diverge.
Arguments Ok {A} a.
Arguments Throw {A} e.
Arguments UB {A} k.
Arguments Diverge {A}.

Definition obind {A B} (m : outcome A) (k : A -> outcome B) : outcome B :=
  match m with
  | Ok a => k a
  | Throw e => Throw e
  | UB u => UB u
  | Diverge => Diverge
  end.

Notation "'let*' x ':=' m 'in' k" := (obind m (fun x => k))
  (at level 200, x pattern, m at level 100, k at level 200, right associativity).

(** PermanentError with the default class, Exception.hpp:39. *)
Definition perm {A} : outcome A := Throw (PermanentError AR_PERMERROR).
(** PermanentError(.., AR_FAIL). *)
Definition perm_fail {A} : outcome A := Throw (PermanentError AR_FAIL).
(** TemporaryError with the default class, Exception.hpp:62. *)
Definition temp {A} : outcome A := Throw (TemporaryError AR_TEMPERROR).

(** getAuthenticationResult, Exception.hpp:43-56 and 66-79 (identical bodies).
    The trailing [return "permerror"] is unreachable for enum values. *)
Definition ar_string (c : ar_class) : bytes :=
  match c with
  | AR_NONE => str "none"
  | AR_PASS => str "pass"
  | AR_FAIL => str "fail"
  | AR_POLICY => str "policy"
  | AR_NEUTRAL => str "neutral"
  | AR_TEMPERROR => str "temperror"
  | AR_PERMERROR => str "permerror"
  end.
Definition getAuthenticationResult (e : exn) : option bytes :=
  match e with
  | PermanentError c | TemporaryError c => Some (ar_string c)
  | StdOutOfRange => None
  end.

(** [transform(.., tolower)] on a std::string.  Under [strict] a negative char is undefined
    (ISO C 7.4p1); glibc maps it to itself. *)
Definition lower_str (strict : bool) (s : bytes) : outcome bytes :=
  if strict && existsb is_8bit s then UB UB_ctype else Ok (lower s).

(** [erase(remove_if(.., isspace), end)]. *)
Definition strip_space (strict : bool) (s : bytes) : outcome bytes :=
  if strict && existsb is_8bit s then UB UB_ctype
  else Ok (filter (fun c => negb (isspace c)) s).

(** std::string::substr(pos): throws when pos > size. *)
Definition substr_from (s : bytes) (pos : nat) : outcome bytes :=
  if Nat.leb pos (length s) then Ok (skipn pos s) else Throw StdOutOfRange.

(** A member function returning void that may throw: the object afterwards, and how the call
    ended.  The object keeps the changes made before an exception. *)
Definition sbind {S} (r : S * outcome unit) (k : S -> S * outcome unit) : S * outcome unit :=
  match r with
  | (s, Ok _) => k s
  | (s, e) => (s, e)
  end.
(** A computation that leaves the object [s] unchanged, followed by [k]. *)
Definition slift {S A} (s : S) (m : outcome A) (k : A -> S * outcome unit) : S * outcome unit :=
  match m with
  | Ok a => k a
  | Throw e => (s, Throw e)
  | UB u => (s, UB u)
  | Diverge => (s, Diverge)
  end.
Notation "'do' x '<-' r ';;' k" := (sbind r (fun x => k))
  (at level 200, x name, r at level 100, k at level 200, right associativity).
Notation "'lift' s 'as' x '<-' m ';;' k" := (slift s m (fun x => k))
  (at level 200, s at level 9, x name, m at level 100, k at level 200, right associativity).

(** Reading [n] bytes through c_str(): the characters and the terminating NUL are readable. *)
Definition c_read (n : nat) (s : bytes) : outcome bytes :=
  if Nat.leb n (S (length s)) then Ok (firstn n (s ++ [chr 0])) else UB UB_oob_read.
