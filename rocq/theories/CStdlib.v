(** The libc functions whose exact results matter: strtoul, strtol (base 10, 64 bit long),
    printf's %lu. *)
From Verif Require Import Bytes.
From Coq Require Import Decimal DecimalN.

(** Leading digits: their value, whether there is one, and the rest. *)
Fixpoint digits_val (acc : N) (s : bytes) : N * bytes :=
  match s with
  | c :: r => if is_digit c then digits_val (10 * acc + (code c - 48)) r else (acc, s)
  | [] => (acc, [])
  end%N.

Fixpoint skip_isspace (s : bytes) : bytes :=
  match s with
  | c :: r => if isspace c then skip_isspace r else s
  | [] => []
  end.

(** Optional sign. *)
Definition read_sign (s : bytes) : bool * bytes :=
  match s with
  | c :: r => if c =?c chr 45 then (true, r) else if c =?c chr 43 then (false, r) else (false, s)
  | [] => (false, [])
  end.

(** The subject sequence of strtol/strtoul: sign, magnitude, rest; [None] when there is no digit. *)
Definition strto_scan (s : bytes) : option (bool * N * bytes) :=
  let '(neg, r) := read_sign (skip_isspace s) in
  match r with
  | c :: _ => if is_digit c then let '(v, rest) := digits_val 0 r in Some (neg, v, rest) else None
  | [] => None
  end.

Definition ULONG_MAX : N := 18446744073709551615%N.
Definition LONG_MAX : Z := 9223372036854775807%Z.
Definition LONG_MIN : Z := (-9223372036854775808)%Z.

(** strtoul(s, &endptr, 10): value, text at endptr, whether errno is set to ERANGE.
    C17 7.22.1.4: a leading '-' negates in the unsigned type. *)
Definition strtoul (s : bytes) : N * bytes * bool :=
  let s := c_str s in
  match strto_scan s with
  | None => (0%N, s, false)
  | Some (neg, v, rest) =>
      if (ULONG_MAX <? v)%N then (ULONG_MAX, rest, true)
      else if neg then (((ULONG_MAX + 1 - v) mod (ULONG_MAX + 1))%N, rest, false)
      else (v, rest, false)
  end.

(** strtol(s, nullptr, 10): value and whether errno is set to ERANGE. *)
Definition strtol (s : bytes) : Z * bool :=
  match strto_scan (c_str s) with
  | None => (0%Z, false)
  | Some (neg, v, _) =>
      let z := if neg then (- Z.of_N v)%Z else Z.of_N v in
      if (LONG_MAX <? z)%Z then (LONG_MAX, true)
      else if (z <? LONG_MIN)%Z then (LONG_MIN, true)
      else (z, false)
  end.

(** Decimal digits, most significant first. *)
Fixpoint uint_bytes (u : uint) : bytes :=
  match u with
  | Nil => []
  | D0 u => chr 48 :: uint_bytes u
  | D1 u => chr 49 :: uint_bytes u
  | D2 u => chr 50 :: uint_bytes u
  | D3 u => chr 51 :: uint_bytes u
  | D4 u => chr 52 :: uint_bytes u
  | D5 u => chr 53 :: uint_bytes u
  | D6 u => chr 54 :: uint_bytes u
  | D7 u => chr 55 :: uint_bytes u
  | D8 u => chr 56 :: uint_bytes u
  | D9 u => chr 57 :: uint_bytes u
  end.
(** StringFormat("%lu", n). *)
Definition fmt_lu (n : N) : bytes := uint_bytes (N.to_uint n).
(** StringFormat("%lu", t) for a time_t (signed 64 bit) argument. *)
Definition fmt_lu_time (t : Z) : bytes := fmt_lu (Z.to_N (t mod (Z.of_N ULONG_MAX + 1))).
