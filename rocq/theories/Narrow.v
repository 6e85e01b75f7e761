(** Signature::Parse where long is as wide as the platform has it: [lm] is LONG_MAX, 2147483647 on 32-bit platforms and on Windows.
    All other models have [lm = 9223372036854775807].  time_t is wider than long here: the time is any number. *)
From Verif Require Import Bytes Outcome Stream TagList MailParser Util CStdlib QuotedPrintable Crypto Signature Validatory.

Definition strtoul_long (lm : N) (s : bytes) : N * bytes * bool :=
  let s := c_str s in
  let um := (2 * lm + 1)%N in
  match strto_scan s with
  | None => (0%N, s, false)
  | Some (neg, v, rest) =>
      if (um <? v)%N then (um, rest, true)
      else if neg then (((um + 1 - v) mod (um + 1))%N, rest, false)
      else (v, rest, false)
  end.
Definition strtol_long (lm : N) (s : bytes) : Z * bool :=
  match strto_scan (c_str s) with
  | None => (0%Z, false)
  | Some (neg, v, _) =>
      let z := if neg then (- Z.of_N v)%Z else Z.of_N v in
      if (Z.of_N lm <? z)%Z then (Z.of_N lm, true)
      else if (z <? - Z.of_N lm - 1)%Z then ((- Z.of_N lm - 1)%Z, true)
      else (z, false)
  end.

(** Signature.cpp:205-246. *)
Definition parse_i_long (lm : N) (strict : bool) (st : sig_st) : sig_st * outcome unit :=
  if sg_arc (fst st) then
    match tag "i" st with
    | None => fail_perm st
    | Some i =>
        let '(n, _, erange) := strtoul_long lm (te_value i) in
        let st1 := (set_instance n (fst st), snd st || erange) in
        if ((n <? 1) || (50 <? n))%N then fail_perm st1 else done st1
    end
  else parse_i strict st.
(** Signature.cpp:249-265; line 259 converts to signed long. *)
Definition parse_l_long (lm : N) (st : sig_st) : sig_st * outcome unit :=
  match tag "l" st with
  | None => done st
  | Some l =>
      if Nat.ltb 76 (length (te_value l)) then fail_perm st
      else
        let '(bs, rest, erange) := strtoul_long lm (te_value l) in
        let st1 := (fst st, snd st || erange) in
        if snd st1 then fail_perm st1
        else if (lm <? bs)%N then fail_perm st1
        else match rest with
             | [] => done (upd (set_size bs true) st1)
             | _ => fail_perm st1
             end
  end.
(** Signature.cpp:292-297. *)
Definition parse_x_long (lm : N) (now : Z) (st : sig_st) : sig_st * outcome unit :=
  match tag "x" st with
  | None => done st
  | Some x =>
      let '(v, erange) := strtol_long lm (te_value x) in
      let st1 := (fst st, snd st || erange) in
      if (v <? now)%Z then fail_perm st1 else done st1
  end.
(** Signature::Parse, Signature.cpp:72-300. *)
Definition Signature_Parse_long (lm : N) (C : crypto) (strict : bool) (now : Z) (h : header) (st : sig_st) : sig_st * outcome unit :=
  do s1 <- parse_tags h st ;;
  do s2 <- parse_arc strict (h_name h) s1 ;;
  do s3 <- parse_d strict s2 ;;
  do s4 <- parse_v s3 ;;
  do s5 <- parse_a s4 ;;
  do s6 <- parse_b C strict s5 ;;
  do s7 <- parse_bh C strict s6 ;;
  do s8 <- parse_c s7 ;;
  do s9 <- parse_h s8 ;;
  do s10 <- parse_i_long lm strict s9 ;;
  do s11 <- parse_l_long lm s10 ;;
  do s12 <- parse_q s11 ;;
  do s13 <- parse_s s12 ;;
  parse_x_long lm now s13.
(** Validatory::GetSignature, Validatory.cpp:80-85. *)
Definition GetSignature_long (lm : N) (C : crypto) (strict : bool) (now : Z) (h : header) (st : sig_st) (v : validatory) : validatory * sig_st * outcome unit :=
  match Signature_Parse_long lm C strict now h st with
  | (st1, Ok _) => let '(v1, r) := CheckBodyHash C (fst st1) v in (v1, st1, r)
  | (st1, e) => (v, st1, e)
  end.
