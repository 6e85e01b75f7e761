(** Model of src/Resolver.cpp: Resolver::GetTXT.  res_nquery is an oracle: it fails with an
    h_errno value, or returns a length and fills the front of the zeroed 64 KiB buffer. *)
From Verif Require Import Bytes Outcome.

(** netdb.h. *)
Inductive h_err := HOST_NOT_FOUND | TRY_AGAIN | NO_RECOVERY | NO_DATA | NETDB_INTERNAL | NETDB_SUCCESS.

Inductive query_result :=
| QFail (e : h_err)
| QAnswer (packet : bytes).   (* answer_length = length packet; only 65536 bytes of it are stored *)

Definition BUFSZ : N := 65536%N.

(** [answer[i]]: a byte of the packet, a zero behind it, undefined outside the buffer
    (Resolver.cpp:66-67). *)
Definition rd (pkt : bytes) (i : N) : outcome N :=
  if (i <? BUFSZ)%N then Ok (code (nth (N.to_nat i) pkt (chr 0))) else UB UB_oob_read.

(** A 16 bit big endian number (GETSHORT, ntohs). *)
Definition rd16 (pkt : bytes) (i : N) : outcome N :=
  let* a := rd pkt i in
  let* b := rd pkt (i + 1)%N in
  Ok (256 * a + b)%N.

(** dn_skipname (glibc ns_name_skip): the position behind the name, [None] for -1.
    [lax] is the behaviour before glibc 2.35: a name may end at the end of the message
    without a terminating zero. *)
Fixpoint skip_name (lax : bool) (fuel : nat) (pkt : bytes) (eom p : N) : outcome (option N) :=
  match fuel with
  | O => Diverge
  | S f =>
      if (p <? eom)%N then
        let* n := rd pkt p in
        if (n =? 0)%N then Ok (Some (p + 1)%N)
        else if (n <? 64)%N then                       (* n & 0xc0 == 0 *)
          skip_name lax f pkt eom (p + 1 + n)%N
        else if (192 <=? n)%N then                     (* n & 0xc0 == 0xc0 *)
          (if (p + 2 <=? eom)%N then Ok (Some (p + 2)%N) else Ok None)
        else Ok None
      else if lax && (p =? eom)%N then Ok (Some p)
      else Ok None
  end.
Definition dn_skipname (lax : bool) (pkt : bytes) (p : N) : outcome (option N) :=
  skip_name lax (S (length pkt)) pkt (N.of_nat (length pkt)) p.

(** The question loop, Resolver.cpp:107-113: [None] when it stops before qdcount questions. *)
Fixpoint skip_questions (lax : bool) (pkt : bytes) (qc : nat) (p : N) : outcome (option N) :=
  let* s := dn_skipname lax pkt p in      (* also evaluated after the last question *)
  match qc with
  | O => Ok (Some p)
  | S q => match s with
           | None => Ok None
           | Some p1 => skip_questions lax pkt q (p1 + 4)%N
           end
  end.

(** [result.append(ptr + 1, txt_len)]. *)
Fixpoint rd_n (pkt : bytes) (p : N) (n : nat) : outcome bytes :=
  match n with
  | O => Ok []
  | S m => let* c := rd pkt p in
           let* r := rd_n pkt (p + 1)%N m in
           Ok (chr c :: r)
  end.

(** The character-string loop, Resolver.cpp:142-155. *)
Fixpoint txt_loop (fuel : nat) (pkt : bytes) (ptr left : N) (result : bytes) : outcome bytes :=
  match fuel with
  | O => Diverge
  | S f =>
      if (0 <? left)%N then
        let* n := rd pkt ptr in
        if (left <=? n)%N then Ok result
        else let* t := rd_n pkt (ptr + 1)%N (N.to_nat n) in
             txt_loop f pkt (ptr + n + 1)%N (left - (n + 1))%N (result ++ t)
      else Ok result
  end.

(** The answer loop, Resolver.cpp:118-164; the return value and [result]. *)
Fixpoint answers (lax : bool) (pkt : bytes) (cc : nat) (p : N) (result : bytes)
  : outcome (bool * bytes) :=
  match cc with
  | O => Ok (true, result)
  | S c =>
      let* s := dn_skipname lax pkt p in
      match s with
      | None => Ok (true, result)
      | Some p1 =>
          let len := N.of_nat (length pkt) in
          if (len <? p1 + 10)%N then Ok (false, result)       (* answerptr > answer + length - 10 *)
          else
            let* t := rd16 pkt p1 in
            let* n := rd16 pkt (p1 + 8)%N in
            let p2 := (p1 + 10)%N in
            if (len <? p2 + n)%N then Ok (false, result)
            else if (t =? 16)%N then
              let* result1 := txt_loop (S (N.to_nat n)) pkt p2 n result in
              answers lax pkt c (p2 + n)%N result1
            else answers lax pkt c (p2 + n)%N result
      end
  end.

(** Resolver::GetTXT, Resolver.cpp:64-167, with [result] initially empty as in
    Validatory::GetPublicKey. *)
Definition GetTXT (lax : bool) (q : query_result) : outcome (bool * bytes) :=
  match q with
  | QFail NO_DATA | QFail HOST_NOT_FOUND | QFail NO_RECOVERY => Ok (true, [])
  | QFail _ => Ok (false, [])
  | QAnswer pkt =>
      if (BUFSZ <? N.of_nat (length pkt))%N then Ok (false, [])
      else
        let* qc := rd16 pkt 4 in
        let* s := skip_questions lax pkt (N.to_nat qc) 12 in
        match s with
        | None => Ok (true, [])
        | Some p => let* cc := rd16 pkt 6 in answers lax pkt (N.to_nat cc) p []
        end
  end.
