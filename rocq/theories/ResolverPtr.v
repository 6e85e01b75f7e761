(** Resolver::GetTXT again (Resolver.cpp:64-167), now with every pointer that it forms: an offset
    above [L] is undefined behaviour even if nothing is read there.  With [L] = 65536 this is the rule of
    [expr.add] for the array [answer].  Pointers formed inside of dn_skipname are not included. *)
From Verif Require Import Bytes Outcome Resolver.

(** [answer + p]. *)
Definition ptr (L p : N) : outcome N := if (p <=? L)%N then Ok p else UB UB_oob_read.

(** Resolver.cpp:107-113. *)
Fixpoint skip_questions_ptr (L : N) (lax : bool) (pkt : bytes) (qc : nat) (p : N) : outcome (option N) :=
  let* s := dn_skipname lax pkt p in
  match qc with
  | O => Ok (Some p)
  | S q => match s with
           | None => Ok None
           | Some p1 => let* p2 := ptr L (p1 + 4) in skip_questions_ptr L lax pkt q p2
           end
  end.

(** Resolver.cpp:142-155. *)
Fixpoint txt_loop_ptr (L : N) (fuel : nat) (pkt : bytes) (p left : N) (result : bytes) : outcome bytes :=
  match fuel with
  | O => Diverge
  | S f =>
      if (0 <? left)%N then
        let* n := rd pkt p in
        if (left <=? n)%N then Ok result
        else let* p1 := ptr L (p + 1) in
             let* t := rd_n pkt p1 (N.to_nat n) in
             let* p2 := ptr L (p + n + 1) in
             txt_loop_ptr L f pkt p2 (left - (n + 1))%N (result ++ t)
      else Ok result
  end.

(** Resolver.cpp:118-164. *)
Fixpoint answers_ptr (L : N) (lax : bool) (pkt : bytes) (cc : nat) (p : N) (result : bytes)
  : outcome (bool * bytes) :=
  match cc with
  | O => Ok (true, result)
  | S c =>
      let* s := dn_skipname lax pkt p in
      match s with
      | None => Ok (true, result)
      | Some p1 =>
          let* p1 := ptr L p1 in
          let len := N.of_nat (length pkt) in
          if (len <? 10)%N then UB UB_oob_read                 (* answer + answer_length - 10 *)
          else if (len - 10 <? p1)%N then Ok (false, result)
          else
            let* t := rd16 pkt p1 in
            let* p8 := ptr L (p1 + 8) in
            let* n := rd16 pkt p8 in
            let* p2 := ptr L (p1 + 10) in
            let* p3 := ptr L (p2 + n) in                       (* formed in order to be compared *)
            if (len <? p3)%N then Ok (false, result)
            else if (t =? 16)%N then
              let* result1 := txt_loop_ptr L (S (N.to_nat n)) pkt p2 n result in
              answers_ptr L lax pkt c p3 result1
            else answers_ptr L lax pkt c p3 result
      end
  end.

Definition GetTXT_ptr (L : N) (lax : bool) (q : query_result) : outcome (bool * bytes) :=
  match q with
  | QFail NO_DATA | QFail HOST_NOT_FOUND | QFail NO_RECOVERY => Ok (true, [])
  | QFail _ => Ok (false, [])
  | QAnswer pkt =>
      if (BUFSZ <? N.of_nat (length pkt))%N then Ok (false, [])
      else
        let* end_ := ptr L (N.of_nat (length pkt)) in
        let* qc := rd16 pkt 4 in
        let* p := ptr L 12 in
        let* s := skip_questions_ptr L lax pkt (N.to_nat qc) p in
        match s with
        | None => Ok (true, [])
        | Some p => let* cc := rd16 pkt 6 in answers_ptr L lax pkt (N.to_nat cc) p []
        end
  end.
