(** How much work it is to read an answer of the DNS: the bytes of the answer that are looked at.  That the buffer is set to zero is not
    counted. *)
From Verif Require Import Bytes Outcome Resolver.

(** dn_skipname. *)
Fixpoint skip_name_work (fuel : nat) (pkt : bytes) (eom p : N) : N :=
  match fuel with
  | O => 0
  | S f =>
      if (p <? eom)%N then
        1 + match rd pkt p with
            | Ok n => if (n =? 0)%N then 0
                      else if (n <? 64)%N then skip_name_work f pkt eom (p + 1 + n)
                      else 0
            | _ => 0
            end
      else 0
  end%N.
Definition skipname_work (pkt : bytes) (p : N) : N := skip_name_work (S (length pkt)) pkt (N.of_nat (length pkt)) p.
(** Resolver.cpp:107-113. *)
Fixpoint questions_work (lax : bool) (pkt : bytes) (qc : nat) (p : N) : N :=
  skipname_work pkt p +
  match qc, dn_skipname lax pkt p with
  | S q, Ok (Some p1) => questions_work lax pkt q (p1 + 4)
  | _, _ => 0
  end%N.
(** Resolver.cpp:142-155. *)
Fixpoint txt_work (fuel : nat) (pkt : bytes) (ptr left : N) : N :=
  match fuel with
  | O => 0
  | S f =>
      if (0 <? left)%N then
        1 + match rd pkt ptr with
            | Ok n => if (left <=? n)%N then 0 else n + txt_work f pkt (ptr + n + 1) (left - (n + 1))
            | _ => 0
            end
      else 0
  end%N.
(** Resolver.cpp:118-164. *)
Fixpoint answers_work (lax : bool) (pkt : bytes) (cc : nat) (p : N) : N :=
  match cc with
  | O => 0
  | S c =>
      skipname_work pkt p +
      match dn_skipname lax pkt p with
      | Ok (Some p1) =>
          let len := N.of_nat (length pkt) in
          if (len <? p1 + 10)%N then 0
          else 4 + match rd16 pkt p1, rd16 pkt (p1 + 8) with
                   | Ok t, Ok n =>
                       if (len <? p1 + 10 + n)%N then 0
                       else (if (t =? 16)%N then txt_work (S (N.to_nat n)) pkt (p1 + 10) n else 0) + answers_work lax pkt c (p1 + 10 + n)
                   | _, _ => 0
                   end
      | _ => 0
      end
  end%N.
(** Resolver::GetTXT, Resolver.cpp:64-167. *)
Definition answer_work (lax : bool) (q : query_result) : N :=
  match q with
  | QFail _ => 0
  | QAnswer pkt =>
      if (BUFSZ <? N.of_nat (length pkt))%N then 0
      else 2 + match rd16 pkt 4 with
               | Ok qc =>
                   questions_work lax pkt (N.to_nat qc) 12 +
                   match skip_questions lax pkt (N.to_nat qc) 12 with
                   | Ok (Some p) => 2 + match rd16 pkt 6 with Ok cc => answers_work lax pkt (N.to_nat cc) p | _ => 0 end
                   | _ => 0
                   end
               | _ => 0
               end
  end%N.
