(** How much of the body is read while the body hashes are checked: the bytes that stream.read returns. *)
From Verif Require Import Bytes Outcome Stream MailParser Canonicalization Crypto Signature Validatory.

(** The loop of CanonicalizationBody, Canonicalization.cpp:136-199. *)
Fixpoint loop_work (chunk : nat) (mode : canon_mode) (limit : bool) (fuel : nat) (s : istream)
  (size : N) (pending : bool) (lines : nat) : nat :=
  match fuel with
  | O => 0
  | S f =>
      if good s then
        if limit && (size =? 0)%N then 0
        else
          let '(data, s1) := sread chunk s in
          let st := fold_left (body_byte mode) data (mkBody pending lines []) in
          let '(_, size1) := emit limit size (b_buf st) in
          length data + loop_work chunk mode limit f s1 size1 (b_pending st) (b_lines st)
      else 0
  end.
(** CanonicalizationBody, Canonicalization.cpp:124-218. *)
Definition body_work (s : istream) (mode : canon_mode) (bodyOffset : Z) (limit : bool) (size : N) : nat :=
  if (bodyOffset =? -1)%Z then 0
  else let s1 := seekg bodyOffset (clear s) in
       loop_work buffer_size mode limit (S (fuel_of s1)) s1 size false 0.

(** GetSignature for one field after the other, each with a new Signature as in main.cpp:175-184.  The
    body is read when the field parses, Validatory.cpp:80-85. *)
Fixpoint check_work (C : crypto) (strict : bool) (clock : nat -> Z) (hs : list header) (v : validatory) (n : nat) (errno : bool) : nat :=
  match hs with
  | [] => 0
  | h :: r =>
      match Signature_Parse C strict (clock n) h (new_signature, errno) with
      | ((g, _), Ok _) => body_work (v_file v) (sg_cbody g) (m_offset (v_msg v)) (sg_limit g) (sg_size g)
      | _ => 0
      end +
      let '(v1, st, _) := GetSignature C strict (clock n) h (new_signature, errno) v in
      check_work C strict clock r v1 (S n) (snd st)
  end.
Definition verify_work (C : crypto) (strict : bool) (clock : nat -> Z) (ty : validator_type) (errno : bool) (t : bytes) : nat :=
  match new_validatory strict ty (open_str t) with
  | Ok v => check_work C strict clock (v_sigs v) v 0 errno
  | _ => 0
  end.
