(** Reading a stream whose source fails: the bytes before the failure can be read, then the stream
    buffer throws and the stream sets badbit (libstdc++'s istream.tcc, istream.cc; badbit is [s_fail] here).
    The text of the stream is what can be read.  The functions of the library with the two ways to
    read as arguments. *)
From Verif Require Import Bytes Outcome Stream MailParser Canonicalization Util Crypto Signature PublicKey SignatoryOptions Signatory Validatory.

(** std::getline: the exception is caught, and the stream is bad afterwards. *)
Definition getline_bad (s : istream) : bool * bytes * istream :=
  if good s then
    if snd (take_line (s_rest s)) then getline s
    else (false, s_rest s, mkStream (rev_append (s_rest s) (s_prev s)) [] false true)
  else (false, [], set_fail s).
(** istream::read: gcount() is 0 when the stream buffer throws, whatever it has copied. *)
Definition sread_bad (n : nat) (s : istream) : bytes * istream :=
  if good s then
    if Nat.ltb (length (s_rest s)) n then ([], mkStream (rev_append (s_rest s) (s_prev s)) [] false true)
    else sread n s
  else ([], set_fail s).

Section With.
  Variables (line_reader : istream -> bool * bytes * istream) (reader : nat -> istream -> bytes * istream).
  (** Message::ParseLine, MailParser.cpp:85-126. *)
  Definition ParseLine_with (m : message) (s : istream) : bool * message * istream :=
    let '(r, s1) := line_reader s in
    let '(ok, raw) := r in
    if (ok : bool) then
      match chop_cr raw with
      | [] =>
          let '(off, s2) := tellg s1 in
          (true, mkMessage None off (m_headers m ++ opt_list (m_tmp m)) true, s2)
      | c :: l =>
          if is_wsp c then
            let h := match m_tmp m with Some h => h | None => new_header end in
            (true, mkMessage (Some (Header_ParseLine h (c :: l))) (m_offset m) (m_headers m) (m_done m), s1)
          else
            (true, mkMessage (Some (Header_ParseLine new_header (c :: l))) (m_offset m)
                     (m_headers m ++ opt_list (m_tmp m)) (m_done m), s1)
      end
    else (false, mkMessage (m_tmp m) (-1) (m_headers m ++ opt_list (m_tmp m)) true, s1).
  Fixpoint parse_loop_with (fuel : nat) (m : message) (s : istream) : outcome (message * istream) :=
    match fuel with
    | O => Diverge
    | S f =>
        let '(r, s1) := ParseLine_with m s in
        let '(ok, m1) := r in
        if ok && negb (m_done m1) then parse_loop_with f m1 s1 else Ok (m1, s1)
    end.
  Definition parse_with (m : message) (s : istream) : outcome (message * istream) := parse_loop_with (fuel_of s) m s.

  (** CanonicalizationBody, Canonicalization.cpp:124-218. *)
  Fixpoint body_loop_with (chunk : nat) (mode : canon_mode) (limit : bool) (fuel : nat) (s : istream)
    (size : N) (pending : bool) (lines : nat) (empty : bool) (calls : list bytes) : outcome (list bytes * N * bool * istream) :=
    match fuel with
    | O => Diverge
    | S f =>
        if good s then
          if limit && (size =? 0)%N then Ok (calls, size, empty, s)
          else
            let '(data, s1) := reader chunk s in
            let st := fold_left (body_byte mode) data (mkBody pending lines []) in
            let '(out, size1) := emit limit size (b_buf st) in
            let empty1 := match b_buf st with [] => empty | _ => false end in
            body_loop_with chunk mode limit f s1 size1 (b_pending st) (b_lines st) empty1 (calls ++ [out])
        else Ok (calls, size, empty, s)
    end.
  Definition body_with (chunk : nat) (s : istream) (mode : canon_mode) (bodyOffset : Z) (limit : bool) (size : N) : outcome (list bytes * bool * istream) :=
    let* r :=
      (if (bodyOffset =? -1)%Z then Ok ([], size, true, s)
       else
         let s1 := seekg bodyOffset (clear s) in
         body_loop_with chunk mode limit (S (fuel_of s1)) s1 size false 0 true []) in
    let '(calls, size1, empty, s2) := r in
    let '(calls2, size2) :=
      (if negb empty || (match mode with RELAXED => false | SIMPLE => true end) then
         let '(out, z) := emit limit size1 CRLF in (calls ++ [out], z)
       else (calls, size1)) in
    Ok (calls2, negb (limit && (0 <? size2)%N), s2).

  (** Signatory::CreateSignature, Signatory.cpp:55-267. *)
  Definition create_with (C : crypto) (strict : bool) (clock : nat -> Z) (o : options) (y : signatory) : signatory * outcome bytes :=
    match parse_with (y_msg y) (y_file y) with
    | Ok (m, s) =>
        match body_with buffer_size s (o_cbody o) (m_offset m) (o_signlen o) (o_bodylen o) with
        | Ok (chunks, ok, s1) =>
            (mkSignatory m s1,
             if (ok : bool) then
               let bh := digest_chunks C (o_digest o) chunks in
               let* toSign := omap (lower_str strict) (o_headers o) in
               let* (hashed, names) := sign_headers strict (o_chead o) toSign (rev (m_headers m)) in
               let* over := omap (lower_str strict) (o_oversign o) in
               all_sigs C strict o clock 0 hashed (names ++ over) bh (rev (all_signatures o)) []
             else perm)
        | Throw e => (mkSignatory m s, Throw e)
        | UB k => (mkSignatory m s, UB k)
        | Diverge => (mkSignatory m s, Diverge)
        end
    | Throw e => (y, Throw e)
    | UB k => (y, UB k)
    | Diverge => (y, Diverge)
    end.

  (** Validatory::Validatory, CheckBodyHash and GetSignature, Validatory.cpp:46-69, 80-85, 131-165;
      CheckSignature does not read. *)
  Definition validatory_with (strict : bool) (ty : validator_type) (s : istream) : outcome validatory :=
    let* (m, s1) := parse_with new_message s in
    match ty with
    | V_NONE => Ok (mkVal m s1 [])
    | V_DKIM => let* l := collect strict (str "dkim-signature") (m_headers m) in Ok (mkVal m s1 l)
    | V_ARC => let* l := collect strict (str "arc-message-signature") (m_headers m) in Ok (mkVal m s1 l)
    end.
  Definition body_hash_with (C : crypto) (g : signature) (v : validatory) : validatory * outcome unit :=
    match body_with buffer_size (v_file v) (sg_cbody g) (m_offset (v_msg v)) (sg_limit g) (sg_size g) with
    | Ok (chunks, _, s1) =>
        (mkVal (v_msg v) s1 (v_sigs v),
         if beqb (sg_bh g) (digest_chunks C (sg_digest g) chunks) then Ok tt else perm_fail)
    | Throw e => (v, Throw e)
    | UB k => (v, UB k)
    | Diverge => (v, Diverge)
    end.
  Definition get_signature_with (C : crypto) (strict : bool) (now : Z) (h : header) (st : sig_st) (v : validatory) : validatory * sig_st * outcome unit :=
    match Signature_Parse C strict now h st with
    | (st1, Ok _) => let '(v1, r) := body_hash_with C (fst st1) v in (v1, st1, r)
    | (st1, e) => (v, st1, e)
    end.
End With.

(** The library on a source that fails. *)
Definition CreateSignature_bad := create_with getline_bad sread_bad.
Definition new_validatory_bad := validatory_with getline_bad.
Definition GetSignature_bad := get_signature_with sread_bad.
