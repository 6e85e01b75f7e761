(** Signatory::CreateSignature again (Signatory.cpp:55-267), now with what it allocates: the digest
    contexts and the buffer for the signature data.  The first two contexts are owned by unique_ptr, so that
    they are released however the function is left; the others are released by statements. *)
From Verif Require Import Bytes Outcome Stream Base64 MailParser Canonicalization Util CStdlib Crypto SignatoryOptions Signatory.

Inductive block := BodyCtx | HeadCtx | FieldCtx | SigBuf.
Definition block_eqb (a b : block) : bool :=
  match a, b with BodyCtx, BodyCtx | HeadCtx, HeadCtx | FieldCtx, FieldCtx | SigBuf, SigBuf => true | _, _ => false end.
(** What is allocated. *)
Definition heap := list block.
Definition alloc (b : block) (h : heap) : heap := b :: h.
Fixpoint release (b : block) (h : heap) : heap :=
  match h with [] => [] | x :: r => if block_eqb b x then r else x :: release b r end.
(** A step that may leave by an exception. *)
Definition hstep (A : Type) : Type := heap -> heap * outcome A.
Definition hbind {A B} (m : hstep A) (k : A -> hstep B) : hstep B := fun h =>
  match m h with
  | (h1, Ok a) => k a h1
  | (h1, Throw e) => (h1, Throw e)
  | (h1, UB u) => (h1, UB u)
  | (h1, Diverge) => (h1, Diverge)
  end.
Definition hlift {A} (x : outcome A) : hstep A := fun h => (h, x).
Definition hnew (b : block) : hstep unit := fun h => (alloc b h, Ok tt).
Definition hdel (b : block) : hstep unit := fun h => (release b h, Ok tt).
(** A block owned by a unique_ptr, around the rest of its scope. *)
Definition hscope {A} (b : block) (m : hstep A) : hstep A := fun h =>
  let '(h1, r) := m (alloc b h) in (release b h1, r).
Notation "'do*' x := m 'in' k" := (hbind m (fun x => k)) (at level 200, x name, m at level 100, k at level 200).

(** Signatory.cpp:208-249. *)
Definition make_signature_heap (C : crypto) (o : options) (s : sig_options) (md : bytes) : hstep bytes :=
  match so_alg s with
  | RSA => match so_rsa s with
           | None => hlift perm
           | Some k =>
               do* _ := hnew SigBuf in
               match c_rsa_sign C (o_digest o) md k with
               | Some x => do* _ := hdel SigBuf in hlift (Ok x)
               | None => do* _ := hdel SigBuf in hlift perm
               end
           end
  | ED25519 =>
      do* k := hlift (c_read 64 (so_ed s)) in
      hlift (match c_ed_sign C md k with Some x => Ok x | None => perm end)
  end.

(** Signatory.cpp:143-261; evpmdhead2 is 196-201. *)
Definition one_signature_heap (C : crypto) (strict : bool) (o : options) (now : Z) (hashed : bytes)
  (names : list bytes) (bh : bytes) (s : sig_options) : hstep bytes :=
  do* t := hlift (sig_template o s now names bh) in
  do* _ := hnew FieldCtx in
  do* c := hlift (FilterHeader strict (o_chead o) t) in
  let md := digest C (o_digest o) (hashed ++ c) in
  do* _ := hdel FieldCtx in
  do* x := make_signature_heap C o s md in
  let e := Base64_Encode x in
  hlift (Ok (t ++ fold_b (S (length e)) 3 e)).

Fixpoint all_sigs_heap (C : crypto) (strict : bool) (o : options) (clock : nat -> Z) (n : nat)
  (hashed : bytes) (names : list bytes) (bh : bytes) (sigs : list sig_options) (acc : bytes) : hstep bytes :=
  match sigs with
  | [] => hlift (Ok acc)
  | s :: r =>
      do* f := one_signature_heap C strict o (clock n) hashed names bh s in
      all_sigs_heap C strict o clock (S n) hashed names bh r
        (match acc with [] => f | _ => acc ++ CRLF ++ f end)
  end.

(** Signatory.cpp:55-267.  What is allocated behind the call, and the result. *)
Definition CreateSignature_heap (C : crypto) (strict : bool) (clock : nat -> Z) (o : options)
  (y : signatory) : hstep bytes :=
  do* p := hlift (parse_all (y_msg y) (y_file y)) in
  let '(m, s) := p in
  hscope BodyCtx (
    do* b := hlift (CanonicalizationBody s (o_cbody o) (m_offset m) (o_signlen o) (o_bodylen o)) in
    let '(chunks, ok, _) := b in
    if (ok : bool) then
      let bh := digest_chunks C (o_digest o) chunks in
      hscope HeadCtx (
        do* toSign := hlift (omap (lower_str strict) (o_headers o)) in
        do* p := hlift (sign_headers strict (o_chead o) toSign (rev (m_headers m))) in
        let '(hashed, names) := p in
        do* over := hlift (omap (lower_str strict) (o_oversign o)) in
        all_sigs_heap C strict o clock 0 hashed (names ++ over) bh (rev (all_signatures o)) [])
    else hlift perm).
