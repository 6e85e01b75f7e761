(** The program of Tool.v with the questions it asks the DNS: [answers k] is what the k-th question
    would be answered with, so that answers may change between one question and the next. *)
From Verif Require Import Bytes Outcome Stream MailParser Canonicalization Util CStdlib Crypto Signature PublicKey SignatoryOptions
  Signatory Validatory Tool.

(** The try block, main.cpp:180-184, with GetPublicKey's one call of the resolver, Validatory.cpp:97-110. *)
Definition ask_one (C : crypto) (strict : bool) (now : Z) (answers : nat -> bytes -> outcome (bool * bytes)) (k : nat) (h : header)
  (errno : bool) (v : validatory) : validatory * bool * signature * public_key * outcome unit * list bytes :=
  let '(v1, st, r) := GetSignature C strict now h (new_signature, errno) v in
  match r with
  | Ok _ =>
      let q := key_query (fst st) in
      let answer := answers k q in
      let '(p, r1) := GetPublicKey C strict (fun _ => answer) (fst st) new_public_key in
      match r1 with
      | Ok _ => (v1, snd st, fst st, p, CheckSignature C strict h (fst st) p v1, [q])
      | e => (v1, snd st, fst st, p, e, [q])
      end
  | e => (v1, snd st, fst st, new_public_key, e, [])
  end.
(** main.cpp:175-199; [k]: questions asked before.  The second list: questions asked here. *)
Fixpoint ask_sigs (C : crypto) (strict : bool) (clock : nat -> Z) (answers : nat -> bytes -> outcome (bool * bytes)) (name : bytes)
  (hs : list header) (v : validatory) (n : nat) (errno : bool) (k : nat) : list line * list bytes * nat * bool * option ending :=
  match hs with
  | [] => ([], [], n, errno, None)
  | h :: r =>
      let '(v1, e1, g, p, o, qs) := ask_one C strict (clock n) answers k h errno v in
      match report_of p o with
      | inr x => ([], qs, S n, e1, Some x)
      | inl rep =>
          let '(ls, qs', n', e', x) := ask_sigs C strict clock answers name r v1 (S n) e1 (k + length qs) in
          (mkLine name (sg_domain g) (sg_selector g) rep :: ls, qs ++ qs', n', e', x)
      end
  end.
(** main.cpp:167-200. *)
Fixpoint ask_files (C : crypto) (strict : bool) (clock : nat -> Z) (answers : nat -> bytes -> outcome (bool * bytes))
  (fs : bytes -> option bytes) (ty : validator_type) (names : list bytes) (n : nat) (errno : bool) (k : nat) : list line * list bytes * ending :=
  match names with
  | [] => ([], [], Exit 0)
  | f :: r =>
      match new_validatory strict ty (open_file (fs f)) with
      | Ok v =>
          let '(ls, qs, n', e', x) := ask_sigs C strict clock answers f (v_sigs v) v n errno k in
          match x with
          | Some e => (ls, qs, e)
          | None => let '(ls', qs', e) := ask_files C strict clock answers fs ty r n' e' (k + length qs) in (ls ++ ls', qs ++ qs', e)
          end
      | Throw e => ([], [], Uncaught e)
      | UB k => ([], [], Undefined k)
      | Diverge => ([], [], Endless)
      end
  end.
(** main, main.cpp:50-203. *)
Definition ask_main (C : crypto) (strict : bool) (clock : nat -> Z) (answers : nat -> bytes -> outcome (bool * bytes))
  (fs : bytes -> option bytes) (args : list bytes) : printed * list bytes * ending :=
  match args with
  | [] => (P_nothing, [], Exit 2)
  | _ =>
      let '(es, files) := getopt args in
      match take_options es new_args with
      | inr x => (match x with Exit O => P_usage | _ => P_nothing end, [], x)
      | inl a =>
          match files with
          | [] => (P_nothing, [], Exit 2)
          | f :: _ =>
              let missing x := match x : bytes with [] => true | _ => false end in
              if a_validate a then
                let '(ls, qs, e) := ask_files C strict clock answers fs (a_type a) files 0 (a_errno a) 0 in (P_lines ls, qs, e)
              else if missing (a_selector a) || missing (a_domain a) || missing (a_keyfile a) then (P_nothing, [], Exit 2)
              else let '(t, e) := tool_sign C strict clock a (fs (a_keyfile a)) (fs f) in
                   (match t with [] => P_nothing | _ => P_header t end, [], e)
          end
      end
  end.
