(** Model of src/Util.cpp (StringFormat("%lu") is in CStdlib.v). *)
From Verif Require Import Bytes Outcome Canonicalization.

(** DKIM.hpp:26-33. *)
Inductive digest_alg := SHA1 | SHA256.
Inductive sig_alg := RSA | ED25519.

Definition digest_eqb (a b : digest_alg) : bool :=
  match a, b with SHA1, SHA1 | SHA256, SHA256 => true | _, _ => false end.
Definition sig_alg_eqb (a b : sig_alg) : bool :=
  match a, b with RSA, RSA | ED25519, ED25519 => true | _, _ => false end.

(** CanonMode2String, Util.cpp:27-37. *)
Definition CanonMode2String (m : canon_mode) : bytes :=
  match m with SIMPLE => str "simple" | RELAXED => str "relaxed" end.

(** Algorithm2String, Util.cpp:39-62. *)
Definition Algorithm2String (s : sig_alg) (d : digest_alg) : bytes :=
  (match s with RSA => str "rsa" | ED25519 => str "ed25519" end) ++ str "-" ++
  (match d with SHA1 => str "sha1" | SHA256 => str "sha256" end).

(** [alphanum], Util.cpp:77-80. *)
Definition alphanum : bytes :=
  str "abcdefghijklmnopqrstuvwxyz" ++ str "ABCDEFGHIJKLMNOPQRSTUVWXYZ" ++ str "0123456789".
Definition in_set (set : bytes) (c : ascii) : bool :=
  match find_char c set with Some _ => true | None => false end.

(** ValidateSubDomain, Util.cpp:82-97. *)
Definition ValidateSubDomain (sub : bytes) : bool :=
  match sub with
  | [] => false
  | c :: _ =>
      if negb (in_set alphanum c) then false
      else if negb (in_set alphanum (last sub c)) then false
      else match find_first_not (in_set (alphanum ++ str "-")) sub with
           | Some _ => false
           | None => true
           end
  end.

(** The loop of ValidateDomain, Util.cpp:99-111; [rest] is domain.substr(lpos). *)
Fixpoint vd_loop (fuel : nat) (rest : bytes) : outcome bool :=
  match fuel with
  | O => Diverge
  | S f =>
      match find_char DOT rest with
      | Some pos => if ValidateSubDomain (firstn pos rest) then vd_loop f (skipn (S pos) rest)
                    else Ok false
      | None => Ok (ValidateSubDomain rest)
      end
  end.
Definition ValidateDomain (domain : bytes) : outcome bool := vd_loop (S (length domain)) domain.
