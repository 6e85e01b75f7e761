(** Model of src/SignatoryOptions.cpp and .hpp.  The ownership of RSA handles is modelled
    separately in KeyHandles.v; here a key pointer is the key it points to. *)
From Verif Require Import Bytes Outcome Base64 Canonicalization Util Crypto.

(** AdditionalSignaturesOptions, SignatoryOptions.hpp:62-68. *)
Record sig_options := mkSO {
  so_rsa : option bytes;
  so_ed : bytes;
  so_alg : sig_alg;
  so_domain : bytes;
  so_selector : bytes }.

(** SignatoryOptions.cpp:276-281. *)
Definition new_sig_options : sig_options := mkSO None [] RSA [] [].

(** SignatoryOptions, SignatoryOptions.hpp:135-164.  The pointers m_domain, m_selector, ... point
    into the front element of m_signatures (SignatoryOptions.cpp:30-37), which is [o_main];
    the elements behind it are [o_more].  [time_t] and [unsigned long] are Z and N. *)
Record options := mkOpt {
  o_main : sig_options;
  o_more : list sig_options;
  o_digest : digest_alg;
  o_oversign : list bytes;
  o_headers : list bytes;
  o_bodylen : N;
  o_signlen : bool;
  o_arc : N;
  o_chead : canon_mode;
  o_cbody : canon_mode;
  o_tssign : bool;
  o_ts : Z;
  o_exsign : bool;
  o_exabs : bool;
  o_ex : Z;
  o_identity : bytes }.

(** SignatoryOptions.cpp:43-73. *)
Definition default_headers : list bytes := map str
  ["from"; "sender"; "reply-to"; "subject"; "date"; "message-id"; "to"; "cc"; "mime-version";
   "content-type"; "content-transfer-encoding"; "content-id"; "content-description";
   "resent-date"; "resent-from"; "resent-sender"; "resent-to"; "resent-cc"; "resent-message-id";
   "in-reply-to"; "references"; "list-id"; "list-help"; "list-unsubscribe";
   "list-unsubscribe-post"; "list-subscribe"; "list-post"; "list-owner"; "list-archive";
   "cfbl-address"; "cfbl-feedback-id"]%string.

(** SignatoryOptions::SignatoryOptions, SignatoryOptions.cpp:28-84. *)
Definition new_options : options :=
  mkOpt new_sig_options [] SHA256 [] default_headers 0 false 0 SIMPLE SIMPLE false (-1) false true (-1) [].

(** SetPrivateKey, SignatoryOptions.cpp:90-160 (= 320-390). *)
Definition so_SetPrivateKey (C : crypto) (key : bytes) (s : sig_options) : outcome sig_options :=
  match so_alg s with
  | RSA =>
      if beqb (firstn 5 key) (str "-----") then
        match c_pem_private C key with
        | Some (Some k) => Ok (mkSO (Some k) (so_ed s) (so_alg s) (so_domain s) (so_selector s))
        | _ => perm
        end
      else
        match c_der_private C (b64d C key) with
        | Some k => Ok (mkSO (Some k) (so_ed s) (so_alg s) (so_domain s) (so_selector s))
        | None => perm
        end
  | ED25519 =>
      let put k := Ok (mkSO (so_rsa s) k (so_alg s) (so_domain s) (so_selector s)) in
      if Nat.eqb (length key) 64 then put key
      else if Nat.eqb (length key) 32 then put (c_seed_keypair C key)
      else let tmp := b64d C key in
           if Nat.eqb (length tmp) 64 then put tmp
           else if Nat.eqb (length tmp) 32 then put (c_seed_keypair C tmp)
           else perm
  end.
(** A failed DER load leaves the key pointer null (SignatoryOptions.cpp:127-129, 357-359);
    every other failure leaves the object as it was. *)
Definition so_after_failed_key (key : bytes) (s : sig_options) : sig_options :=
  match so_alg s with
  | RSA => if beqb (firstn 5 key) (str "-----") then s
           else mkSO None (so_ed s) (so_alg s) (so_domain s) (so_selector s)
  | ED25519 => s
  end.
Definition so_key (C : crypto) (key : bytes) (s : sig_options) : sig_options * outcome unit :=
  match so_SetPrivateKey C key s with
  | Ok s1 => (s1, Ok tt)
  | Throw e => (so_after_failed_key key s, Throw e)
  | UB k => (s, UB k)
  | Diverge => (s, Diverge)
  end.

(** SetRSAPrivateKey, SignatoryOptions.cpp:162-167, 289-294. *)
Definition so_rsakey (k : option bytes) (s : sig_options) : sig_options :=
  mkSO k (so_ed s) (so_alg s) (so_domain s) (so_selector s).
(** SetSignatureAlgorithm, SignatoryOptions.cpp:193-197, 314-318. *)
Definition so_setalg (a : sig_alg) (s : sig_options) : sig_options :=
  mkSO (so_rsa s) (so_ed s) a (so_domain s) (so_selector s).
(** SetSelector, SignatoryOptions.cpp:169-176, 296-303. *)
Definition so_setselector (x : bytes) (s : sig_options) : sig_options * outcome unit :=
  lift s as ok <- ValidateDomain x ;;
  if (ok : bool) then (mkSO (so_rsa s) (so_ed s) (so_alg s) (so_domain s) x, Ok tt) else (s, perm).
(** SetDomain, SignatoryOptions.cpp:178-185, 305-312. *)
Definition so_setdomain (x : bytes) (s : sig_options) : sig_options * outcome unit :=
  lift s as ok <- ValidateDomain x ;;
  if (ok : bool) then (mkSO (so_rsa s) (so_ed s) (so_alg s) x (so_selector s), Ok tt) else (s, perm).

(** std::list<std::string>::remove. *)
Definition list_remove (x : bytes) (l : list bytes) : list bytes :=
  filter (fun y => negb (beqb y x)) l.

Definition with_main m o := mkOpt m (o_more o) (o_digest o) (o_oversign o) (o_headers o) (o_bodylen o)
  (o_signlen o) (o_arc o) (o_chead o) (o_cbody o) (o_tssign o) (o_ts o) (o_exsign o) (o_exabs o) (o_ex o) (o_identity o).
Definition with_more m o := mkOpt (o_main o) m (o_digest o) (o_oversign o) (o_headers o) (o_bodylen o)
  (o_signlen o) (o_arc o) (o_chead o) (o_cbody o) (o_tssign o) (o_ts o) (o_exsign o) (o_exabs o) (o_ex o) (o_identity o).
Definition with_headers h o := mkOpt (o_main o) (o_more o) (o_digest o) (o_oversign o) h (o_bodylen o)
  (o_signlen o) (o_arc o) (o_chead o) (o_cbody o) (o_tssign o) (o_ts o) (o_exsign o) (o_exabs o) (o_ex o) (o_identity o).

(** One setter call.  [op_more n m] is call [m] on the reference returned by the n-th
    AddAdditionalSignature (SignatoryOptions.cpp:270-274). *)
Inductive sig_op :=
| SetPrivateKey (key : bytes)
| SetRSAPrivateKey (k : option bytes)
| SetDomain (d : bytes)
| SetSelector (s : bytes)
| SetSignatureAlgorithm (a : sig_alg).
Inductive op :=
| OnMain (m : sig_op)
| OnMore (n : nat) (m : sig_op)
| AddAdditionalSignature
| SetDigestAlgorithm (a : digest_alg)
| SetHeaders (l : list bytes)
| AddHeaders (l : list bytes)
| DelHeaders (l : list bytes)
| SetOversignHeaders (l : list bytes)
| SetSignBodyLength (n : N)
| SetARCInstance (n : N)
| SetCanonModeHeader (m : canon_mode)
| SetCanonModeBody (m : canon_mode)
| SetTimestamp (t : Z)
| SetExpiration (t : Z) (absolute : bool)
| SetIdentity (i : bytes).

Definition run_sig_op (C : crypto) (m : sig_op) (s : sig_options) : sig_options * outcome unit :=
  match m with
  | SetPrivateKey k => so_key C k s
  | SetRSAPrivateKey k => (so_rsakey k s, Ok tt)
  | SetDomain d => so_setdomain d s
  | SetSelector x => so_setselector x s
  | SetSignatureAlgorithm a => (so_setalg a s, Ok tt)
  end.

Definition update_nth {A} (n : nat) (x : A) (l : list A) : list A :=
  firstn n l ++ match skipn n l with [] => [] | _ :: r => x :: r end.

(** SignatoryOptions.cpp:187-274.  A call on a reference that was never handed out cannot be
    written in C++; the model leaves the object alone. *)
Definition run_op (C : crypto) (x : op) (o : options) : options * outcome unit :=
  match x with
  | OnMain m => let '(s, r) := run_sig_op C m (o_main o) in (with_main s o, r)
  | OnMore n m =>
      match nth_error (o_more o) n with
      | Some s0 => let '(s, r) := run_sig_op C m s0 in (with_more (update_nth n s (o_more o)) o, r)
      | None => (o, Ok tt)
      end
  | AddAdditionalSignature => (with_more (o_more o ++ [new_sig_options]) o, Ok tt)
  | SetDigestAlgorithm a =>
      (mkOpt (o_main o) (o_more o) a (o_oversign o) (o_headers o) (o_bodylen o) (o_signlen o) (o_arc o)
         (o_chead o) (o_cbody o) (o_tssign o) (o_ts o) (o_exsign o) (o_exabs o) (o_ex o) (o_identity o), Ok tt)
  | SetHeaders l => (with_headers l o, Ok tt)
  | AddHeaders l => (with_headers (o_headers o ++ l) o, Ok tt)
  | DelHeaders l => (with_headers (fold_left (fun h x => list_remove x h) l (o_headers o)) o, Ok tt)
  | SetOversignHeaders l =>
      (mkOpt (o_main o) (o_more o) (o_digest o) l (o_headers o) (o_bodylen o) (o_signlen o) (o_arc o)
         (o_chead o) (o_cbody o) (o_tssign o) (o_ts o) (o_exsign o) (o_exabs o) (o_ex o) (o_identity o), Ok tt)
  | SetSignBodyLength n =>
      (mkOpt (o_main o) (o_more o) (o_digest o) (o_oversign o) (o_headers o) n true (o_arc o)
         (o_chead o) (o_cbody o) (o_tssign o) (o_ts o) (o_exsign o) (o_exabs o) (o_ex o) (o_identity o), Ok tt)
  | SetARCInstance n =>
      (mkOpt (o_main o) (o_more o) (o_digest o) (o_oversign o) (o_headers o) (o_bodylen o) (o_signlen o) n
         (o_chead o) (o_cbody o) (o_tssign o) (o_ts o) (o_exsign o) (o_exabs o) (o_ex o) (o_identity o), Ok tt)
  | SetCanonModeHeader m =>
      (mkOpt (o_main o) (o_more o) (o_digest o) (o_oversign o) (o_headers o) (o_bodylen o) (o_signlen o) (o_arc o)
         m (o_cbody o) (o_tssign o) (o_ts o) (o_exsign o) (o_exabs o) (o_ex o) (o_identity o), Ok tt)
  | SetCanonModeBody m =>
      (mkOpt (o_main o) (o_more o) (o_digest o) (o_oversign o) (o_headers o) (o_bodylen o) (o_signlen o) (o_arc o)
         (o_chead o) m (o_tssign o) (o_ts o) (o_exsign o) (o_exabs o) (o_ex o) (o_identity o), Ok tt)
  | SetTimestamp t =>
      (mkOpt (o_main o) (o_more o) (o_digest o) (o_oversign o) (o_headers o) (o_bodylen o) (o_signlen o) (o_arc o)
         (o_chead o) (o_cbody o) true t (o_exsign o) (o_exabs o) (o_ex o) (o_identity o), Ok tt)
  | SetExpiration t a =>
      (mkOpt (o_main o) (o_more o) (o_digest o) (o_oversign o) (o_headers o) (o_bodylen o) (o_signlen o) (o_arc o)
         (o_chead o) (o_cbody o) (o_tssign o) (o_ts o) true a t (o_identity o), Ok tt)
  | SetIdentity i =>
      (mkOpt (o_main o) (o_more o) (o_digest o) (o_oversign o) (o_headers o) (o_bodylen o) (o_signlen o) (o_arc o)
         (o_chead o) (o_cbody o) (o_tssign o) (o_ts o) (o_exsign o) (o_exabs o) (o_ex o) i, Ok tt)
  end.

(** A sequence of calls whose DKIM errors the caller catches. *)
Fixpoint run_ops (C : crypto) (l : list op) (o : options) : options :=
  match l with
  | [] => o
  | x :: r => run_ops C r (fst (run_op C x o))
  end.

(** GetAdditionalSignatures, SignatoryOptions.hpp:94-95. *)
Definition all_signatures (o : options) : list sig_options := o_main o :: o_more o.
