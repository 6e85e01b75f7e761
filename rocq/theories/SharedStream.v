(** Several Validatory and Signatory objects that hold a reference to one std::istream
    (Validatory.hpp:71, Signatory.hpp:46), and a caller that can rewind it.  A constructor or call
    that ends in UB leaves the stream here as it was; what follows has no meaning then. *)
From Verif Require Import Bytes Outcome Stream MailParser Canonicalization Crypto Signature PublicKey SignatoryOptions Signatory Validatory VerifyProps.

Inductive object := AVerifier (v : validatory) | ASigner (y : signatory) | NoObject.

Inductive deed :=
| Rewind                                        (* the caller: clear(), seekg(0) *)
| MakeVerifier (ty : validator_type)            (* Validatory.cpp:46-69 *)
| MakeSigner                                    (* Signatory.cpp:45-48: the stream is not read yet *)
| Ask (k : nat) (e : bool) (c : call)           (* the k-th object; [e]: errno is ERANGE *)
| Sign (k : nat) (clock : nat -> Z) (o : options).
Inductive reply := Done | Answered (a : answer) | Signed (r : outcome bytes) | NoReply.

Definition world : Type := istream * list object.
Fixpoint update {A} (k : nat) (x : A) (l : list A) : list A :=
  match l, k with [], _ => [] | _ :: r, O => x :: r | y :: r, S k' => y :: update k' x r end.

(** One deed.  Every object works on the stream as it is now. *)
Definition act (C : crypto) (strict : bool) (d : deed) (w : world) : world * reply :=
  let '(s, objs) := w in
  match d with
  | Rewind => ((seekg 0 (clear s), objs), Done)
  | MakeVerifier ty =>
      match new_validatory strict ty s with
      | Ok v => ((v_file v, objs ++ [AVerifier v]), Done)
      | _ => ((s, objs ++ [NoObject]), NoReply)
      end
  | MakeSigner => ((s, objs ++ [ASigner (new_signatory s)]), Done)
  | Ask k e c =>
      match nth_error objs k with
      | Some (AVerifier v) =>
          let '(v1, a) := perform C strict e c (mkVal (v_msg v) s (v_sigs v)) in
          ((v_file v1, update k (AVerifier v1) objs), Answered a)
      | _ => (w, NoReply)
      end
  | Sign k clock o =>
      match nth_error objs k with
      | Some (ASigner y) =>
          let '(y1, r) := CreateSignature C strict clock o (mkSignatory (y_msg y) s) in
          ((y_file y1, update k (ASigner y1) objs), Signed r)
      | _ => (w, NoReply)
      end
  end.

(** The state after the deeds [ds] on a stream with the text [t], and the reply to one more. *)
Definition after (C : crypto) (strict : bool) (t : bytes) (ds : list deed) : world :=
  fold_left (fun w d => fst (act C strict d w)) ds (open_str t, []).
Definition reply_to (C : crypto) (strict : bool) (t : bytes) (ds : list deed) (d : deed) : reply :=
  snd (act C strict d (after C strict t ds)).
Definition stream_after C strict t ds : istream := fst (after C strict t ds).
Definition made C strict t ds : nat := length (snd (after C strict t ds)).
