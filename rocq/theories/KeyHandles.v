(** Ownership of RSA objects in SignatoryOptions / AdditionalSignaturesOptions: which handles
    are created, which are freed.  Handles are numbers; a null pointer is [None]. *)
From Verif Require Import Bytes.

(** m_privateKeyRSA and m_privateKeyRSAFree of one element, SignatoryOptions.hpp:62-63, with the
    constructor's values (SignatoryOptions.cpp:276-281). *)
Record slot := mkSlot { k_ptr : option nat; k_free : bool }.
Definition new_slot : slot := mkSlot None true.

(** All elements of m_signatures and copies of them, the RSA objects the library has created, those it was handed
    with ownership, those it was lent, and the argument of each RSA_free so far. *)
Record heap := mkHeap {
  k_slots : list slot;
  k_created : list nat;
  k_given : list nat;
  k_lent : list nat;
  k_freed : list nat }.
Definition new_heap : heap := mkHeap [new_slot] [] [] [] [].

(** Setter calls on element [n].  [KLoad n (Some i)]: SetPrivateKey of an RSA key that loads as
    the new object [i] (SignatoryOptions.cpp:118, 127, 348, 357); [KLoad n None]: a DER load that
    fails and stores null (127-129); a PEM load that fails changes nothing.
    [KGive]: SetRSAPrivateKey (162-167, 289-294).  [KAdd]: AddAdditionalSignature (270-274); the
    temporary it copies has no key.  [KCopy n]: the caller copies element [n] (its class has the
    implicit copy constructor, and AddAdditionalSignature, every setter and
    GetAdditionalSignatures return references to copy from). *)
Inductive key_op :=
| KLoad (n : nat) (h : option nat)
| KGive (n : nat) (h : option nat) (own : bool)
| KAdd
| KCopy (n : nat).

Definition set_slot (n : nat) (s : slot) (l : list slot) : list slot :=
  firstn n l ++ match skipn n l with [] => [] | _ :: r => s :: r end.
Definition opt_cons (o : option nat) (l : list nat) : list nat :=
  match o with Some x => x :: l | None => l end.

Definition key_step (h : heap) (o : key_op) : heap :=
  match o with
  | KLoad n p =>
      match nth_error (k_slots h) n with
      | None => h
      | Some s => mkHeap (set_slot n (mkSlot p (k_free s)) (k_slots h)) (opt_cons p (k_created h))
                    (k_given h) (k_lent h) (k_freed h)
      end
  | KGive n p own =>
      match nth_error (k_slots h) n with
      | None => h
      | Some _ => mkHeap (set_slot n (mkSlot p own) (k_slots h)) (k_created h)
                    (if own then opt_cons p (k_given h) else k_given h)
                    (if own then k_lent h else opt_cons p (k_lent h)) (k_freed h)
      end
  | KAdd => mkHeap (k_slots h ++ [new_slot]) (k_created h) (k_given h) (k_lent h) (k_freed h)
  | KCopy n =>
      match nth_error (k_slots h) n with
      | None => h
      | Some s => mkHeap (k_slots h ++ [s]) (k_created h) (k_given h) (k_lent h) (k_freed h)
      end
  end.

(** ~AdditionalSignaturesOptions of every element, SignatoryOptions.cpp:283-287. *)
Definition slot_free (s : slot) : list nat :=
  if k_free s then match k_ptr s with Some i => [i] | None => [] end else [].
Definition destroy (h : heap) : heap :=
  mkHeap [] (k_created h) (k_given h) (k_lent h) (k_freed h ++ flat_map slot_free (k_slots h)).

Definition key_life (ops : list key_op) : heap := destroy (fold_left key_step ops new_heap).

(** PublicKey: m_publicKeyRSA, Reset frees it (PublicKey.cpp:43-44), Parse stores a new object over
    whatever is there (137), the destructor resets (PublicKey.hpp:44-45). *)
Inductive pub_op := PReset | PParse (h : option nat).   (* None: Parse fails before line 137 *)
Record pub_heap := mkPubHeap { pub_ptr : option nat; pub_created : list nat; pub_freed : list nat }.
Definition pub_step (h : pub_heap) (o : pub_op) : pub_heap :=
  match o with
  | PReset => mkPubHeap None (pub_created h) (opt_cons (pub_ptr h) (pub_freed h))
  | PParse None => h
  | PParse (Some i) => mkPubHeap (Some i) (i :: pub_created h) (pub_freed h)
  end.
Definition pub_life (ops : list pub_op) : pub_heap :=
  pub_step (fold_left pub_step ops (mkPubHeap None [] [])) PReset.
