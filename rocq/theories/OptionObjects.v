(** Several SignatoryOptions objects in one program: the pointers m_domain, m_selector, ... of an
    object, its implicit assignment operator, and lists handed over by reference. *)
From Verif Require Import Bytes Outcome Util Canonicalization Crypto SignatoryOptions.

(** One object: its members, where [o_main] is the front element of its own m_signatures, and the
    object whose front element its six pointers lead to (SignatoryOptions.hpp:135-140).  The front
    element of a list stays where it is while the list lives: nothing removes it, and assigning to
    a list assigns to the elements it has (libstdc++, libc++). *)
Record objekt := mkObjekt { b_own : options; b_at : nat }.
(** Objects are numbered as they are made; [None]: destroyed. *)
Definition world : Type := list (option objekt).

Definition object (w : world) (i : nat) : option objekt :=
  match nth_error w i with Some (Some b) => Some b | _ => None end.
Definition put (i : nat) (b : option objekt) (w : world) : world := update_nth i b w.

(** GetHeaders, GetOversignHeaders, SignatoryOptions.hpp:109-112: references to the members. *)
Inductive which := Headers | Oversigned.
Definition the_list (x : which) (o : options) : list bytes :=
  match x with Headers => o_headers o | Oversigned => o_oversign o end.
Inductive taker := ToSet | ToAdd | ToDel | ToOversign.
Definition taking (t : taker) (l : list bytes) : op :=
  match t with ToSet => SetHeaders l | ToAdd => AddHeaders l | ToDel => DelHeaders l | ToOversign => SetOversignHeaders l end.

Inductive deed :=
| Make                                                   (* SignatoryOptions.cpp:28-84 *)
| Call (i : nat) (x : op)                                (* a setter, its arguments the caller's own *)
| Pass (i : nat) (t : taker) (j : nat) (x : which)       (* i.SetHeaders(j.GetHeaders()) and the like *)
| Assign (i j : nat)                                     (* i = j *)
| End (i : nat).                                         (* SignatoryOptions.cpp:86-88 *)

(** [Undefined]: the library leaves the language.  [NoSuch]: the caller names an object that does not live. *)
Inductive reply := Did (r : outcome unit) | Undefined | NoSuch.

(** A setter that works through the pointers when what they led to is gone.  SetDomain and
    SetSelector check their argument first (SignatoryOptions.cpp:171-174, 180-183). *)
Definition through_nothing (m : sig_op) : reply :=
  match m with
  | SetDomain d | SetSelector d =>
      match ValidateDomain d with
      | Ok true => Undefined
      | Ok false => Did perm
      | Throw e => Did (Throw e)
      | UB k => Did (UB k)
      | Diverge => Did Diverge
      end
  | _ => Undefined
  end.

(** DelHeaders of its own list frees the element the loop stands on (SignatoryOptions.cpp:213-214);
    AddHeaders of its own list hands std::list::insert iterators into that list (207), which is not
    allowed.  SetHeaders and SetOversignHeaders assign a list to itself. *)
Definition own_list (t : taker) (x : which) (o : options) : bool :=
  match t, x with
  | ToAdd, Headers => true
  | ToDel, Headers => match o_headers o with [] => false | _ => true end
  | _, _ => false
  end.

Definition act (C : crypto) (d : deed) (w : world) : world * reply :=
  match d with
  | Make => (w ++ [Some (mkObjekt new_options (length w))], Did (Ok tt))
  | Call i x =>
      match object w i with
      | None => (w, NoSuch)
      | Some b =>
          match x with
          | OnMain m =>
              match object w (b_at b) with
              | None => (w, through_nothing m)
              | Some t => let '(s, r) := run_sig_op C m (o_main (b_own t)) in
                          (put (b_at b) (Some (mkObjekt (with_main s (b_own t)) (b_at t))) w, Did r)
              end
          | _ => let '(o, r) := run_op C x (b_own b) in (put i (Some (mkObjekt o (b_at b))) w, Did r)
          end
      end
  | Pass i t j x =>
      match object w i, object w j with
      | Some b, Some c =>
          if Nat.eqb i j && own_list t x (b_own b) then (w, Undefined)
          else let '(o, r) := run_op C (taking t (the_list x (b_own c))) (b_own b) in
               (put i (Some (mkObjekt o (b_at b))) w, Did r)
      | _, _ => (w, NoSuch)
      end
  | Assign i j =>
      (* every member is copied, the pointers too; operator= is not declared (SignatoryOptions.hpp:133-164) *)
      match object w i, object w j with
      | Some _, Some c => (put i (Some (mkObjekt (b_own c) (b_at c))) w, Did (Ok tt))
      | _, _ => (w, NoSuch)
      end
  | End i =>
      match object w i with
      | Some _ => (put i None w, Did (Ok tt))
      | None => (w, NoSuch)
      end
  end.

Definition after (C : crypto) (ds : list deed) : world := fold_left (fun w d => fst (act C d w)) ds [].
Definition reply_to (C : crypto) (ds : list deed) (d : deed) : reply := snd (act C d (after C ds)).

(** What the getters of object [i] return.  GetDomain, GetSelector, GetRSAPrivateKey,
    GetED25519PrivateKey and GetSignatureAlgorithm follow the pointers (SignatoryOptions.hpp:97-108);
    [None]: they lead nowhere.  The others, GetAdditionalSignatures among them, return members. *)
Definition through (w : world) (i : nat) : option sig_options :=
  match object w i with
  | Some b => match object w (b_at b) with Some t => Some (o_main (b_own t)) | None => None end
  | None => None
  end.
Definition members (w : world) (i : nat) : option options := option_map b_own (object w i).
