(** Options objects as plain values: vocabulary.  [deed], [reply] and the setters on one object are those of the model. *)
From Verif Require Import Bytes Outcome Crypto SignatoryOptions OptionObjects.

(** The objects made so far, each a value of its own; [None]: destroyed. *)
Definition values : Type := list (option options).
Definition value (v : values) (i : nat) : option options := match nth_error v i with Some (Some o) => Some o | _ => None end.
Fixpoint replace {A} (i : nat) (a : A) (l : list A) : list A :=
  match l, i with [], _ => [] | _ :: r, O => a :: r | x :: r, S k => x :: replace k a r end.

(** What a getter shows, and what a setter is told. *)
Definition names_of (x : which) (o : options) : list bytes := match x with Headers => o_headers o | Oversigned => o_oversign o end.
Definition told (t : taker) (l : list bytes) : op :=
  match t with ToSet => SetHeaders l | ToAdd => AddHeaders l | ToDel => DelHeaders l | ToOversign => SetOversignHeaders l end.

Definition plain (C : crypto) (d : deed) (v : values) : values * reply :=
  match d with
  | Make => (v ++ [Some new_options], Did (Ok tt))
  | Call i x => match value v i with
                | Some o => let '(o1, r) := run_op C x o in (replace i (Some o1) v, Did r)
                | None => (v, NoSuch)
                end
  | Pass i t j x => match value v i, value v j with
                    | Some o, Some p => let '(o1, r) := run_op C (told t (names_of x p)) o in (replace i (Some o1) v, Did r)
                    | _, _ => (v, NoSuch)
                    end
  | Assign i j => match value v i, value v j with
                  | Some _, Some p => (replace i (Some p) v, Did (Ok tt))
                  | _, _ => (v, NoSuch)
                  end
  | End i => match value v i with Some _ => (replace i None v, Did (Ok tt)) | None => (v, NoSuch) end
  end.
Definition plain_after (C : crypto) (ds : list deed) : values := fold_left (fun v d => fst (plain C d v)) ds [].
Definition plain_reply (C : crypto) (ds : list deed) (d : deed) : reply := snd (plain C d (plain_after C ds)).

(** No object is assigned to another. *)
Definition unassigned (ds : list deed) : Prop := Forall (fun d => match d with Assign i j => i = j | _ => True end) ds.
(** No object is given its own list of names to add or to remove. *)
Definition unaliased (ds : list deed) : Prop :=
  Forall (fun d => match d with Pass i t j x => i = j -> x = Headers -> t <> ToAdd /\ t <> ToDel | _ => True end) ds.
(** The object is not assigned to. *)
Definition not_assigned (i : nat) (ds : list deed) : Prop :=
  Forall (fun d => match d with Assign k j => k = i -> j = i | _ => True end) ds.

(** The setters called on object [i], given that [n] objects are there: those that come after its making. *)
Fixpoint calls_to (i n : nat) (ds : list deed) : list op :=
  match ds with
  | [] => []
  | Make :: r => calls_to i (S n) r
  | Call k x :: r => if Nat.eqb k i && Nat.ltb i n then x :: calls_to i n r else calls_to i n r
  | _ :: r => calls_to i n r
  end.
Definition only_calls (ds : list deed) : Prop := Forall (fun d => match d with Pass _ _ _ _ | Assign _ _ => False | _ => True end) ds.
