(** Objects on one stream: vocabulary.  [deed] is a type of the model; [has_signed] counts calls of its
    CreateSignature. *)
From Verif Require Import Bytes Stream Crypto SignatoryOptions Signatory SharedStream.

(** What an object that starts to read now sees: the text behind the position, or nothing if a flag
    is set. *)
Definition ahead (s : istream) : bytes := if s_eof s || s_fail s then [] else s_rest s.

(** The object [k] was not told to sign. *)
Definition unsigned_yet (k : nat) (ds : list deed) : Prop :=
  Forall (fun d => match d with Sign j _ _ => j <> k | _ => True end) ds.

(** The next object to read starts at the beginning of the text. *)
Definition from_the_start (ds : list deed) : Prop := ds = [] \/ exists ds', ds = ds' ++ [Rewind].

(** What a signer takes for the body when it signs again, with [a] ahead on the stream: it reads one
    more line; an empty one means that the body begins behind it, none that there is no body. *)
Definition next_body (a body : bytes) : bytes :=
  match a with
  | [] => []
  | c :: r => if c =?c LF then r
              else if c =?c CR then match r with [] => [] | d :: r' => if d =?c LF then r' else body end
              else body
  end.

(** A signer on the text [t] after [k] calls, with whatever options, clocks and primitives. *)
Inductive has_signed (strict : bool) (t : bytes) : nat -> signatory -> Prop :=
| hs_new : has_signed strict t 0 (new_signatory (open_str t))
| hs_more k y C clock o : has_signed strict t k y -> has_signed strict t (S k) (fst (CreateSignature C strict clock o y)).
Definition last_one {A} (l : list A) : list A := match rev l with [] => [] | x :: _ => [x] end.
