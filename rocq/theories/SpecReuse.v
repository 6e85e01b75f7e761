(** Specification vocabulary for C95: objects that are used for one field or record after another.  Of the model the
    calls themselves and the members of the objects are used. *)
From Verif Require Import Bytes Outcome TagList MailParser Canonicalization Util Crypto Signature PublicKey SpecText SpecTags SpecSig.

(** The names and values that an object holds. *)
Definition held (t : taglist) : list (bytes * bytes) := map (fun x => (fst x, te_value (snd x))) t.

(** [left_behind names l t]: from the text [t], which is refused, the tags [l] are kept: those in front of the first place
    where no new tag with a ";" follows.  [names] are the names kept before. *)
Inductive left_behind : list bytes -> list (bytes * bytes) -> bytes -> Prop :=
| lb_stop names t :
    (forall w1 n w2 w3 v w4 u, Forall LWSP w1 -> tag_name n -> Forall LWSP w2 -> Forall LWSP w3 -> tag_value v -> Forall LWSP w4 ->
       t = w1 ++ n ++ w2 ++ EQUALS :: w3 ++ v ++ w4 ++ SEMI :: u -> In n names) ->
    left_behind names [] t
| lb_tag names w1 n w2 w3 v w4 l t :
    Forall LWSP w1 -> tag_name n -> Forall LWSP w2 -> Forall LWSP w3 -> tag_value v -> Forall LWSP w4 -> ~ In n names ->
    left_behind (n :: names) l t ->
    left_behind names ((n, v) :: l) (w1 ++ n ++ w2 ++ EQUALS :: w3 ++ v ++ w4 ++ SEMI :: t).

(** Objects that any fields or records were parsed into, at any times, whether they were taken or refused. *)
Inductive used (C : crypto) : signature -> Prop :=
| used_new : used C new_signature
| used_again g strict now h e : used C g -> used C (fst (fst (Signature_Parse C strict now h (g, e)))).
Inductive used_key (C : crypto) : public_key -> Prop :=
| used_key_new : used_key C new_public_key
| used_key_again p strict r : used_key C p -> used_key C (fst (PublicKey_Parse C strict r p)).

(** The names of the tags [l] are new to an object that holds [k]. *)
Definition new_names (k l : list (bytes * bytes)) : Prop := forall n, In n (map fst l) -> ~ In n (map fst k).
(** [g'] but, for ARC, with the identity that [g] had. *)
Definition old_identity (g g' : signature) : signature :=
  if sg_arc g' then set_mail (sg_local g) (sg_mdomain g) g' else g'.
(** Two keys that permit the same signatures and accept the same data. *)
Definition same_key (p q : public_key) : Prop :=
  (forall d, In d (pk_digests p) <-> In d (pk_digests q)) /\ pk_alg p = pk_alg q /\ pk_flags p = pk_flags q /\
  (pk_service p = [] <-> pk_service q = []) /\
  match pk_alg p with RSA => pk_rsa p = pk_rsa q | ED25519 => pk_ed p = pk_ed q end.
