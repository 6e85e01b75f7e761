(** What a key record allows, by its tags and those of the signature. *)
From Verif Require Import Bytes SpecText SpecTags SpecSig SpecKey Util Signature PublicKey.

(** [record_allows l g]: the record with the tags [l] may be used for [g].  h= restricts only if one of the names in it is
    that of a hash the library knows; s= does not restrict. *)
Definition record_allows (l : list (bytes * bytes)) (g : signature) : Prop :=
  (forall hv vs d, has l "h" hv -> list_wide vs hv -> In (digest_name d) vs -> In (digest_name (sg_digest g)) vs) /\
  key_type l (sg_alg g) /\
  (forall tv vs, has l "t" tv -> list_wide vs tv -> In (str "s") vs -> sg_arc g = true \/ sg_mdomain g = sg_domain g).
(** The same key without restrictions. *)
Definition unrestricted (p : public_key) : public_key := mkPub (pk_tags p) [] (pk_rsa p) (pk_ed p) (pk_alg p) [] [].
