(** Specification vocabulary for key records (RFC 6376 3.6.1).  Of the model only the types of
    the results and base64 (C04) are used. *)
From Verif Require Import Bytes SpecText SpecTags SpecSig Util Crypto Base64 Signature PublicKey.

(** [record_tags r l]: [l] are the tags of the key record [r], all different. *)
Definition record_tags (r : bytes) (l : list (bytes * bytes)) : Prop := rendered_tags l r /\ NoDup (map fst l).

Definition digest_name (d : digest_alg) : bytes := match d with SHA1 => str "sha1" | SHA256 => str "sha256" end.
Definition alg_name (a : sig_alg) : bytes := match a with RSA => str "rsa" | ED25519 => str "ed25519" end.
(** k=, with its default. *)
Definition key_type (l : list (bytes * bytes)) (a : sig_alg) : Prop := lacks l "k" /\ a = RSA \/ has l "k" (alg_name a).

(** [digests_of vs ds]: [ds] are the hashes named in [vs]; other names are skipped. *)
Inductive digests_of : list bytes -> list digest_alg -> Prop :=
| do_nil : digests_of [] []
| do_known d vs ds : digests_of vs ds -> digests_of (digest_name d :: vs) (d :: ds)
| do_other v vs ds : (forall d, v <> digest_name d) -> digests_of vs ds -> digests_of (v :: vs) ds.
(** [services_of vs ss]: the restriction to services that the list [vs] expresses; "*" lifts it. *)
Inductive services_of (vs : list bytes) : list service_type -> Prop :=
| so_all : In (str "*") vs -> services_of vs []
| so_some ss : ~ In (str "*") vs -> length ss = count_occ (list_eq_dec ascii_dec) vs (str "email") -> services_of vs ss.

(** [key_says C l p]: the record with the tags [l] is taken and says what [p] says. *)
Definition key_says (C : crypto) (l : list (bytes * bytes)) (p : public_key) : Prop :=
  (lacks l "v" \/ has l "v" (str "DKIM1")) /\
  (lacks l "h" /\ pk_digests p = [] \/ exists hv vs, has l "h" hv /\ hv <> [] /\ list_wide vs hv /\ digests_of vs (pk_digests p)) /\
  key_type l (pk_alg p) /\
  (exists pv, has l "p" pv /\ pv <> [] /\
     match pk_alg p with
     | RSA => pk_ed p = [] /\ exists k, c_d2i_pubkey C (b64d C (unspaced pv)) = Some (Some k) /\ pk_rsa p = Some k
     | ED25519 => pk_rsa p = None /\ pk_ed p = b64d C (unspaced pv) /\ length (pk_ed p) = 32
     end) /\
  (lacks l "s" /\ pk_service p = [] \/ exists sv vs, has l "s" sv /\ sv <> [] /\ list_wide vs sv /\ services_of vs (pk_service p)) /\
  (lacks l "t" /\ pk_flags p = [] \/ exists tv, has l "t" tv /\ list_wide (pk_flags p) tv).

(** [permits p g]: the record [p] permits the hash and algorithm of [g], and, with t=s, its domains. *)
Definition permits (p : public_key) (g : signature) : Prop :=
  (pk_digests p = [] \/ In (sg_digest g) (pk_digests p)) /\ pk_alg p = sg_alg g /\
  (In (str "s") (pk_flags p) -> sg_arc g = false -> sg_mdomain g = sg_domain g).
