(** When signing has to succeed.  Of the model only the types of options and keys and the signing
    primitives are used. *)
From Verif Require Import Bytes SpecText SpecMail SpecCanon SpecSign MailParser Canonicalization Crypto PublicKey Util SignatoryOptions.

(** [t] contains a CR that is not followed by LF. *)
Definition has_lone_CR (t : bytes) : Prop := exists a b, t = a ++ b /\ lone_CR_first b.

(** The key of the signature [q] always, or never, yields signature data. *)
Definition able (C : crypto) (o : options) (q : sig_options) : Prop :=
  match so_alg q with
  | RSA => exists k, so_rsa q = Some k /\ forall md, c_rsa_sign C (o_digest o) md k <> None
  | ED25519 => length (so_ed q) = 64 /\ forall md, c_ed_sign C md (so_ed q) <> None
  end.
Definition unable (C : crypto) (o : options) (q : sig_options) : Prop :=
  match so_alg q with
  | RSA => forall k, so_rsa q = Some k -> forall md, c_rsa_sign C (o_digest o) md k = None
  | ED25519 => length (so_ed q) = 64 /\ forall md, c_ed_sign C md (so_ed q) = None
  end.

(** No lone CR in what is signed: the chosen fields, the oversigned names, domains and selectors. *)
Definition without_lone_CR (o : options) (fs : list header) : Prop :=
  (forall f, In f fs -> chosen o (h_name f) -> ~ has_lone_CR (h_text f)) /\ (forall n, In n (o_oversign o) -> ~ has_lone_CR n) /\
  (forall q, In q (all_signatures o) -> ~ has_lone_CR (so_domain q) /\ ~ has_lone_CR (so_selector q)).

(** x= is a number of seconds that fits in time_t. *)
Definition in_time (o : options) (now : Z) : Prop :=
  o_exsign o = true -> (-9223372036854775808 <= expiry o now <= 9223372036854775807)%Z.

(** Ed25519 is selected and no key was given. *)
Definition keyless (q : sig_options) : Prop := so_alg q = ED25519 /\ so_ed q = [].
(** The fields, and the one signature [q], have no lone CR that matters. *)
Definition fields_clean (o : options) (fs : list header) : Prop :=
  o_chead o = RELAXED -> forall f, In f fs -> chosen o (h_name f) -> ~ has_lone_CR (h_text f).
Definition signature_clean (o : options) (q : sig_options) : Prop := o_chead o = RELAXED ->
  (forall n, In n (o_oversign o) -> ~ has_lone_CR n) /\ ~ has_lone_CR (so_domain q) /\ ~ has_lone_CR (so_selector q).
(** The signature [q] is made at the time [now]. *)
Definition goes_well (C : crypto) (o : options) (now : Z) (q : sig_options) : Prop := in_time o now /\ signature_clean o q /\ able C o q.
