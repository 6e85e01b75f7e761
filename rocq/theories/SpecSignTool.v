(** A signing run of the command line program: what it prints and how it ends.  Of the model only the types of options,
    arguments and endings and the primitives of Crypto.v are used. *)
From Verif Require Import Bytes Outcome SpecText SpecMail SpecCanon SpecVerify SpecPass SpecOptions SpecSign SpecReason SpecMade SpecStop
  MailParser Canonicalization Util Crypto SignatoryOptions Tool.

(** [key_taken C a key rsa ed]: [key] is a key for [a], kept as [rsa] or as [ed]. *)
Inductive key_taken (C : crypto) : sig_alg -> bytes -> option bytes -> bytes -> Prop :=
| kt_pem key k : pem_key key -> c_pem_private C key = Some (Some k) -> key_taken C RSA key (Some k) []
| kt_der key k : ~ pem_key key -> c_der_private C (b64d C key) = Some k -> key_taken C RSA key (Some k) []
| kt_64 key : length key = 64 -> key_taken C ED25519 key None key
| kt_32 key : length key = 32 -> key_taken C ED25519 key None (c_seed_keypair C key)
| kt_b64 key : length key <> 64 -> length key <> 32 -> length (b64d C key) = 64 -> key_taken C ED25519 key None (b64d C key)
| kt_b32 key : length key <> 64 -> length key <> 32 -> length (b64d C key) = 32 -> key_taken C ED25519 key None (c_seed_keypair C (b64d C key)).
Definition asked (a : tool_args) (alg : sig_alg) : Prop :=
  a_keytype a = str "ed25519" /\ alg = ED25519 \/ a_keytype a <> str "ed25519" /\ alg = RSA.
(** The options that the arguments [a] and the key file [key] lead to. *)
Inductive set_up (C : crypto) (a : tool_args) (key : bytes) : options -> Prop :=
| set_up_as alg rsa ed : asked a alg -> key_taken C alg key rsa ed -> dotted (a_domain a) -> dotted (a_selector a) ->
    set_up C a key (mkOpt (mkSO rsa ed alg (a_domain a) (a_selector a)) [] SHA256 [] usual_headers 0 false (a_instance a) RELAXED RELAXED true (-1) true false 1 []).
(** The first of the calls that is refused. *)
Definition first_refused (C : crypto) (alg : sig_alg) (l : list sig_op) (m : bytes) : Prop :=
  exists l1 x l2, l = l1 ++ x :: l2 /\ call_refused C alg x m /\ forall y n, In y l1 -> ~ call_refused C alg y n.
(** A file that is not there reads as an empty one. *)
Definition file_text (f : option bytes) (t : bytes) : Prop := f = Some t \/ f = None /\ t = [].

(** [signing_run ... out err e]: standard output, standard error, the end. *)
Inductive signing_run (C : crypto) (strict : bool) (clock : nat -> Z) (a : tool_args) (key message : option bytes) : bytes -> bytes -> ending -> Prop :=
| sr_no_key x : key = None -> up_to_nul (a_keyfile a) x ->
    signing_run C strict clock a key message [] (str "keyfile " ++ x ++ str " could not be open" ++ [LF]) (Exit 1)
| sr_call k alg m : key = Some k -> asked a alg -> first_refused C alg [SetPrivateKey k; SetDomain (a_domain a); SetSelector (a_selector a)] m ->
    signing_run C strict clock a key message [] (m ++ [LF]) (Exit 1)
| sr_refused k o t fs b out m x : key = Some k -> set_up C a k o -> file_text message t -> has_fields t fs -> message_body t b ->
    canonical_body true b out -> first_event (stop C strict clock o fs out) (Refused m) -> up_to_nul m x ->
    signing_run C strict clock a key message [] (x ++ [LF]) (Exit 1)
| sr_leaves k o t fs b out u : key = Some k -> set_up C a k o -> file_text message t -> has_fields t fs -> message_body t b ->
    canonical_body true b out -> first_event (stop C strict clock o fs out) (Leaves u) ->
    signing_run C strict clock a key message [] [] (Undefined u)
| sr_made k o t fs b out H x : key = Some k -> set_up C a k o -> file_text message t -> has_fields t fs -> message_body t b ->
    canonical_body true b out -> all_made C o clock fs out H -> (strict = true -> Forall ascii_text (map h_name fs)) -> up_to_nul H x ->
    signing_run C strict clock a key message (x ++ CRLF) [] (Exit 0).
