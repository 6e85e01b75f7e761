(** Why and where signing stops.  Of the model only the types of options, keys, header fields and kinds of undefined
    behaviour and the primitives of Crypto.v are used. *)
From Verif Require Import Bytes Outcome SpecText SpecMail SpecCanon SpecVerify SpecSig SpecOptions SpecSign SpecOutcome SpecReason SpecRelaxed SpecMade
  MailParser Canonicalization Util Crypto SignatoryOptions.

Inductive event := Refused (m : bytes) | Leaves (k : ub_kind).
Definition ascii_text (n : bytes) : Prop := Forall (fun c => (code c < 128)%N) n.

(** Making the field for the signature [q] ends with an event. *)
Inductive sig_stop (C : crypto) (o : options) (now : Z) (names : list bytes) (data bh : bytes) (q : sig_options) : event -> Prop :=
| ss_time : ~ in_time o now -> sig_stop C o now names data bh q (Leaves UB_overflow)
| ss_text T m : in_time o now -> o_chead o = RELAXED -> field_up_to_b o q now names bh T -> field_reason T m -> sig_stop C o now names data bh q (Refused m)
| ss_no_key T c : in_time o now -> field_up_to_b o q now names bh T -> text_form (relaxes (o_chead o)) T c ->
    so_alg q = RSA -> so_rsa q = None -> sig_stop C o now names data bh q (Refused (str "No RSA key provided"))
| ss_rsa T c k : in_time o now -> field_up_to_b o q now names bh T -> text_form (relaxes (o_chead o)) T c ->
    so_alg q = RSA -> so_rsa q = Some k -> c_rsa_sign C (o_digest o) (digest C (o_digest o) (data ++ c)) k = None ->
    sig_stop C o now names data bh q (Refused (str "Message could not be signed"))
| ss_short T c : in_time o now -> field_up_to_b o q now names bh T -> text_form (relaxes (o_chead o)) T c ->
    so_alg q = ED25519 -> length (so_ed q) < 63 -> sig_stop C o now names data bh q (Leaves UB_oob_read)
| ss_ed T c : in_time o now -> field_up_to_b o q now names bh T -> text_form (relaxes (o_chead o)) T c ->
    so_alg q = ED25519 -> 63 <= length (so_ed q) ->
    c_ed_sign C (digest C (o_digest o) (data ++ c)) (firstn 64 (so_ed q ++ [chr 0])) = None ->
    sig_stop C o now names data bh q (Refused (str "Message could not be signed")).

(** [stop ... k e]: at its [k]-th step signing would end with [e], were it to come so far.  [strict]: tolower of a
    negative char is undefined; [fs], [body]: the fields and the canonical body of the message. *)
Inductive stop (C : crypto) (strict : bool) (clock : nat -> Z) (o : options) (fs : list header) (body : bytes) : nat -> event -> Prop :=
| st_limit : o_signlen o = true -> (N.of_nat (length body) < o_bodylen o)%N ->
    stop C strict clock o fs body 0 (Refused (str "Body sign limit exceed the size of the canonicalized message length"))
| st_headers : strict = true -> ~ Forall ascii_text (o_headers o) -> stop C strict clock o fs body 1 (Leaves UB_ctype)
| st_name i f : strict = true -> nth_error (rev fs) i = Some f -> ~ ascii_text (h_name f) -> stop C strict clock o fs body (2 + i) (Leaves UB_ctype)
| st_field i f m : nth_error (rev fs) i = Some f -> (strict = true -> ascii_text (h_name f)) -> chosen o (h_name f) -> o_chead o = RELAXED ->
    field_reason (h_text f) m -> stop C strict clock o fs body (2 + i) (Refused m)
| st_over : strict = true -> ~ Forall ascii_text (o_oversign o) -> stop C strict clock o fs body (2 + length fs) (Leaves UB_ctype)
| st_sig i q outs e : nth_error (rev (all_signatures o)) i = Some q ->
    Forall2 (fun f out => text_form (relaxes (o_chead o)) (h_text f) out) (filter (fun f => choice o (h_name f)) (rev fs)) outs ->
    sig_stop C o (clock i) (listed_names h_name o fs) (with_crlf outs) (digest C (o_digest o) (cut (o_signlen o) (o_bodylen o) body)) q e ->
    stop C strict clock o fs body (3 + length fs + i) e.
Definition first_event (st : nat -> event -> Prop) (e : event) : Prop := exists k, st k e /\ forall j x, st j x -> k <= j.

(** [key_refused C a key m]: [key] is no key for the algorithm [a], which [m] states. *)
Definition pem_key (key : bytes) : Prop := exists r, key = str "-----" ++ r.
Inductive key_refused (C : crypto) : sig_alg -> bytes -> bytes -> Prop :=
| kr_pem key : pem_key key -> c_pem_private C key = None -> key_refused C RSA key (str "RSA key could not be loaded from PEM")
| kr_type key : pem_key key -> c_pem_private C key = Some None -> key_refused C RSA key (str "Private key could not be loaded (key type must be RSA/RSA2)")
| kr_der key : ~ pem_key key -> c_der_private C (b64d C key) = None -> key_refused C RSA key (str "RSA key could not be loaded from DER")
| kr_ed key : length key <> 64 -> length key <> 32 -> length (b64d C key) <> 64 -> length (b64d C key) <> 32 ->
    key_refused C ED25519 key (str "ED25519 key could not be loaded as Base64").
(** What the setters of one signature say. *)
Inductive call_refused (C : crypto) (a : sig_alg) : sig_op -> bytes -> Prop :=
| cr_key key m : key_refused C a key m -> call_refused C a (SetPrivateKey key) m
| cr_domain d : ~ dotted d -> call_refused C a (SetDomain d) (str "Invalid domain (d=)")
| cr_selector s : ~ dotted s -> call_refused C a (SetSelector s) (str "Invalid selector (s=)").
