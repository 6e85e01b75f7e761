(** Specification vocabulary for C96: the reasons for which a signature, a key record or a message is refused, in the
    order in which they count, with the texts that state them.  Of the model only types, base64 (C04) and the oracles are used. *)
From Verif Require Import Bytes Util Canonicalization MailParser Crypto Base64 Signature PublicKey SpecText SpecTags SpecCanon SpecVerify SpecSig SpecParse SpecKey SpecError.

(** What %s shows of a text: all in front of the first NUL. *)
Inductive up_to_nul : bytes -> bytes -> Prop :=
| sh_all x : ~ In (chr 0) x -> up_to_nul x x
| sh_nul x r : ~ In (chr 0) x -> up_to_nul (x ++ chr 0 :: r) x.

(** The halves of c=. *)
Inductive c_halves : bytes -> bytes -> bytes -> Prop :=
| ch_one v : ~ In (chr 47) v -> c_halves v v (str "simple")
| ch_two h b : ~ In (chr 47) h -> c_halves (h ++ chr 47 :: b) h b.
(** A number and what follows it; the flag says whether the number is too large for 64 bits. *)
Inductive ul_reads : bytes -> N -> bytes -> bool -> Prop :=
| ur_number t r neg m : signed_number t neg m -> first_ok (fun c => ~ between 48 57 c) r -> (m < 18446744073709551616)%N ->
    ul_reads (t ++ r) (ul_value neg m) r false
| ur_large t r neg m : signed_number t neg m -> first_ok (fun c => ~ between 48 57 c) r -> (18446744073709551616 <= m)%N ->
    ul_reads (t ++ r) 18446744073709551615 r true
| ur_none v : (forall neg m, ~ starts_number v neg m) -> ul_reads v 0 v false.

(** [sig_reason now e0 arc l k m]: the field with the tags [l] gives the [k]-th reason, stated as [m].  [arc]: it is an
    ARC-Message-Signature; [e0]: errno is ERANGE. *)
Inductive sig_reason (now : Z) (e0 arc : bool) (l : list (bytes * bytes)) : nat -> bytes -> Prop :=
| rs_d : lacks l "d" -> sig_reason now e0 arc l 1 (str "Missing domain of the signing entity (d)")
| rs_v : arc = false -> lacks l "v" -> sig_reason now e0 arc l 2 (str "Missing version (v)")
| rs_v_other v : arc = false -> has l "v" v -> v <> str "1" -> sig_reason now e0 arc l 2 (str "Unsupported version " ++ v ++ str " (v supports 1)")
| rs_a : lacks l "a" -> sig_reason now e0 arc l 3 (str "Missing algorithm (a)")
| rs_a_other a : has l "a" a -> (forall d k, ~ a_value a d k) ->
    sig_reason now e0 arc l 3 (str "Unsupported signature algorithm " ++ a ++ str " (a supports rsa-sha1, rsa-sha256 and ed25519-sha256)")
| rs_b : lacks l "b" \/ has l "b" [] -> sig_reason now e0 arc l 4 (str "Missing header signature (b)")
| rs_bh : lacks l "bh" -> sig_reason now e0 arc l 5 (str "Missing body hash (bh)")
| rs_c_header c h b : has l "c" c -> c_halves c h b -> (forall m, h <> mode_name m) ->
    sig_reason now e0 arc l 6 (str "Unsupported canonicalization type " ++ h ++ str " (c supports simple, relaxed)")
| rs_c_body c h b m : has l "c" c -> c_halves c h b -> h = mode_name m -> (forall m, b <> mode_name m) ->
    sig_reason now e0 arc l 6 (str "Unsupported canonicalization type " ++ b ++ str " (c supports simple, relaxed)")
| rs_h : lacks l "h" -> sig_reason now e0 arc l 7 (str "Missing signed header fields (h)")
| rs_h_list h m : has l "h" h -> ~ list_ok h -> list_say h m -> sig_reason now e0 arc l 7 m
| rs_h_from h vs : has l "h" h -> list_wide vs h -> (forall n, In n vs -> same_name n (str "from") = false) ->
    sig_reason now e0 arc l 7 (str "From: header must be included in signature")
| rs_instance : arc = true -> lacks l "i" -> sig_reason now e0 arc l 8 (str "Missing ARC instance (i)")
| rs_instance_range i n r f : arc = true -> has l "i" i -> ul_reads i n r f -> ~ (1 <= n <= 50)%N ->
    sig_reason now e0 arc l 8 (str "ARC instance (i) out of range 1-50")
| rs_i_quoted i m : arc = false -> has l "i" i -> ~ qp_ok false i -> qp_say false i m -> sig_reason now e0 arc l 8 m
| rs_i_at i mail : arc = false -> has l "i" i -> qp_text false i mail -> ~ In AT mail -> sig_reason now e0 arc l 8 (str "Missing a local-part (i)")
| rs_i_domain i local raw d x : arc = false -> has l "i" i -> qp_text false i (local ++ AT :: raw) -> ~ In AT local -> has l "d" d ->
    ~ in_domain (map low raw) (map low d) -> up_to_nul (map low raw) x ->
    sig_reason now e0 arc l 8 (str "Domain " ++ x ++ str " is not a (sub)domain of " ++ map low d ++ str " (i does not match d)")
| rs_l_long v : has l "l" v -> 76 < length v -> sig_reason now e0 arc l 9 (str "Invalid body signed length; exceeds 76 digits (l)")
| rs_l_large v n r f : has l "l" v -> length v <= 76 -> ul_reads v n r f -> e0 = true \/ f = true ->
    sig_reason now e0 arc l 9 (str "Invalid body signed length; exceeds available storage size of unsigned long (l)")
| rs_l_sign v n r : has l "l" v -> length v <= 76 -> ul_reads v n r false -> e0 = false -> (9223372036854775808 <= n)%N ->
    sig_reason now e0 arc l 9 (str "Invalid body signed length; must be a positive number (l)")
| rs_l_rest v n r : has l "l" v -> length v <= 76 -> ul_reads v n r false -> e0 = false -> (n < 9223372036854775808)%N -> r <> [] ->
    sig_reason now e0 arc l 9 (str "Invalid body signed length; failed numeric parsing (l)")
| rs_q q : has l "q" q -> q <> str "dns/txt" -> sig_reason now e0 arc l 10 (str "Unsupported query method " ++ q ++ str " (q supports dns/txt)")
| rs_s : lacks l "s" -> sig_reason now e0 arc l 11 (str "Missing query selector (s)")
| rs_x x t f : has l "x" x -> time_value x t f -> (t < now)%Z -> sig_reason now e0 arc l 12 (str "Signature has expired (x)").

(** The first of some reasons. *)
Definition first_reason (reason : nat -> bytes -> Prop) (m : bytes) : Prop :=
  exists k, reason k m /\ forall j m', reason j m' -> k <= j.

(** [key_reason C l k m]: the key record with the tags [l] gives the [k]-th reason, stated as [m]. *)
Inductive key_reason (C : crypto) (l : list (bytes * bytes)) : nat -> bytes -> Prop :=
| rk_v v : has l "v" v -> v <> str "DKIM1" -> key_reason C l 1 (str "Unsupported version " ++ v ++ str " (v supports DKIM1)")
| rk_h : has l "h" [] -> key_reason C l 2 (str "Acceptable hash algorithms is empty (h)")
| rk_h_list h m : has l "h" h -> h <> [] -> ~ list_ok h -> list_say h m -> key_reason C l 2 m
| rk_k k : has l "k" k -> (forall a, k <> alg_name a) -> key_reason C l 3 (str "Unsupported key type " ++ k ++ str " (k supports rsa and ed25519)")
| rk_p : lacks l "p" -> key_reason C l 4 (str "Missing public key (p)")
| rk_p_empty : has l "p" [] -> key_reason C l 4 (str "Public key is revoked (p)")
| rk_p_der p : has l "p" p -> p <> [] -> key_type l RSA -> c_d2i_pubkey C (b64d C (unspaced p)) = None ->
    key_reason C l 4 (str "Public key could not be loaded (invalid DER data)")
| rk_p_type p : has l "p" p -> p <> [] -> key_type l RSA -> c_d2i_pubkey C (b64d C (unspaced p)) = Some None ->
    key_reason C l 4 (str "Public key could not be loaded (key type must be RSA/RSA2)")
| rk_p_size p : has l "p" p -> p <> [] -> key_type l ED25519 -> length (b64d C (unspaced p)) <> 32 ->
    key_reason C l 4 (str "Public ed25519 key could not be loaded")
| rk_s : has l "s" [] -> key_reason C l 5 (str "Service type is empty (s)")
| rk_s_list s m : has l "s" s -> s <> [] -> ~ list_ok s -> list_say s m -> key_reason C l 5 m
| rk_t_list t m : has l "t" t -> ~ list_ok t -> list_say t m -> key_reason C l 6 m.

(** [field_reason t m]: the header field [t] has no relaxed form, which [m] states: it has no colon, or a CR
    without LF, the first of which counts.  A letter of the name is shown as a small one. *)
Definition paired (p : bytes) : Prop := forall a b, p = a ++ CR :: b -> exists b', b = LF :: b'.
Inductive field_reason (t : bytes) : bytes -> Prop :=
| rf_colon x : ~ In COLON t -> up_to_nul t x -> field_reason t (str "Header field " ++ x ++ str " is missing the colon separator")
| rf_cr p c u d m : In COLON t -> t = p ++ CR :: c :: u -> c <> LF -> paired p -> (In COLON p /\ d = c \/ ~ In COLON p /\ d = low c) ->
    byte_at "CR without matching LF, 0x" " at position " m d (S (length p)) -> field_reason t m
| rf_end p : In COLON t -> t = p ++ [CR] -> paired p -> field_reason t (str "CR without matching LF, at the END").

(** [check_reason g p texts ok k m]: the signature [g] and the key record [p] give the [k]-th reason, stated as [m].
    [texts]: the header fields hashed; [ok]: the signature data belong to the hash and the key. *)
Inductive check_reason (g : signature) (p : public_key) (texts : list bytes) (ok : Prop) : nat -> bytes -> Prop :=
| rc_digest : pk_digests p <> [] -> ~ In (sg_digest g) (pk_digests p) -> check_reason g p texts ok 1 (str "Algorithm is not allowed")
| rc_type : sg_alg g <> pk_alg p -> check_reason g p texts ok 2 (str "Signature algorithm type mismatch")
| rc_domain : sg_arc g = false -> In (str "s") (pk_flags p) -> sg_mdomain g <> sg_domain g ->
    check_reason g p texts ok 3 (str "Domain must match sub-domain (flag s)")
| rc_field i t m : sg_chead g = RELAXED -> nth_error texts i = Some t -> field_reason t m -> check_reason g p texts ok (4 + i) m
| rc_data : ~ ok -> check_reason g p texts ok (4 + length texts) (str "Signature did not verify").
