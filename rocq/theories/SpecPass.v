(** When a signature of a message is good: the whole way from the bytes of the message and of the
    key record (RFC 6376 3.4-3.7, 5.4, 6.1, with the deviations of C31, C34, C53 and C54).  Of the
    model only the types, base64 (C04) and the primitives are used. *)
From Verif Require Import Bytes Canonicalization Util MailParser Crypto Base64 Signature PublicKey Validatory
  SpecText SpecTags SpecMail SpecCanon SpecVerify SpecSig SpecKey SpecParse SpecDns Resolver.

(** [has_fields t fs]: [fs] are the header fields of the message [t], with their names and the
    places where their values begin. *)
Definition has_fields (t : bytes) (fs : list header) : Prop :=
  exists ls h rest gs, header_block ls h /\ t = h ++ rest /\
    ((exists e body, line_end [] e /\ rest = e ++ body) /\ concat gs = ls \/
     exists l, last_line rest l /\ concat gs = ls ++ opt_line l) /\
    Forall field_lines gs /\ match gs with [] => True | _ :: r => Forall starts_field r end /\
    Forall2 (fun f g => h_text f = joined g /\ named (joined g) (h_name f) (h_voff f)) fs gs.

(** no header field of 2 GiB or more (the code keeps a place in a field as an [int]) *)
Definition small_fields (t : bytes) : Prop := forall fs h, has_fields t fs -> In h fs -> (Z.of_nat (length (h_text h)) < 2147483648)%Z.

Definition signature_name (ty : validator_type) (h : header) : bool :=
  match ty with
  | V_DKIM => same_name (h_name h) (str "DKIM-Signature")
  | V_ARC => same_name (h_name h) (str "ARC-Message-Signature")
  | V_NONE => false
  end.

(** The canonical form of a field that has a name. *)
Definition canonical_field (relaxed : bool) (t out : bytes) : Prop :=
  if relaxed then exists n, relaxed_field t n out else out = t.

Definition relaxed_mode (m : canon_mode) : bool := match m with RELAXED => true | SIMPLE => false end.

(** [sound C g p d]: the signature data of [g] belong to the text [d] and the key [p]. *)
Definition sound (C : crypto) (g : signature) (p : public_key) (d : bytes) : Prop :=
  match sg_alg g with
  | RSA => exists k, pk_rsa p = Some k /\ c_rsa_verify C (sg_digest g) (digest C (sg_digest g) d) (sg_b g) k = true
  | ED25519 => 63 <= length (sg_b g) /\ c_ed_verify C (firstn 64 (sg_b g ++ [chr 0])) (digest C (sg_digest g) d) (pk_ed p) = true
  end.

(** [good C ty t i now er dns g]: the i-th signature of the message [t] says what [g] says and is
    good at the time [now]; [dns n r]: [r] is the key record under the name [n].  [er]: errno is
    ERANGE beforehand (C32). *)
Inductive good (C : crypto) (ty : validator_type) (t : bytes) (i : nat) (now : Z) (er : bool) (dns : bytes -> bytes -> Prop) (g : signature) : Prop :=
| good_intro fs h l e b out r kl p pre bv post outs x :
    (* the field *)
    has_fields t fs -> nth_error (filter (signature_name ty) fs) i = Some h -> field_tags h l -> taken C now h l er g e ->
    (* the body *)
    message_body t b -> canonical_body (relaxed_mode (sg_cbody g)) b out ->
    sg_bh g = digest C (sg_digest g) (cut (sg_limit g) (sg_size g) out) ->
    (* the key *)
    dns (sg_selector g ++ str "._domainkey." ++ sg_domain g) r -> record_tags r kl -> key_says C kl p -> permits p g ->
    (* the header fields *)
    tag_at (str "b") (skipn (h_voff h) (h_text h)) pre bv post ->
    Forall2 (fun f out => canonical_field (relaxed_mode (sg_chead g)) (h_text f) out) (selection h_name fs [] (sg_headers g)) outs ->
    canonical_field (relaxed_mode (sg_chead g)) (firstn (h_voff h) (h_text h) ++ pre ++ post) x ->
    sound C g p (with_crlf outs ++ x) ->
    good C ty t i now er dns g.

(** [published answer n r]: [r] is the text under the name [n] in the responses received.
    [well_answered q]: the query failed or gave such a response, of the size of the buffer at most. *)
Definition published (answer : bytes -> query_result) (n r : bytes) : Prop :=
  exists pkt texts, answer n = QAnswer pkt /\ response texts pkt /\ r = concat texts.
Definition well_answered (q : query_result) : Prop :=
  match q with QFail _ => True | QAnswer pkt => (N.of_nat (length pkt) <= 65536)%N /\ exists texts, response texts pkt end.
