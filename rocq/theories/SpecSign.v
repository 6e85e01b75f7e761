(** Specification vocabulary for signing.  Of the model only the types of options and keys and the
    signing primitives are used. *)
From Verif Require Import Bytes SpecText SpecTags SpecMail SpecCanon SpecVerify SpecSig SpecOptions Canonicalization Util Crypto
  SignatoryOptions PublicKey.

(** A header name that can stand in a h= list: not empty, no whitespace at the ends, made of
    printable characters other than ':' and ';' with blanks in between. *)
Definition signable_name (n : bytes) : Prop :=
  n <> [] /\ trimmed n /\ Forall (fun c => c <> COLON /\ (value_byte c \/ WSP c)) n.

(** The fields chosen by SetHeaders: all with a name when the list is empty. *)
Definition chosen (o : options) (n : bytes) : Prop :=
  n <> [] /\ (o_headers o = [] \/ exists w, In w (o_headers o) /\ same_name n w = true).

(** The name of the field produced. *)
Definition field_name (o : options) : bytes :=
  if (o_arc o =? 0)%N then str "DKIM-Signature" else str "ARC-Message-Signature".

(** x= as a number, when [now] is the time of signing. *)
Definition expiry (o : options) (now : Z) : Z :=
  ((if o_exabs o then 0
    else if o_tssign o then (if o_ts o =? -1 then now else o_ts o) else now) + o_ex o)%Z.

(** The options are such that the tags of the signature [s] are meaningful. *)
Record sound_options (strict : bool) (o : options) (s : sig_options) : Prop := {
  so_dotted : dotted (so_domain s);
  ss_dotted : dotted (so_selector s);
  so_same : so_alg s = so_alg (o_main o);
  so_known : so_alg s = ED25519 -> o_digest o = SHA256;
  so_instance : o_arc o <> 0%N -> (o_arc o <= 50)%N /\ o_identity o = [];
  so_ident : o_identity o <> [] -> exists loc dom, o_identity o = loc ++ AT :: dom /\ ~ In AT loc /\
    in_domain (map low dom) (map low (so_domain s)) /\ (strict = true -> Forall (fun c => (code c < 128)%N) dom);
  so_len : o_signlen o = true -> (o_bodylen o < 9223372036854775808)%N }.

(** Less: the fields can be read as lists of tags. *)
Definition named_well (s : sig_options) : Prop := (so_domain s = [] \/ dotted (so_domain s)) /\ (so_selector s = [] \/ dotted (so_selector s)).
Record plain_options (o : options) (s : sig_options) : Prop := {
  po_named : named_well s;
  po_instance : o_arc o <> 0%N -> o_identity o = [] }.

(** The key record data [p] belong to the key of [s] and allow its use. *)
Record serves (C : crypto) (o : options) (s : sig_options) (p : public_key) : Prop := {
  sv_alg : pk_alg p = so_alg s;
  sv_digest : pk_digests p = [] \/ In (o_digest o) (pk_digests p);
  sv_strict : In (str "s") (pk_flags p) -> o_arc o = 0%N -> o_identity o <> [] ->
    exists loc dom, o_identity o = loc ++ AT :: dom /\ ~ In AT loc /\ map low dom = map low (so_domain s);
  sv_pair : match so_alg s with
    | RSA => exists k q, so_rsa s = Some k /\ pk_rsa p = Some q /\
        forall md x, c_rsa_sign C (o_digest o) md k = Some x -> x <> [] /\ c_rsa_verify C (o_digest o) md x q = true
    | ED25519 => length (so_ed s) = 64 /\ length (pk_ed p) = 32 /\
        forall md x, c_ed_sign C md (so_ed s) = Some x -> length x = 64 /\ c_ed_verify C x md (pk_ed p) = true
    end }.

(** The fields [hs] of the message and the options fit: the names that get into h= can stand
    there, From is among them, and an oversigned name belongs neither to the new field itself nor
    to fields that are left out. *)
Record sound_fields {A} (name : A -> bytes) (o : options) (hs : list A) : Prop := {
  sf_names : forall h, In h hs -> chosen o (name h) -> signable_name (name h);
  sf_over : forall n, In n (o_oversign o) -> signable_name n /\ same_name n (field_name o) = false /\
    forall h, In h hs -> same_name (name h) n = true -> chosen o (name h);
  sf_from : (exists h, In h hs /\ chosen o (name h) /\ same_name (name h) (str "from") = true) \/
    exists n, In n (o_oversign o) /\ same_name n (str "from") = true }.

(** [t] consists of lines without LF joined by CRLF, those after the first beginning with a tab. *)
Definition tab_line (l : bytes) : Prop := exists r, l = HT :: r.
Definition folded_text (t : bytes) : Prop :=
  exists l g, t = joined (l :: g) /\ ~ In LF l /\ Forall (fun x => tab_line x /\ ~ In LF x) g.

(** Signing never yields the empty string. *)
Definition signs_something (C : crypto) : Prop :=
  (forall a md k x, c_rsa_sign C a md k = Some x -> x <> []) /\ (forall md k x, c_ed_sign C md k = Some x -> x <> []).

(** The names in h=: those of the chosen fields, the last field first, then the oversigned ones,
    all in lower case. *)
Definition choice (o : options) (n : bytes) : bool :=
  match n, o_headers o with [], _ => false | _, [] => true | _, l => existsb (same_name n) l end.
Definition listed_names {A} (name : A -> bytes) (o : options) (hs : list A) : list bytes :=
  map (fun h => map low (name h)) (filter (fun h => choice o (name h)) (rev hs)) ++ map (map low) (o_oversign o).
(** A field name is still in the h= list after the names [l] are removed: it is oversigned, or it is
    the name of a field, and a spelling of it stays or no name at all. *)
Definition still_listed {A} (name : A -> bytes) (o : options) (l : list bytes) (hs : list A) (n : bytes) : Prop :=
  (exists w, In w (o_oversign o) /\ same_name w n = true) \/
  (exists h, In h hs /\ name h <> [] /\ same_name (name h) n = true) /\
  ((forall w, In w (o_headers o) -> In w l) \/ exists w, In w (o_headers o) /\ ~ In w l /\ same_name w n = true).
