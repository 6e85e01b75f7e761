(** A verifying run of the command line program: what it prints and how it ends.  Of the model only types, base64 (C04) and the
    primitives of Crypto.v are used. *)
From Verif Require Import Bytes Outcome SpecText SpecTags SpecMail SpecCanon SpecVerify SpecSig SpecParse SpecKey SpecError SpecReason SpecPass SpecStop SpecSignTool SpecTool SpecEight
  MailParser Canonicalization Util Crypto Signature PublicKey Validatory Tool.
Local Open Scope string_scope. Local Open Scope list_scope.

(** The values of --instance: strtoul, which stops at a NUL and passes over white space; [f]: the number is too large. *)
Definition blank_byte (c : ascii) : Prop := code c = 32%N \/ between 9 13 c.
Inductive number_read : bytes -> N -> bool -> Prop :=
| nr_number v w x neg m : up_to_nul v (w ++ x) -> Forall blank_byte w -> starts_number x neg m -> (m < 18446744073709551616)%N -> number_read v (ul_value neg m) false
| nr_large v w x neg m : up_to_nul v (w ++ x) -> Forall blank_byte w -> starts_number x neg m -> (18446744073709551616 <= m)%N -> number_read v 18446744073709551615 true
| nr_none v x : up_to_nul v x -> (forall w y neg m, x = w ++ y -> Forall blank_byte w -> ~ starts_number y neg m) -> number_read v 0 false.
Record all_settings (ss : list setting) (a : tool_args) : Prop := {
  as_settings : settings ss a;
  as_instance : exists v f, given (fun s v => s = Instance v) (str "0") ss v /\ number_read v (a_instance a) f;
  as_errno : a_errno a = true <-> exists v n, In (Instance v) ss /\ number_read v n true }.

(** What comes of one signature field: the domain, the selector and the rest of the line, and whether errno is ERANGE afterwards;
    or the program does something undefined. *)
Inductive verdict := Line (d s x : bytes) (e : bool) | Lost (u : ub_kind).

(** Reading the tags [l] as far as the [k]-th reason (C96): the domain and the selector known, and a number too large. *)
Definition known_domain (l : list (bytes * bytes)) (k : nat) (d : bytes) : Prop := k <= 1 /\ d = [] \/ 1 < k /\ exists v, has l "d" v /\ d = map low v.
Definition known_selector (l : list (bytes * bytes)) (k : nat) (s : bytes) : Prop := k <= 11 /\ s = [] \/ 11 < k /\ has l "s" s.
Definition too_large (arc : bool) (l : list (bytes * bytes)) (k : nat) : Prop :=
  8 <= k /\ arc = true /\ (exists i n r, has l "i" i /\ ul_reads i n r true) \/
  9 <= k /\ (exists v n r, has l "l" v /\ length v <= 76 /\ ul_reads v n r true) \/
  12 <= k /\ (exists x t, has l "x" x /\ time_value x t true).

(** The [k]-th reason is the first. *)
Definition comes_first (reason : nat -> bytes -> Prop) (k : nat) (m : bytes) : Prop := reason k m /\ forall j n, reason j n -> k <= j.

(** The field [h] of the message [t] says what [g] says; the body is the one that was signed. *)
Definition body_signed (C : crypto) (t : bytes) (g : signature) : Prop :=
  exists b out, message_body t b /\ canonical_body (relaxed_mode (sg_cbody g)) b out /\ sg_bh g = digest C (sg_digest g) (cut (sg_limit g) (sg_size g) out).
(** The header fields hashed, with the fields [fs] of the message; and the signature data belong to them. *)
Definition hashed (fs : list header) (h : header) (g : signature) (pre post : bytes) : list bytes :=
  map h_text (selection h_name fs [] (sg_headers g)) ++ [firstn (h_voff h) (h_text h) ++ pre ++ post].
Definition header_signed (C : crypto) (fs : list header) (h : header) (g : signature) (p : public_key) (pre post : bytes) : Prop :=
  exists outs x, Forall2 (fun f out => canonical_field (relaxed_mode (sg_chead g)) (h_text f) out) (selection h_name fs [] (sg_headers g)) outs /\
    canonical_field (relaxed_mode (sg_chead g)) (firstn (h_voff h) (h_text h) ++ pre ++ post) x /\ sound C g p (with_crlf outs ++ x).
Definition short_data (g : signature) : Prop := sg_alg g = ED25519 /\ length (sg_b g) < 63.
(** In testing mode (t=y) failures are soft. *)
Definition sign_of (p : public_key) (x : bytes) : Prop :=
  In (str "y") (pk_flags p) /\ x = str " SOFT:" \/ ~ In (str "y") (pk_flags p) /\ x = str " = ".

Definition key_name (g : signature) : bytes := sg_selector g ++ str "._domainkey." ++ sg_domain g.

(** [judged_as C res t fs h g x]: the signature field [h], which says what [g] says, is reported as [x]. *)
Inductive judged_as (C : crypto) (res : bytes -> bool * bytes) (t : bytes) (fs : list header) (h : header) (g : signature) : bytes + ub_kind -> Prop :=
| ja_body : ~ body_signed C t g -> judged_as C res t fs h g (inl (str "(fail) = Body hash did not verify"))
| ja_dns r : body_signed C t g -> res (key_name g) = (false, r) -> judged_as C res t fs h g (inl (str "(temperror) TEMPERR:DNS query failed for " ++ key_name g))
| ja_none : body_signed C t g -> res (key_name g) = (true, []) -> judged_as C res t fs h g (inl (str "(permerror) = No key for signature " ++ key_name g))
| ja_record_tags r m : body_signed C t g -> res (key_name g) = (true, r) -> r <> [] -> (forall l, ~ record_tags r l) -> tags_say [] r m ->
    judged_as C res t fs h g (inl (str "(permerror) = " ++ m))
| ja_record r l m : body_signed C t g -> res (key_name g) = (true, r) -> r <> [] -> record_tags r l -> first_reason (key_reason C l) m ->
    judged_as C res t fs h g (inl (str "(permerror) = " ++ m))
| ja_check r l p pre b post k m x c : body_signed C t g -> res (key_name g) = (true, r) -> record_tags r l -> key_says C l p ->
    tag_at (str "b") (skipn (h_voff h) (h_text h)) pre b post ->
    comes_first (check_reason g p (hashed fs h g pre post) (header_signed C fs h g p pre post)) k m ->
    (* the signature data are bad, or something in front of them *)
    (k = 4 + length (hashed fs h g pre post) /\ ~ short_data g /\ c = str "(fail)" \/ k < 4 + length (hashed fs h g pre post) /\ c = str "(permerror)") ->
    sign_of p x -> judged_as C res t fs h g (inl (c ++ x ++ m))
| ja_short r l p pre b post : body_signed C t g -> res (key_name g) = (true, r) -> record_tags r l -> key_says C l p ->
    tag_at (str "b") (skipn (h_voff h) (h_text h)) pre b post -> short_data g ->
    (forall k m, k < 4 + length (hashed fs h g pre post) -> ~ check_reason g p (hashed fs h g pre post) (header_signed C fs h g p pre post) k m) ->
    judged_as C res t fs h g (inr UB_oob_read)
| ja_good r l p pre b post : body_signed C t g -> res (key_name g) = (true, r) -> record_tags r l -> key_says C l p ->
    tag_at (str "b") (skipn (h_voff h) (h_text h)) pre b post -> permits p g -> header_signed C fs h g p pre post ->
    judged_as C res t fs h g (inl (str " OK")).

(** [gives C strict res t fs now e0 h r]: the signature field [h] of the message [t] with the fields [fs] comes to [r] at the time [now];
    [res]: the resolver; [e0]: errno is ERANGE beforehand; [strict]: as in C100. *)
Definition arc_field_name (h : header) : bool := same_name (h_name h) (str "arc-message-signature").
Inductive gives (C : crypto) (strict : bool) (res : bytes -> bool * bytes) (t : bytes) (fs : list header) (now : Z) (e0 : bool) (h : header) : verdict -> Prop :=
| gv_eight : strict = true -> field_leaves now e0 h -> gives C strict res t fs now e0 h (Lost UB_ctype)
| gv_tags m : (forall l, ~ field_tags h l) -> tags_say [] (skipn (h_voff h) (h_text h)) m -> gives C strict res t fs now e0 h (Line [] [] (str "(permerror) = " ++ m) e0)
| gv_reason l k m d s e : (strict = true -> ~ field_leaves now e0 h) -> field_tags h l -> comes_first (sig_reason now e0 (arc_field_name h) l) k m ->
    known_domain l k d -> known_selector l k s -> (e = true <-> e0 = true \/ too_large (arc_field_name h) l k) ->
    gives C strict res t fs now e0 h (Line d s (str "(permerror) = " ++ m) e)
| gv_line l g e x : (strict = true -> ~ field_leaves now e0 h) -> field_tags h l -> taken C now h l e0 g e -> judged_as C res t fs h g (inl x) ->
    gives C strict res t fs now e0 h (Line (sg_domain g) (sg_selector g) x e)
| gv_lost l g e u : (strict = true -> ~ field_leaves now e0 h) -> field_tags h l -> taken C now h l e0 g e -> judged_as C res t fs h g (inr u) ->
    gives C strict res t fs now e0 h (Lost u).

Definition shown_line (f d s x : bytes) : bytes := str "[" ++ f ++ str "][" ++ d ++ str "][" ++ s ++ str "]" ++ x ++ [LF].

(** The signature fields [hs] of the file [f]; the [n]-th reading of the clock is next. *)
Inductive prints (C : crypto) (strict : bool) (clock : nat -> Z) (res : bytes -> bool * bytes) (f t : bytes) (fs : list header)
  : list header -> nat -> bool -> bytes -> (nat * bool) + ub_kind -> Prop :=
| pt_nil n e : prints C strict clock res f t fs [] n e [] (inl (n, e))
| pt_lost h r n e u : gives C strict res t fs (clock n) e h (Lost u) -> prints C strict clock res f t fs (h :: r) n e [] (inr u)
| pt_line h r n e d s x e1 out z : gives C strict res t fs (clock n) e h (Line d s x e1) -> prints C strict clock res f t fs r (S n) e1 out z ->
    prints C strict clock res f t fs (h :: r) n e (shown_line f d s x ++ out) z.

(** The files. *)
Inductive verifying_run (C : crypto) (strict : bool) (clock : nat -> Z) (res : bytes -> bool * bytes) (files : bytes -> option bytes) (ty : validator_type)
  : list bytes -> nat -> bool -> bytes -> ending -> Prop :=
| vr_nil n e : verifying_run C strict clock res files ty [] n e [] (Exit 0)
| vr_open f r n e t fs : file_text (files f) t -> has_fields t fs -> strict = true -> ~ Forall ascii_text (map h_name fs) ->
    verifying_run C strict clock res files ty (f :: r) n e [] (Undefined UB_ctype)
| vr_lost f r n e t fs out u : file_text (files f) t -> has_fields t fs -> (strict = true -> Forall ascii_text (map h_name fs)) ->
    prints C strict clock res f t fs (filter (signature_name ty) fs) n e out (inr u) ->
    verifying_run C strict clock res files ty (f :: r) n e out (Undefined u)
| vr_file f r n e t fs out n1 e1 out' z : file_text (files f) t -> has_fields t fs -> (strict = true -> Forall ascii_text (map h_name fs)) ->
    prints C strict clock res f t fs (filter (signature_name ty) fs) n e out (inl (n1, e1)) ->
    verifying_run C strict clock res files ty r n1 e1 out' z ->
    verifying_run C strict clock res files ty (f :: r) n e (out ++ out') z.
