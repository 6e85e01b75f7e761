(** Specification vocabulary for the command line program. *)
From Verif Require Import Bytes Outcome SpecText SpecTags SpecMail SpecCanon SpecVerify SpecSig SpecKey SpecOptions SpecSign Stream MailParser
  Canonicalization Util Crypto Signature PublicKey Validatory BodyFacts BodyProps VerifyFacts VerifyProps Tool.

(** The signature fields of the kind [ty] among the header fields of the contents [t]. *)
Definition file_fields (ty : validator_type) (f : option bytes) : list header :=
  match f with
  | None => []
  | Some t =>
      match parse_all new_message (open_str t) with
      | Ok (m, _) => filter (fun h => match ty with
                                      | V_DKIM => same_name (h_name h) (str "DKIM-Signature")
                                      | V_ARC => same_name (h_name h) (str "ARC-Message-Signature")
                                      | V_NONE => false
                                      end) (m_headers m)
      | _ => []
      end
  end.
(** The same for all files, in order. *)
Definition all_fields (ty : validator_type) (fs : bytes -> option bytes) (names : list bytes) : list (bytes * header) :=
  flat_map (fun f => map (pair f) (file_fields ty (fs f))) names.

(** The signature field [h] of the message [t] is genuine: it parses to [g], the body has the
    announced hash, DNS gives a key record that allows the use, and the signature is that key's
    for the announced canonical header fields. *)
Record genuine (C : crypto) (strict : bool) (resolve : bytes -> outcome (bool * bytes)) (t : bytes) (h : header) (now : Z)
  (g : signature) : Prop := {
  gn_parse : exists e0 e1, Signature_Parse C strict now h (new_signature, e0) = ((g, e1), Ok tt);
  gn_body : exists b out, message_body t b /\ canonical_body (is_relaxed (sg_cbody g)) b out /\
    sg_bh g = digest C (sg_digest g) (cut (sg_limit g) (sg_size g) out);
  gn_signed : exists r p m s pre bv post outs x,
    resolve (sg_selector g ++ str "._domainkey." ++ sg_domain g) = Ok (true, r) /\ r <> [] /\
    PublicKey_Parse C strict r new_public_key = (p, Ok tt) /\
    (pk_digests p = [] \/ In (sg_digest g) (pk_digests p)) /\ pk_alg p = sg_alg g /\
    (sg_arc g = false -> In (str "s") (pk_flags p) -> sg_mdomain g = sg_domain g) /\
    parse_all new_message (open_str t) = Ok (m, s) /\
    tag_at (str "b") (skipn (h_voff h) (h_text h)) pre bv post /\ sg_b g = b64d C (unspaced bv) /\
    Forall2 (fun f out => field_form (is_relaxed (sg_chead g)) (h_text f) out) (selection h_name (m_headers m) [] (sg_headers g)) outs /\
    field_form (is_relaxed (sg_chead g)) (firstn (h_voff h) (h_text h) ++ pre ++ post) x /\
    accepted C g p (digest C (sg_digest g) (with_crlf outs ++ x)) }.

(** The line printed for a signature field: what the three calls give on a fresh Validatory. *)
Definition judged (C : crypto) (strict : bool) (ty : validator_type) (resolve : bytes -> outcome (bool * bytes)) (t : bytes) (h : header)
  (now : Z) (e0 : bool) (l : line) : Prop :=
  exists v g p o, new_validatory strict ty (open_str t) = Ok v /\
    (let '(v1, (g1, _), r) := GetSignature C strict now h (new_signature, e0) v in
     g1 = g /\ match r with
     | Ok _ => let '(p1, r1) := GetPublicKey C strict resolve g new_public_key in
               p1 = p /\ match r1 with Ok _ => o = CheckSignature C strict h g p v1 | e => o = e end
     | e => p = new_public_key /\ o = e
     end) /\
    l_domain l = sg_domain g /\ l_selector l = sg_selector g /\
    match l_report l with
    | R_OK => o = Ok tt
    | R_TEMP c => o = Throw (TemporaryError c)
    | R_SOFT c => o = Throw (PermanentError c) /\ In (str "y") (pk_flags p)
    | R_PERM c => o = Throw (PermanentError c) /\ ~ In (str "y") (pk_flags p)
    end.

(** The field has no Ed25519 signature shorter than 63 bytes (C48). *)
Definition harmless (C : crypto) (h : header) : Prop :=
  forall now e0 g e1, Signature_Parse C false now h (new_signature, e0) = ((g, e1), Ok tt) -> ~ short_ed g.

(** ** The command line *)
Inductive setting :=
| Arc | Help | Validate | NoInstance
| Instance (v : bytes) | Selector (v : bytes) | Domain (v : bytes) | Keyfile (v : bytes) | Keyformat (v : bytes).
Inductive short_flag : ascii -> setting -> Prop :=
| sf_a : short_flag "a" Arc | sf_h : short_flag "h" Help | sf_v : short_flag "v" Validate.
Inductive short_value : ascii -> (bytes -> setting) -> Prop :=
| sv_A : short_value "A" Instance | sv_s : short_value "s" Selector | sv_d : short_value "d" Domain
| sv_k : short_value "k" Keyfile | sv_K : short_value "K" Keyformat.
(** Long names; --arcinstance takes no value, and so gives none. *)
Inductive long_flag : bytes -> setting -> Prop :=
| lf_arc : long_flag (str "arc") Arc | lf_instance : long_flag (str "arcinstance") NoInstance
| lf_help : long_flag (str "help") Help | lf_validate : long_flag (str "validate") Validate.
Inductive long_value : bytes -> (bytes -> setting) -> Prop :=
| lv_selector : long_value (str "selector") Selector | lv_domain : long_value (str "domain") Domain
| lv_keyfile : long_value (str "keyfile") Keyfile | lv_keyformat : long_value (str "keyformat") Keyformat.
Definition long_name (n : bytes) : Prop := (exists s, long_flag n s) \/ (exists s, long_value n s).
(** A name is written in full, or by a beginning it shares with no other. *)
Definition written (n full : bytes) : Prop :=
  n = full \/ ((exists r, full = n ++ r) /\ forall other r, long_name other -> other = n ++ r -> other = full).

(** Option letters in one word: what they say, and the option that still wants its value. *)
Inductive cluster : bytes -> list setting -> option (bytes -> setting) -> Prop :=
| cu_nil : cluster [] [] None
| cu_flag c s chars ss p : short_flag c s -> cluster chars ss p -> cluster (c :: chars) (s :: ss) p
| cu_value c mk v : short_value c mk -> v <> [] -> cluster (c :: v) [mk v] None
| cu_pending c mk : short_value c mk -> cluster [c] [] (Some mk).

(** [command_line args ss files]: the words [args] give the settings [ss] and the operands [files]. *)
Inductive command_line : list bytes -> list setting -> list bytes -> Prop :=
| cl_nil : command_line [] [] []
| cl_end files : command_line ([DASH; DASH] :: files) [] files
| cl_operand w r ss files : w = [DASH] \/ first_ok (fun c => c <> DASH) w -> command_line r ss files ->
    command_line (w :: r) ss (w :: files)
| cl_short chars ss r ss' files : chars <> [] -> cluster chars ss None -> command_line r ss' files ->
    command_line ((DASH :: chars) :: r) (ss ++ ss') files
| cl_short_next chars ss mk v r ss' files : cluster chars ss (Some mk) -> command_line r ss' files ->
    command_line ((DASH :: chars) :: v :: r) (ss ++ mk v :: ss') files
| cl_long n full s r ss files : long_flag full s -> written n full -> command_line r ss files ->
    command_line ((DASH :: DASH :: n) :: r) (s :: ss) files
| cl_long_is n full mk v r ss files : long_value full mk -> written n full -> command_line r ss files ->
    command_line ((DASH :: DASH :: n ++ EQUALS :: v) :: r) (mk v :: ss) files
| cl_long_next n full mk v r ss files : long_value full mk -> written n full -> command_line r ss files ->
    command_line ((DASH :: DASH :: n) :: v :: r) (mk v :: ss) files.

(** The value given last, [d] when there is none. *)
Inductive given {A} (gives : setting -> A -> Prop) (d : A) : list setting -> A -> Prop :=
| given_none l : (forall s a, In s l -> ~ gives s a) -> given gives d l d
| given_last l1 s l2 a : gives s a -> (forall s' b, In s' l2 -> ~ gives s' b) -> given gives d (l1 ++ s :: l2) a.
Record settings (ss : list setting) (a : tool_args) : Prop := {
  st_validate : a_validate a = true <-> In Validate ss;
  st_type : (In Arc ss /\ a_type a = V_ARC) \/ (~ In Arc ss /\ a_type a = V_DKIM);
  st_selector : given (fun s v => s = Selector v) [] ss (a_selector a);
  st_domain : given (fun s v => s = Domain v) [] ss (a_domain a);
  st_keyfile : given (fun s v => s = Keyfile v) [] ss (a_keyfile a);
  st_keytype : given (fun s v => s = Keyformat v) (str "rsa") ss (a_keytype a);
  st_instance : exists v, given (fun s v => s = Instance v) (str "0") ss v /\
    (digits v -> (dec_value v < 18446744073709551616)%N -> a_instance a = dec_value v);
  st_errno : (forall v, In (Instance v) ss -> digits v /\ (dec_value v < 18446744073709551616)%N) -> a_errno a = false }.

(** Settings that neither end the program at once nor leave it without a value. *)
Definition usual (s : setting) : Prop := s <> Help /\ s <> NoInstance.
(** The kind of signature the settings ask for. *)
Definition kind (ss : list setting) (ty : validator_type) : Prop := (In Arc ss /\ ty = V_ARC) \/ (~ In Arc ss /\ ty = V_DKIM).
(** The kind of signature signing makes. *)
Definition tool_type (a : tool_args) : validator_type := if (a_instance a =? 0)%N then V_DKIM else V_ARC.
Definition has_from (t : bytes) : Prop :=
  exists m s h, parse_all new_message (open_str t) = Ok (m, s) /\ In h (m_headers m) /\ same_name (h_name h) (str "from") = true.
Definition blank (x : bytes) : bool := match x with [] => true | _ => false end.
