(** Model of src/Validatory.cpp and src/Validatory.hpp. *)
From Verif Require Import Bytes Outcome Stream TagList MailParser Canonicalization Util Crypto
  Signature PublicKey.

(** Validatory.hpp:39. *)
Inductive validator_type := V_DKIM | V_ARC | V_NONE.

(** DKIM::Validatory: m_msg, m_file, m_dkimHeaders. *)
Record validatory := mkVal { v_msg : message; v_file : istream; v_sigs : list header }.

(** The loop of the constructor, Validatory.cpp:55-68. *)
Fixpoint collect (strict : bool) (wanted : bytes) (hs : list header) : outcome (list header) :=
  match hs with
  | [] => Ok []
  | h :: r =>
      let* n := lower_str strict (h_name h) in
      let* l := collect strict wanted r in
      Ok (if beqb n wanted then h :: l else l)
  end.

(** Validatory::Validatory, Validatory.cpp:46-69. *)
Definition new_validatory (strict : bool) (ty : validator_type) (s : istream) : outcome validatory :=
  let* (m, s1) := parse_all new_message s in
  match ty with
  | V_NONE => Ok (mkVal m s1 [])
  | V_DKIM => let* l := collect strict (str "dkim-signature") (m_headers m) in Ok (mkVal m s1 l)
  | V_ARC => let* l := collect strict (str "arc-message-signature") (m_headers m) in Ok (mkVal m s1 l)
  end.

(** Validatory::CheckBodyHash, Validatory.cpp:131-165.  The return value of
    CanonicalizationBody is not looked at. *)
Definition CheckBodyHash (C : crypto) (g : signature) (v : validatory) : validatory * outcome unit :=
  match CanonicalizationBody (v_file v) (sg_cbody g) (m_offset (v_msg v)) (sg_limit g) (sg_size g) with
  | Ok (chunks, _, s1) =>
      (mkVal (v_msg v) s1 (v_sigs v),
       if beqb (sg_bh g) (digest_chunks C (sg_digest g) chunks) then Ok tt else perm_fail)
  | Throw e => (v, Throw e)
  | UB k => (v, UB k)
  | Diverge => (v, Diverge)
  end.

(** Validatory::GetSignature, Validatory.cpp:80-85. *)
Definition GetSignature (C : crypto) (strict : bool) (now : Z) (h : header) (st : sig_st)
  (v : validatory) : validatory * sig_st * outcome unit :=
  match Signature_Parse C strict now h st with
  | (st1, Ok _) => let '(v1, r) := CheckBodyHash C (fst st1) v in (v1, st1, r)
  | (st1, e) => (v, st1, e)
  end.

(** The name looked up, Validatory.cpp:97. *)
Definition key_query (g : signature) : bytes := sg_selector g ++ str "._domainkey." ++ sg_domain g.

(** Validatory::GetPublicKey, Validatory.cpp:92-124.  [resolve] is CustomDNSResolver or
    Resolver().GetTXT: success and the text. *)
Definition GetPublicKey (C : crypto) (strict : bool) (resolve : bytes -> outcome (bool * bytes))
  (g : signature) (p : public_key) : public_key * outcome unit :=
  lift p as r <- resolve (key_query g) ;;
  let '(ok, text) := r in
  if (ok : bool) then
    match text with
    | [] => (p, perm)
    | _ => PublicKey_Parse C strict text p
    end
  else (p, temp).

(** headerCache: std::map<std::string, HeaderList>, Validatory.cpp:209-215. *)
Definition cache := list (bytes * list header).
Fixpoint cache_push (name : bytes) (h : header) (c : cache) : cache :=
  match c with
  | [] => [(name, [h])]
  | (n, l) :: r => if beqb n name then (n, l ++ [h]) :: r else (n, l) :: cache_push name h r
  end.
Fixpoint build_cache (strict : bool) (hs : list header) (c : cache) : outcome cache :=
  match hs with
  | [] => Ok c
  | h :: r => let* n := lower_str strict (h_name h) in build_cache strict r (cache_push n h c)
  end.
(** [head->second.back()] and [pop_back()], Validatory.cpp:223-236: [None] is the [continue]. *)
Fixpoint cache_pop (name : bytes) (c : cache) : option (header * cache) :=
  match c with
  | [] => None
  | (n, l) :: r =>
      if beqb n name then
        match rev l with
        | [] => None
        | h :: p => Some (h, (n, rev p) :: r)
        end
      else match cache_pop name r with
           | Some (h, r1) => Some (h, (n, l) :: r1)
           | None => None
           end
  end.

(** The loop over h=, Validatory.cpp:218-238: the bytes given to the digest. *)
Fixpoint hash_headers (strict : bool) (mode : canon_mode) (names : list bytes) (c : cache)
  : outcome bytes :=
  match names with
  | [] => Ok []
  | n :: r =>
      let* name := lower_str strict n in
      match cache_pop name c with
      | None => hash_headers strict mode r c
      | Some (h, c1) =>
          let* x := FilterHeader strict mode (h_text h) in
          let* d := hash_headers strict mode r c1 in
          Ok ((x ++ CRLF) ++ d)
      end
  end.

(** Conversion to a 32 bit [int]. *)
Definition to_int32 (z : Z) : Z := ((z + 2147483648) mod 4294967296 - 2147483648)%Z.

(** [v.erase((int)bTag.GetValueOffset(), bTag.GetValue().size())], Validatory.cpp:241-246:
    a negative int becomes a huge size_t.  Without a b tag the offset is uninitialised. *)
Definition strip_b (g : signature) (v : bytes) : outcome bytes :=
  match GetTag (str "b") (sg_tags g) with
  | None => UB UB_uninit
  | Some e =>
      let off := to_int32 (te_offset e) in
      if ((off <? 0) || (Z.of_nat (length v) <? off))%Z then Throw StdOutOfRange
      else Ok (erase_at v (Z.to_nat off) (length (te_value e)))
  end.

(** The checks between signature and key, Validatory.cpp:177-189. *)
Definition key_allows (g : signature) (p : public_key) : bool :=
  (match pk_digests p with [] => true | l => existsb (digest_eqb (sg_digest g)) l end)
  && sig_alg_eqb (sg_alg g) (pk_alg p)
  && (sg_arc g || negb (memb (str "s") (pk_flags p)) || beqb (sg_domain g) (sg_mdomain g)).

(** What is hashed, Validatory.cpp:206-252. *)
Definition signed_data (strict : bool) (h : header) (g : signature) (v : validatory) : outcome bytes :=
  let* c := build_cache strict (m_headers (v_msg v)) [] in
  let* d := hash_headers strict (sg_chead g) (sg_headers g) c in
  let* val := substr_from (h_text h) (h_voff h) in
  let* val1 := strip_b g val in
  let* x := FilterHeader strict (sg_chead g) (firstn (h_voff h) (h_text h) ++ val1) in
  Ok (d ++ x).

(** The verification call, Validatory.cpp:259-280. *)
Definition verify_digest (C : crypto) (g : signature) (p : public_key) (md : bytes) : outcome unit :=
  match sg_alg g with
  | RSA => match pk_rsa p with
           | None => UB UB_null
           | Some k => if c_rsa_verify C (sg_digest g) md (sg_b g) k then Ok tt else perm_fail
           end
  | ED25519 =>
      let* s := c_read 64 (sg_b g) in
      let* k := c_read 32 (pk_ed p) in
      if c_ed_verify C s md k then Ok tt else perm_fail
  end.

(** Validatory::CheckSignature, Validatory.cpp:172-283; it changes nothing. *)
Definition CheckSignature (C : crypto) (strict : bool) (h : header) (g : signature) (p : public_key)
  (v : validatory) : outcome unit :=
  if key_allows g p then
    let* d := signed_data strict h g v in
    verify_digest C g p (digest C (sg_digest g) d)
  else perm.
