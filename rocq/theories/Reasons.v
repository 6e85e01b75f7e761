(** The texts of the exceptions of Signature::Parse, PublicKey::Parse, FilterHeader and of the members of Validatory, all of
    them, and what tools/src/main.cpp prints with them.  [ToolText.v] leaves those made of fixed words open. *)
From Verif Require Import Bytes Outcome Stream Tokenizer QuotedPrintable TagList MailParser Canonicalization Util CStdlib Crypto Signature PublicKey
  SignatoryOptions Signatory Validatory Tool ToolText ErrorText.

(** The text of what a parser throws. *)
Definition said {A} (m : says A) : bytes := match m with Says t => t | _ => [] end.

(** Members run one after the other: the text of the first that throws an error of the library. *)
Definition stage (S : Type) : Type := ((S -> S * outcome unit) * (S -> bytes))%type.
Definition thrown (o : outcome unit) : bool := match o with Throw (PermanentError _) | Throw (TemporaryError _) => true | _ => false end.
Fixpoint first_what {S} (stages : list (stage S)) (s : S) : option bytes :=
  match stages with
  | [] => None
  | (f, what) :: r => let '(s1, o) := f s in
                      match o with Ok _ => first_what r s1 | _ => if thrown o then Some (what s) else None end
  end.

(** ** Signature::Parse *)
(** Signature.cpp:74. *)
Definition tags_what (h : header) (st : sig_st) : bytes :=
  match substr_from (h_text h) (h_voff h) with Ok v => said (TagList_says (sg_tags (fst st)) v) | _ => [] end.
(** Nothing is thrown in Signature.cpp:76-79. *)
Definition no_what {S} (_ : S) : bytes := [].
(** Signature.cpp:88. *)
Definition d_what (_ : sig_st) : bytes := str "Missing domain of the signing entity (d)".
(** Signature.cpp:96-103. *)
Definition v_what (st : sig_st) : bytes :=
  match tag "v" st with None => str "Missing version (v)" | Some v => format "Unsupported version " (te_value v) " (v supports 1)" end.
(** Signature.cpp:108-109, 127-130. *)
Definition a_what (st : sig_st) : bytes :=
  match tag "a" st with
  | None => str "Missing algorithm (a)"
  | Some a => format "Unsupported signature algorithm " (te_value a) " (a supports rsa-sha1, rsa-sha256 and ed25519-sha256)"
  end.
(** Signature.cpp:135, 144. *)
Definition b_what (_ : sig_st) : bytes := str "Missing header signature (b)".
Definition bh_what (_ : sig_st) : bytes := str "Missing body hash (bh)".
(** Signature.cpp:155-183. *)
Definition c_what (st : sig_st) : bytes :=
  match tag "c" st with
  | None => []
  | Some c =>
      let '(h, b) := match find_char (chr 47) (te_value c) with
                     | None => (te_value c, str "simple")
                     | Some i => (firstn i (te_value c), skipn (S i) (te_value c))
                     end in
      format "Unsupported canonicalization type " (match mode_of h with None => h | Some _ => b end) " (c supports simple, relaxed)"
  end.
(** Signature.cpp:188-202. *)
Definition h_what (st : sig_st) : bytes :=
  match tag "h" st with
  | None => str "Missing signed header fields (h)"
  | Some h => match ValueList_says (te_value h) with
              | Says m => m
              | _ => str "From: header must be included in signature"
              end
  end.
(** Signature.cpp:208-243. *)
Definition i_what (st : sig_st) : bytes :=
  if sg_arc (fst st) then
    match tag "i" st with
    | None => str "Missing ARC instance (i)"
    | Some _ => str "ARC instance (i) out of range 1-50"
    end
  else match tag "i" st with
       | None => []
       | Some i =>
           match qp_decode_says (te_value i) false with
           | Fine mail =>
               match find_char AT mail with
               | None => str "Missing a local-part (i)"
               | Some p => format "Domain " (lower (skipn (S p) mail)) " is not a (sub)domain of " ++
                           c_str (sg_domain (fst st)) ++ str " (i does not match d)"
               end
           | x => said x
           end
       end.
(** Signature.cpp:252-262. *)
Definition l_what (st : sig_st) : bytes :=
  match tag "l" st with
  | None => []
  | Some l =>
      if Nat.ltb 76 (length (te_value l)) then str "Invalid body signed length; exceeds 76 digits (l)"
      else
        let '(bs, rest, erange) := strtoul (te_value l) in
        if snd st || erange then str "Invalid body signed length; exceeds available storage size of unsigned long (l)"
        else if (9223372036854775808 <=? bs)%N then str "Invalid body signed length; must be a positive number (l)"
        else str "Invalid body signed length; failed numeric parsing (l)"
  end.
(** Signature.cpp:274-277. *)
Definition q_what (st : sig_st) : bytes :=
  match tag "q" st with None => [] | Some q => format "Unsupported query method " (te_value q) " (q supports dns/txt)" end.
(** Signature.cpp:283, 296. *)
Definition s_what (_ : sig_st) : bytes := str "Missing query selector (s)".
Definition x_what (_ : sig_st) : bytes := str "Signature has expired (x)".

Definition sig_texts (C : crypto) (strict : bool) (now : Z) (h : header) : list (stage sig_st) :=
  [(parse_tags h, tags_what h); (parse_arc strict (h_name h), no_what); (parse_d strict, d_what); (parse_v, v_what); (parse_a, a_what);
   (parse_b C strict, b_what); (parse_bh C strict, bh_what); (parse_c, c_what); (parse_h, h_what); (parse_i strict, i_what);
   (parse_l, l_what); (parse_q, q_what); (parse_s, s_what); (parse_x now, x_what)].
Definition Signature_what (C : crypto) (strict : bool) (now : Z) (h : header) (st : sig_st) : option bytes :=
  first_what (sig_texts C strict now h) st.

(** ** PublicKey::Parse *)
(** PublicKey.cpp:55. *)
Definition key_tags_what (r : bytes) (p : public_key) : bytes := said (TagList_says (pk_tags p) r).
(** PublicKey.cpp:66-69. *)
Definition key_v_what (p : public_key) : bytes :=
  match ktag "v" p with None => [] | Some v => format "Unsupported version " (te_value v) " (v supports DKIM1)" end.
(** A list that must not be empty, PublicKey.cpp:76-79 and 155-158. *)
Definition list_what (empty : string) (v : bytes) : bytes :=
  match v with [] => str empty | _ => said (ValueList_says v) end.
Definition key_h_what (p : public_key) : bytes :=
  match ktag "h" p with None => [] | Some h => list_what "Acceptable hash algorithms is empty (h)" (te_value h) end.
(** PublicKey.cpp:99-102. *)
Definition key_k_what (p : public_key) : bytes :=
  match ktag "k" p with None => [] | Some k => format "Unsupported key type " (te_value k) " (k supports rsa and ed25519)" end.
(** PublicKey.cpp:107-145. *)
Definition key_p_what (C : crypto) (strict : bool) (p : public_key) : bytes :=
  match ktag "p" p with
  | None => str "Missing public key (p)"
  | Some e =>
      match te_value e with
      | [] => str "Public key is revoked (p)"
      | v => match strip_space strict v with
             | Ok x => match pk_alg p with
                       | RSA => match c_d2i_pubkey C (b64d C x) with
                                | None => str "Public key could not be loaded (invalid DER data)"
                                | Some _ => str "Public key could not be loaded (key type must be RSA/RSA2)"
                                end
                       | ED25519 => str "Public ed25519 key could not be loaded"
                       end
             | _ => []
             end
      end
  end.
Definition key_s_what (p : public_key) : bytes :=
  match ktag "s" p with None => [] | Some s => list_what "Service type is empty (s)" (te_value s) end.
(** PublicKey.cpp:176. *)
Definition key_t_what (p : public_key) : bytes :=
  match ktag "t" p with None => [] | Some t => said (ValueList_says (te_value t)) end.
Definition key_texts (C : crypto) (strict : bool) (r : bytes) : list (stage public_key) :=
  [(key_tags r, key_tags_what r); (key_v, key_v_what); (key_h, key_h_what); (key_k, key_k_what); (key_p C strict, key_p_what C strict);
   (key_s, key_s_what); (key_t, key_t_what)].
Definition PublicKey_what (C : crypto) (strict : bool) (r : bytes) (p : public_key) : option bytes := first_what (key_texts C strict r) p.

(** ** Validatory *)
(** GetPublicKey, Validatory.cpp:92-124. *)
Definition GetPublicKey_what (C : crypto) (strict : bool) (resolve : bytes -> outcome (bool * bytes)) (g : signature) (p : public_key) : option bytes :=
  let name := c_str (sg_selector g) ++ str "._domainkey." ++ c_str (sg_domain g) in
  match resolve (key_query g) with
  | Ok (true, []) => Some (str "No key for signature " ++ name)
  | Ok (true, r) => PublicKey_what C strict r p
  | Ok (false, _) => Some (str "DNS query failed for " ++ name)
  | _ => None
  end.
(** CheckBodyHash, Validatory.cpp:163. *)
Definition CheckBodyHash_what (C : crypto) (g : signature) (v : validatory) : option bytes :=
  if thrown (snd (CheckBodyHash C g v)) then Some (str "Body hash did not verify") else None.
Definition GetSignature_what (C : crypto) (strict : bool) (now : Z) (h : header) (st : sig_st) (v : validatory) : option bytes :=
  match Signature_Parse C strict now h st with
  | (st1, Ok _) => CheckBodyHash_what C (fst st1) v
  | _ => Signature_what C strict now h st
  end.

(** FilterHeader, Canonicalization.cpp:60-111: the loop again, with the texts. *)
Fixpoint fh_loop_says (fuel : nat) (s : istream) : says unit :=
  match fuel with
  | O => ErrorText.Endless
  | S f =>
      let? (w, s1) := read_fws_says s in
      let? s2 := (match w with [] => Fine s1 | _ => skip_fws_says (fuel_of s1) s1 end) in
      let '(o, s3) := peek s2 in
      match o with
      | None => Fine tt
      | Some _ => let '(_, s4) := get s3 in fh_loop_says f s4
      end
  end.
Definition filter_what (strict : bool) (x : bytes) : bytes :=
  match find_char COLON x with
  | None => colon_text x
  | Some colon =>
      match lower_str strict (firstn colon x) with
      | Ok name => let out := name ++ skipn colon x in
                   match fh_loop_says (fuel_of (open_str out)) (open_str out) with
                   | Says m => m
                   | _ => colon_text x
                   end
      | _ => []
      end
  end.
(** The loop over h=, Validatory.cpp:218-238. *)
Fixpoint hash_what (strict : bool) (mode : canon_mode) (names : list bytes) (c : cache) : option bytes :=
  match names with
  | [] => None
  | n :: r =>
      match lower_str strict n with
      | Ok name =>
          match cache_pop name c with
          | None => hash_what strict mode r c
          | Some (h, c1) => match FilterHeader strict mode (h_text h) with
                            | Ok _ => hash_what strict mode r c1
                            | Throw _ => Some (filter_what strict (h_text h))
                            | _ => None
                            end
          end
      | _ => None
      end
  end.
(** What is hashed, Validatory.cpp:206-252. *)
Definition signed_what (strict : bool) (h : header) (g : signature) (v : validatory) : option bytes :=
  match build_cache strict (m_headers (v_msg v)) [] with
  | Ok c =>
      match hash_headers strict (sg_chead g) (sg_headers g) c with
      | Ok _ =>
          match (let* val := substr_from (h_text h) (h_voff h) in strip_b g val) with
          | Ok val1 => let x := firstn (h_voff h) (h_text h) ++ val1 in
                       match FilterHeader strict (sg_chead g) x with Throw _ => Some (filter_what strict x) | _ => None end
          | _ => None
          end
      | Throw _ => hash_what strict (sg_chead g) (sg_headers g) c
      | _ => None
      end
  | _ => None
  end.
(** CheckSignature, Validatory.cpp:176-280. *)
Definition CheckSignature_what (C : crypto) (strict : bool) (h : header) (g : signature) (p : public_key) (v : validatory) : option bytes :=
  if negb (match pk_digests p with [] => true | l => existsb (digest_eqb (sg_digest g)) l end) then Some (str "Algorithm is not allowed")
  else if negb (sig_alg_eqb (sg_alg g) (pk_alg p)) then Some (str "Signature algorithm type mismatch")
  else if negb (sg_arc g || negb (memb (str "s") (pk_flags p)) || beqb (sg_domain g) (sg_mdomain g))
  then Some (str "Domain must match sub-domain (flag s)")
  else match signed_data strict h g v with
       | Ok d => if thrown (verify_digest C g p (digest C (sg_digest g) d)) then Some (str "Signature did not verify") else None
       | _ => signed_what strict h g v
       end.

(** ** The program *)
(** main.cpp:180-184. *)
Definition try_what (C : crypto) (strict : bool) (now : Z) (resolve : bytes -> outcome (bool * bytes)) (h : header)
  (errno : bool) (v : validatory) : option bytes :=
  let '(v1, st, r) := GetSignature C strict now h (new_signature, errno) v in
  match r with
  | Ok _ =>
      match GetPublicKey C strict resolve (fst st) new_public_key with
      | (p, Ok _) => CheckSignature_what C strict h (fst st) p v1
      | _ => GetPublicKey_what C strict resolve (fst st) new_public_key
      end
  | _ => GetSignature_what C strict now h (new_signature, errno) v
  end.
Definition text_of (o : option bytes) : bytes := match o with Some t => t | None => [] end.
(** The loops, main.cpp:167-200: the bytes printed. *)
Fixpoint sigs_text (C : crypto) (strict : bool) (clock : nat -> Z) (resolve : bytes -> outcome (bool * bytes)) (name : bytes)
  (hs : list header) (v : validatory) (n : nat) (errno : bool) : bytes :=
  match hs with
  | [] => []
  | h :: r =>
      let '(v1, e1, g, p, o) := try_one C strict (clock n) resolve h errno v in
      match report_of p o with
      | inr x => []
      | inl rep => line_text (mkLine name (sg_domain g) (sg_selector g) rep) (text_of (try_what C strict (clock n) resolve h errno v)) ++
                   sigs_text C strict clock resolve name r v1 (S n) e1
      end
  end.
Fixpoint files_text (C : crypto) (strict : bool) (clock : nat -> Z) (resolve : bytes -> outcome (bool * bytes))
  (fs : bytes -> option bytes) (ty : validator_type) (names : list bytes) (n : nat) (errno : bool) : bytes :=
  match names with
  | [] => []
  | f :: r =>
      match new_validatory strict ty (open_file (fs f)) with
      | Ok v =>
          let '(_, n', e', x) := tool_sigs C strict clock resolve f (v_sigs v) v n errno in
          sigs_text C strict clock resolve f (v_sigs v) v n errno ++
          match x with
          | Some _ => []
          | None => files_text C strict clock resolve fs ty r n' e'
          end
      | _ => []
      end
  end.
(** What the program writes to standard output when it verifies. *)
Definition main_text (C : crypto) (strict : bool) (clock : nat -> Z) (resolve : bytes -> outcome (bool * bytes))
  (fs : bytes -> option bytes) (args : list bytes) : bytes :=
  let '(es, files) := getopt args in
  match take_options es new_args with
  | inr _ => []
  | inl a => files_text C strict clock resolve fs (a_type a) files 0 (a_errno a)
  end.
