(** Model of the text that tools/src/main.cpp prints for the reports, main.cpp:185-198, with the
    texts of the exceptions.  [None] stands for a text made of fixed words,
    numbers and the name of a tag in parentheses (TagList.cpp:135-138). *)
From Verif Require Import Bytes Outcome Stream QuotedPrintable TagList MailParser Canonicalization Util CStdlib Crypto Signature PublicKey
  SignatoryOptions Signatory Validatory Tool.

(** [StringFormat("a %s b", v.c_str())], Util.cpp:64-75. *)
Definition format (a : string) (v : bytes) (b : string) : bytes := str a ++ c_str v ++ str b.

(** Members run one after the other: the text of the first that fails. *)
Fixpoint first_why {S} (stages : list ((S -> S * outcome unit) * (S -> option bytes))) (s : S) : option bytes :=
  match stages with
  | [] => None
  | (f, why) :: r => match f s with (s1, Ok _) => first_why r s1 | _ => why s end
  end.
Fixpoint run_stages {S} (stages : list (S -> S * outcome unit)) (s : S) : S * outcome unit :=
  match stages with
  | [] => (s, Ok tt)
  | f :: r => do s1 <- f s ;; run_stages r s1
  end.
Definition no_why {S} (_ : S) : option bytes := None.

(** ** Signature::Parse *)
(** Signature.cpp:97-103. *)
Definition v_why (st : sig_st) : option bytes :=
  match tag "v" st with None => None | Some v => Some (format "Unsupported version " (te_value v) " (v supports 1)") end.
(** Signature.cpp:109, 127-130. *)
Definition a_why (st : sig_st) : option bytes :=
  match tag "a" st with
  | None => None
  | Some a => Some (format "Unsupported signature algorithm " (te_value a) " (a supports rsa-sha1, rsa-sha256 and ed25519-sha256)")
  end.
(** Signature.cpp:155-183. *)
Definition c_why (st : sig_st) : option bytes :=
  match tag "c" st with
  | None => None
  | Some c =>
      let '(h, b) := match find_char (chr 47) (te_value c) with
                     | None => (te_value c, str "simple")
                     | Some i => (firstn i (te_value c), skipn (S i) (te_value c))
                     end in
      let bad := match mode_of h with None => h | Some _ => b end in
      Some (format "Unsupported canonicalization type " bad " (c supports simple, relaxed)")
  end.
(** Signature.cpp:226, 239-243.  [m_mailDomain] is lower-cased already. *)
Definition i_why (st : sig_st) : option bytes :=
  if sg_arc (fst st) then None
  else match tag "i" st with
       | None => None
       | Some i =>
           match qp_decode (te_value i) false with
           | Ok mail =>
               match find_char AT mail with
               | None => None
               | Some p => Some (format "Domain " (lower (skipn (S p) mail)) " is not a (sub)domain of " ++
                                 c_str (sg_domain (fst st)) ++ str " (i does not match d)")
               end
           | _ => None
           end
       end.
(** Signature.cpp:274-277. *)
Definition q_why (st : sig_st) : option bytes :=
  match tag "q" st with None => None | Some q => Some (format "Unsupported query method " (te_value q) " (q supports dns/txt)") end.

Definition sig_stages (C : crypto) (strict : bool) (now : Z) (h : header)
  : list ((sig_st -> sig_st * outcome unit) * (sig_st -> option bytes)) :=
  [(parse_tags h, no_why); (parse_arc strict (h_name h), no_why); (parse_d strict, no_why); (parse_v, v_why); (parse_a, a_why);
   (parse_b C strict, no_why); (parse_bh C strict, no_why); (parse_c, c_why); (parse_h, no_why); (parse_i strict, i_why);
   (parse_l, no_why); (parse_q, q_why); (parse_s, no_why); (parse_x now, no_why)].

(** ** PublicKey::Parse *)
(** PublicKey.cpp:66-69. *)
Definition key_v_why (p : public_key) : option bytes :=
  match ktag "v" p with None => None | Some v => Some (format "Unsupported version " (te_value v) " (v supports DKIM1)") end.
(** PublicKey.cpp:99-102. *)
Definition key_k_why (p : public_key) : option bytes :=
  match ktag "k" p with None => None | Some k => Some (format "Unsupported key type " (te_value k) " (k supports rsa and ed25519)") end.
Definition key_tags (record : bytes) (p : public_key) : public_key * outcome unit :=
  let '(t, r) := TagList_Parse (pk_tags p) record in (kset_tags t p, r).
Definition key_stages (C : crypto) (strict : bool) (record : bytes)
  : list ((public_key -> public_key * outcome unit) * (public_key -> option bytes)) :=
  [(key_tags record, no_why); (key_v, key_v_why); (key_h, no_why); (key_k, key_k_why); (key_p C strict, no_why); (key_s, no_why);
   (key_t, no_why)].

(** Validatory::GetPublicKey, Validatory.cpp:92-124. *)
Definition public_why (C : crypto) (strict : bool) (resolve : bytes -> outcome (bool * bytes)) (g : signature) : option bytes :=
  let name := c_str (sg_selector g) ++ str "._domainkey." ++ c_str (sg_domain g) in
  match resolve (key_query g) with
  | Ok (true, []) => Some (str "No key for signature " ++ name)
  | Ok (true, r) => first_why (key_stages C strict r) new_public_key
  | Ok (false, _) => Some (str "DNS query failed for " ++ name)
  | _ => None
  end.

(** ** Validatory::CheckSignature *)
(** Canonicalization.cpp:62-65 and 108-111. *)
Definition colon_text (x : bytes) : bytes := format "Header field " x " is missing the colon separator".
Definition filter_why (x : bytes) : option bytes :=
  match find_char COLON x with None => Some (colon_text x) | Some _ => None end.
(** Validatory.cpp:218-238. *)
Fixpoint hash_why (strict : bool) (mode : canon_mode) (names : list bytes) (c : cache) : option bytes :=
  match names with
  | [] => None
  | n :: r =>
      match lower_str strict n with
      | Ok name =>
          match cache_pop name c with
          | None => hash_why strict mode r c
          | Some (h, c1) => match FilterHeader strict mode (h_text h) with
                            | Ok _ => hash_why strict mode r c1
                            | _ => filter_why (h_text h)
                            end
          end
      | _ => None
      end
  end.
(** Validatory.cpp:177-280: fixed words, except for FilterHeader.  The signature field has a colon. *)
Definition check_why (strict : bool) (g : signature) (p : public_key) (v : validatory) : option bytes :=
  if key_allows g p then
    match build_cache strict (m_headers (v_msg v)) [] with
    | Ok c => hash_why strict (sg_chead g) (sg_headers g) c
    | _ => None
    end
  else None.

(** ** The program *)
(** The exception of the try block, main.cpp:180-184. *)
Definition try_why (C : crypto) (strict : bool) (now : Z) (resolve : bytes -> outcome (bool * bytes)) (h : header)
  (errno : bool) (v : validatory) : option bytes :=
  match Signature_Parse C strict now h (new_signature, errno) with
  | (st, Ok _) =>
      match CheckBodyHash C (fst st) v with
      | (v1, Ok _) =>
          match GetPublicKey C strict resolve (fst st) new_public_key with
          | (p, Ok _) => check_why strict (fst st) p v1
          | _ => public_why C strict resolve (fst st)
          end
      | _ => None
      end
  | _ => first_why (sig_stages C strict now h) (new_signature, errno)
  end.

(** The texts of the exceptions behind the lines of [tool_sigs] and [tool_files]. *)
Fixpoint sigs_why (C : crypto) (strict : bool) (clock : nat -> Z) (resolve : bytes -> outcome (bool * bytes))
  (hs : list header) (v : validatory) (n : nat) (errno : bool) : list (option bytes) :=
  match hs with
  | [] => []
  | h :: r =>
      let '(v1, e1, _, p, o) := try_one C strict (clock n) resolve h errno v in
      match report_of p o with
      | inr x => []
      | inl _ => try_why C strict (clock n) resolve h errno v :: sigs_why C strict clock resolve r v1 (S n) e1
      end
  end.
Fixpoint files_why (C : crypto) (strict : bool) (clock : nat -> Z) (resolve : bytes -> outcome (bool * bytes))
  (fs : bytes -> option bytes) (ty : validator_type) (names : list bytes) (n : nat) (errno : bool) : list (option bytes) :=
  match names with
  | [] => []
  | f :: r =>
      match new_validatory strict ty (open_file (fs f)) with
      | Ok v =>
          let '(_, n', e', x) := tool_sigs C strict clock resolve f (v_sigs v) v n errno in
          sigs_why C strict clock resolve (v_sigs v) v n errno ++
          match x with
          | Some _ => []
          | None => files_why C strict clock resolve fs ty r n' e'
          end
      | _ => []
      end
  end.
Definition main_why (C : crypto) (strict : bool) (clock : nat -> Z) (resolve : bytes -> outcome (bool * bytes))
  (fs : bytes -> option bytes) (args : list bytes) : list (option bytes) :=
  let '(es, files) := getopt args in
  match take_options es new_args with
  | inr _ => []
  | inl a => files_why C strict clock resolve fs (a_type a) files 0 (a_errno a)
  end.

(** One call of printf, main.cpp:185-198; argv strings have no NUL. *)
Definition line_text (l : line) (what : bytes) : bytes :=
  str "[" ++ l_file l ++ str "][" ++ c_str (l_domain l) ++ str "][" ++ c_str (l_selector l) ++ str "]" ++
  match l_report l with
  | R_OK => str " OK"
  | R_TEMP c => str "(" ++ ar_string c ++ str ") TEMPERR:" ++ what
  | R_SOFT c => str "(" ++ ar_string c ++ str ") SOFT:" ++ what
  | R_PERM c => str "(" ++ ar_string c ++ str ") = " ++ what
  end ++ [LF].
