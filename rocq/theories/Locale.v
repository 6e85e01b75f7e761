(** The library in a process that has called setlocale: the functions that use tolower, isspace, strcasecmp, strtoul and strtol, with the
    locale's tables as an argument.  The tables have entries for all bytes (glibc: also for negative arguments), so nothing is undefined here.
    Each definition is the one of the model with the same name but for these tables; [c_locale_same] in LocaleFacts.v ties them together.
    strtol of two hexadecimal digits (QuotedPrintable.cpp:73) does not depend on the tables. *)
From Verif Require Import Bytes Outcome Stream Tokenizer QuotedPrintable Base64 TagList MailParser Canonicalization Util CStdlib Crypto
  Signature PublicKey Validatory SignatoryOptions Signatory Tool.

(** What tolower(c) and isspace(c) give for a char, as a char and as a truth value. *)
Record locale := mkLocale { l_lower : ascii -> ascii; l_space : ascii -> bool }.
Definition c_locale : locale := mkLocale tolower isspace.

(** [transform(s.begin(), s.end(), s.begin(), tolower)] and [erase(remove_if(.., isspace), end)]. *)
Definition lower_in (L : locale) (s : bytes) : bytes := map (l_lower L) s.
Definition strip_in (L : locale) (s : bytes) : bytes := filter (fun c => negb (l_space L c)) s.

(** strtoul and strtol skip what isspace says. *)
Fixpoint skip_in (L : locale) (s : bytes) : bytes :=
  match s with
  | c :: r => if l_space L c then skip_in L r else s
  | [] => []
  end.
Definition scan_in (L : locale) (s : bytes) : option (bool * N * bytes) :=
  let '(neg, r) := read_sign (skip_in L s) in
  match r with
  | c :: _ => if is_digit c then let '(v, rest) := digits_val 0 r in Some (neg, v, rest) else None
  | [] => None
  end.
Definition strtoul_in (L : locale) (s : bytes) : N * bytes * bool :=
  let s := c_str s in
  match scan_in L s with
  | None => (0%N, s, false)
  | Some (neg, v, rest) =>
      if (ULONG_MAX <? v)%N then (ULONG_MAX, rest, true)
      else if neg then (((ULONG_MAX + 1 - v) mod (ULONG_MAX + 1))%N, rest, false)
      else (v, rest, false)
  end.
Definition strtol_in (L : locale) (s : bytes) : Z * bool :=
  match scan_in L (c_str s) with
  | None => (0%Z, false)
  | Some (neg, v, _) =>
      let z := if neg then (- Z.of_N v)%Z else Z.of_N v in
      if (LONG_MAX <? z)%Z then (LONG_MAX, true)
      else if (z <? LONG_MIN)%Z then (LONG_MIN, true)
      else (z, false)
  end.

(** CanonicalizationHeader::FilterHeader, Canonicalization.cpp:44-122. *)
Definition FilterHeader_in (L : locale) (mode : canon_mode) (input : bytes) : outcome bytes :=
  match mode with
  | SIMPLE => Ok input
  | RELAXED =>
      match find_char COLON input with
      | None => perm
      | Some colon =>
          let output := lower_in L (firstn colon input) ++ skipn colon input in
          let* x := fh_loop (fuel_of (open_str output)) (open_str output) [] in
          match find_char COLON x with
          | None => perm
          | Some cs =>
              let x1 := match find_first_not is_sp (skipn (S cs) x) with
                        | Some k => erase_at x (S cs) k
                        | None => x
                        end in
              match find_last_not is_sp (firstn cs x1) with
              | Some cb => if Nat.eqb (S cb) cs then Ok x1 else Ok (erase_at x1 (S cb) (cs - S cb))
              | None => Ok x1
              end
          end
      end
  end.

(** Signature.cpp:76-79. *)
Definition parse_arc_in (L : locale) (name : bytes) (st : sig_st) : sig_st * outcome unit :=
  if beqb (lower_in L name) (str "arc-message-signature") then done (upd (set_arc true) st) else done st.
(** Signature.cpp:86-90. *)
Definition parse_d_in (L : locale) (st : sig_st) : sig_st * outcome unit :=
  match tag "d" st with
  | None => fail_perm st
  | Some d => done (upd (set_domain (lower_in L (te_value d))) st)
  end.
(** Signature.cpp:133-139. *)
Definition parse_b_in (L : locale) (C : crypto) (st : sig_st) : sig_st * outcome unit :=
  match tag "b" st with
  | None => fail_perm st
  | Some b => match te_value b with
              | [] => fail_perm st
              | v => done (upd (set_b (b64d C (strip_in L v))) st)
              end
  end.
(** Signature.cpp:142-147. *)
Definition parse_bh_in (L : locale) (C : crypto) (st : sig_st) : sig_st * outcome unit :=
  match tag "bh" st with
  | None => fail_perm st
  | Some bh => done (upd (set_bh (b64d C (strip_in L (te_value bh)))) st)
  end.
(** strcasecmp compares what tolower gives on both sides, Signature.cpp:195. *)
Definition is_from_in (L : locale) (n : bytes) : bool := beqb (lower_in L (c_str n)) (lower_in L (str "from")).
(** Signature.cpp:187-202. *)
Definition parse_h_in (L : locale) (st : sig_st) : sig_st * outcome unit :=
  match tag "h" st with
  | None => fail_perm st
  | Some h =>
      lift st as l <- ValueList (te_value h) ;;
      let st1 := upd (set_headers l) st in
      if existsb (is_from_in L) l then done st1 else fail_perm st1
  end.
(** Signature.cpp:205-246. *)
Definition parse_i_in (L : locale) (st : sig_st) : sig_st * outcome unit :=
  if sg_arc (fst st) then
    match tag "i" st with
    | None => fail_perm st
    | Some i =>
        let '(n, _, erange) := strtoul_in L (te_value i) in
        let st1 := (set_instance n (fst st), snd st || erange) in
        if ((n <? 1) || (50 <? n))%N then fail_perm st1 else done st1
    end
  else
    match tag "i" st with
    | None => done (upd (set_mail [] (sg_domain (fst st))) st)
    | Some i =>
        lift st as mail <- qp_decode (te_value i) false ;;
        match find_char AT mail with
        | None => fail_perm st
        | Some p =>
            let dom := lower_in L (skipn (S p) mail) in
            let st2 := upd (set_mail (firstn p mail) dom) st in
            if beqb dom (sg_domain (fst st)) || sub_domain dom (sg_domain (fst st))
            then done st2 else fail_perm st2
        end
    end.
(** Signature.cpp:249-265. *)
Definition parse_l_in (L : locale) (st : sig_st) : sig_st * outcome unit :=
  match tag "l" st with
  | None => done st
  | Some l =>
      if Nat.ltb 76 (length (te_value l)) then fail_perm st
      else
        let '(bs, rest, erange) := strtoul_in L (te_value l) in
        let st1 := (fst st, snd st || erange) in
        if snd st1 then fail_perm st1
        else if (9223372036854775808 <=? bs)%N then fail_perm st1
        else match rest with
             | [] => done (upd (set_size bs true) st1)
             | _ => fail_perm st1
             end
  end.
(** Signature.cpp:292-297. *)
Definition parse_x_in (L : locale) (now : Z) (st : sig_st) : sig_st * outcome unit :=
  match tag "x" st with
  | None => done st
  | Some x =>
      let '(v, erange) := strtol_in L (te_value x) in
      let st1 := (fst st, snd st || erange) in
      if (v <? now)%Z then fail_perm st1 else done st1
  end.
(** Signature::Parse, Signature.cpp:72-300. *)
Definition Signature_Parse_in (L : locale) (C : crypto) (now : Z) (h : header) (st : sig_st) : sig_st * outcome unit :=
  do s1 <- parse_tags h st ;;
  do s2 <- parse_arc_in L (h_name h) s1 ;;
  do s3 <- parse_d_in L s2 ;;
  do s4 <- parse_v s3 ;;
  do s5 <- parse_a s4 ;;
  do s6 <- parse_b_in L C s5 ;;
  do s7 <- parse_bh_in L C s6 ;;
  do s8 <- parse_c s7 ;;
  do s9 <- parse_h_in L s8 ;;
  do s10 <- parse_i_in L s9 ;;
  do s11 <- parse_l_in L s10 ;;
  do s12 <- parse_q s11 ;;
  do s13 <- parse_s s12 ;;
  parse_x_in L now s13.

(** PublicKey.cpp:106-149. *)
Definition key_p_in (L : locale) (C : crypto) (p : public_key) : public_key * outcome unit :=
  match ktag "p" p with
  | None => (p, perm)
  | Some e =>
      match te_value e with
      | [] => (p, perm)
      | v =>
          let x := strip_in L v in
          match pk_alg p with
          | RSA => match c_d2i_pubkey C (b64d C x) with
                   | None => (p, perm)
                   | Some None => (p, perm)
                   | Some (Some k) => (kset_rsa (Some k) p, Ok tt)
                   end
          | ED25519 => if Nat.eqb (length (b64d C x)) 32 then (kset_ed (b64d C x) p, Ok tt)
                       else (p, perm)
          end
      end
  end.
(** PublicKey::Parse, PublicKey.cpp:53-180. *)
Definition PublicKey_Parse_in (L : locale) (C : crypto) (record : bytes) (p : public_key) : public_key * outcome unit :=
  do p1 <- (let '(t, r) := TagList_Parse (pk_tags p) record in (kset_tags t p, r)) ;;
  do p2 <- key_v p1 ;;
  do p3 <- key_h p2 ;;
  do p4 <- key_k p3 ;;
  do p5 <- key_p_in L C p4 ;;
  do p6 <- key_s p5 ;;
  key_t p6.

(** Validatory.cpp:46-69. *)
Definition collect_in (L : locale) (wanted : bytes) (hs : list header) : list header :=
  filter (fun h => beqb (lower_in L (h_name h)) wanted) hs.
Definition new_validatory_in (L : locale) (ty : validator_type) (s : istream) : outcome validatory :=
  let* (m, s1) := parse_all new_message s in
  match ty with
  | V_NONE => Ok (mkVal m s1 [])
  | V_DKIM => Ok (mkVal m s1 (collect_in L (str "dkim-signature") (m_headers m)))
  | V_ARC => Ok (mkVal m s1 (collect_in L (str "arc-message-signature") (m_headers m)))
  end.
(** Validatory.cpp:80-85. *)
Definition GetSignature_in (L : locale) (C : crypto) (now : Z) (h : header) (st : sig_st) (v : validatory) : validatory * sig_st * outcome unit :=
  match Signature_Parse_in L C now h st with
  | (st1, Ok _) => let '(v1, r) := CheckBodyHash C (fst st1) v in (v1, st1, r)
  | (st1, e) => (v, st1, e)
  end.
(** Validatory.cpp:92-124. *)
Definition GetPublicKey_in (L : locale) (C : crypto) (resolve : bytes -> outcome (bool * bytes)) (g : signature) (p : public_key)
  : public_key * outcome unit :=
  lift p as r <- resolve (key_query g) ;;
  let '(ok, text) := r in
  if (ok : bool) then
    match text with
    | [] => (p, perm)
    | _ => PublicKey_Parse_in L C text p
    end
  else (p, temp).
(** Validatory.cpp:209-238. *)
Fixpoint build_cache_in (L : locale) (hs : list header) (c : cache) : cache :=
  match hs with
  | [] => c
  | h :: r => build_cache_in L r (cache_push (lower_in L (h_name h)) h c)
  end.
Fixpoint hash_headers_in (L : locale) (mode : canon_mode) (names : list bytes) (c : cache) : outcome bytes :=
  match names with
  | [] => Ok []
  | n :: r =>
      match cache_pop (lower_in L n) c with
      | None => hash_headers_in L mode r c
      | Some (h, c1) =>
          let* x := FilterHeader_in L mode (h_text h) in
          let* d := hash_headers_in L mode r c1 in
          Ok ((x ++ CRLF) ++ d)
      end
  end.
(** Validatory.cpp:206-252. *)
Definition signed_data_in (L : locale) (h : header) (g : signature) (v : validatory) : outcome bytes :=
  let* d := hash_headers_in L (sg_chead g) (sg_headers g) (build_cache_in L (m_headers (v_msg v)) []) in
  let* val := substr_from (h_text h) (h_voff h) in
  let* val1 := strip_b g val in
  let* x := FilterHeader_in L (sg_chead g) (firstn (h_voff h) (h_text h) ++ val1) in
  Ok (d ++ x).
(** Validatory::CheckSignature, Validatory.cpp:172-283. *)
Definition CheckSignature_in (L : locale) (C : crypto) (h : header) (g : signature) (p : public_key) (v : validatory) : outcome unit :=
  if key_allows g p then
    let* d := signed_data_in L h g v in
    verify_digest C g p (digest C (sg_digest g) d)
  else perm.
(** A signature of a message from beginning to end: GetSignature, GetPublicKey, CheckSignature. *)
Definition try_one_in (L : locale) (C : crypto) (now : Z) (resolve : bytes -> outcome (bool * bytes)) (h : header)
  (errno : bool) (v : validatory) : validatory * bool * signature * public_key * outcome unit :=
  let '(v1, st, r) := GetSignature_in L C now h (new_signature, errno) v in
  match r with
  | Ok _ =>
      let '(p, r1) := GetPublicKey_in L C resolve (fst st) new_public_key in
      match r1 with
      | Ok _ => (v1, snd st, fst st, p, CheckSignature_in L C h (fst st) p v1)
      | e => (v1, snd st, fst st, p, e)
      end
  | e => (v1, snd st, fst st, new_public_key, e)
  end.

(** Signatory.cpp:119-134. *)
Fixpoint sign_headers_in (L : locale) (mode : canon_mode) (toSign : list bytes) (hs : list header) : outcome (bytes * list bytes) :=
  match hs with
  | [] => Ok ([], [])
  | h :: r =>
      let skip := sign_headers_in L mode toSign r in
      match lower_in L (h_name h) with
      | [] => skip
      | name =>
          if negb (match toSign with [] => true | _ => false end) && negb (memb name toSign) then skip
          else
            let* c := FilterHeader_in L mode (h_text h) in
            let* (d, names) := sign_headers_in L mode toSign r in
            Ok ((c ++ CRLF) ++ d, name :: names)
      end
  end.
(** Signatory.cpp:143-265. *)
Definition one_signature_in (L : locale) (C : crypto) (o : options) (now : Z) (hashed : bytes)
  (names : list bytes) (bh : bytes) (s : sig_options) : outcome bytes :=
  let* t := sig_template o s now names bh in
  let* c := FilterHeader_in L (o_chead o) t in
  let md := digest C (o_digest o) (hashed ++ c) in
  let* x := make_signature C o s md in
  let e := Base64_Encode x in
  Ok (t ++ fold_b (S (length e)) 3 e).
Fixpoint all_sigs_in (L : locale) (C : crypto) (o : options) (clock : nat -> Z) (n : nat)
  (hashed : bytes) (names : list bytes) (bh : bytes) (sigs : list sig_options) (acc : bytes) : outcome bytes :=
  match sigs with
  | [] => Ok acc
  | s :: r =>
      let* h := one_signature_in L C o (clock n) hashed names bh s in
      all_sigs_in L C o clock (S n) hashed names bh r
        (match acc with [] => h | _ => acc ++ CRLF ++ h end)
  end.
(** Signatory::CreateSignature, Signatory.cpp:55-267. *)
Definition CreateSignature_in (L : locale) (C : crypto) (clock : nat -> Z) (o : options) (y : signatory) : signatory * outcome bytes :=
  match parse_all (y_msg y) (y_file y) with
  | Ok (m, s) =>
      match CanonicalizationBody s (o_cbody o) (m_offset m) (o_signlen o) (o_bodylen o) with
      | Ok (chunks, ok, s1) =>
          (mkSignatory m s1,
           if (ok : bool) then
             let bh := digest_chunks C (o_digest o) chunks in
             let* (hashed, names) := sign_headers_in L (o_chead o) (map (lower_in L) (o_headers o)) (rev (m_headers m)) in
             all_sigs_in L C o clock 0 hashed (names ++ map (lower_in L) (o_oversign o)) bh (rev (all_signatures o)) []
           else perm)
      | Throw e => (mkSignatory m s, Throw e)
      | UB k => (mkSignatory m s, UB k)
      | Diverge => (mkSignatory m s, Diverge)
      end
  | Throw e => (y, Throw e)
  | UB k => (y, UB k)
  | Diverge => (y, Diverge)
  end.
