(** Model of src/Signature.cpp and src/Signature.hpp. *)
From Verif Require Import Bytes Outcome Stream Tokenizer QuotedPrintable Base64 TagList MailParser
  Canonicalization Util CStdlib Crypto.

(** DKIM::Signature, Signature.hpp:103-122 (QueryType has a single value and is left out). *)
Record signature := mkSig {
  sg_tags : taglist;
  sg_digest : digest_alg;
  sg_alg : sig_alg;
  sg_b : bytes;
  sg_bh : bytes;
  sg_chead : canon_mode;
  sg_cbody : canon_mode;
  sg_domain : bytes;
  sg_headers : list bytes;
  sg_local : bytes;
  sg_mdomain : bytes;
  sg_size : N;
  sg_limit : bool;
  sg_selector : bytes;
  sg_arc : bool;
  sg_instance : N }.

(** Signature::Reset, Signature.cpp:39-70, and the constructor. *)
Definition new_signature : signature :=
  mkSig [] SHA256 RSA [] [] SIMPLE SIMPLE [] [] [] [] 0 false [] false 0.
Definition Signature_Reset (g : signature) : signature :=
  mkSig (TagList_Reset (sg_tags g)) SHA256 RSA [] [] SIMPLE SIMPLE [] [] [] [] 0 false [] false 0.

(** Assignments to single members. *)
Definition set_tags t g := mkSig t (sg_digest g) (sg_alg g) (sg_b g) (sg_bh g) (sg_chead g) (sg_cbody g)
  (sg_domain g) (sg_headers g) (sg_local g) (sg_mdomain g) (sg_size g) (sg_limit g) (sg_selector g) (sg_arc g) (sg_instance g).
Definition set_algs d a g := mkSig (sg_tags g) d a (sg_b g) (sg_bh g) (sg_chead g) (sg_cbody g)
  (sg_domain g) (sg_headers g) (sg_local g) (sg_mdomain g) (sg_size g) (sg_limit g) (sg_selector g) (sg_arc g) (sg_instance g).
Definition set_b b g := mkSig (sg_tags g) (sg_digest g) (sg_alg g) b (sg_bh g) (sg_chead g) (sg_cbody g)
  (sg_domain g) (sg_headers g) (sg_local g) (sg_mdomain g) (sg_size g) (sg_limit g) (sg_selector g) (sg_arc g) (sg_instance g).
Definition set_bh bh g := mkSig (sg_tags g) (sg_digest g) (sg_alg g) (sg_b g) bh (sg_chead g) (sg_cbody g)
  (sg_domain g) (sg_headers g) (sg_local g) (sg_mdomain g) (sg_size g) (sg_limit g) (sg_selector g) (sg_arc g) (sg_instance g).
Definition set_chead c g := mkSig (sg_tags g) (sg_digest g) (sg_alg g) (sg_b g) (sg_bh g) c (sg_cbody g)
  (sg_domain g) (sg_headers g) (sg_local g) (sg_mdomain g) (sg_size g) (sg_limit g) (sg_selector g) (sg_arc g) (sg_instance g).
Definition set_cbody c g := mkSig (sg_tags g) (sg_digest g) (sg_alg g) (sg_b g) (sg_bh g) (sg_chead g) c
  (sg_domain g) (sg_headers g) (sg_local g) (sg_mdomain g) (sg_size g) (sg_limit g) (sg_selector g) (sg_arc g) (sg_instance g).
Definition set_domain d g := mkSig (sg_tags g) (sg_digest g) (sg_alg g) (sg_b g) (sg_bh g) (sg_chead g) (sg_cbody g)
  d (sg_headers g) (sg_local g) (sg_mdomain g) (sg_size g) (sg_limit g) (sg_selector g) (sg_arc g) (sg_instance g).
Definition set_headers h g := mkSig (sg_tags g) (sg_digest g) (sg_alg g) (sg_b g) (sg_bh g) (sg_chead g) (sg_cbody g)
  (sg_domain g) h (sg_local g) (sg_mdomain g) (sg_size g) (sg_limit g) (sg_selector g) (sg_arc g) (sg_instance g).
Definition set_mail l d g := mkSig (sg_tags g) (sg_digest g) (sg_alg g) (sg_b g) (sg_bh g) (sg_chead g) (sg_cbody g)
  (sg_domain g) (sg_headers g) l d (sg_size g) (sg_limit g) (sg_selector g) (sg_arc g) (sg_instance g).
Definition set_size n b g := mkSig (sg_tags g) (sg_digest g) (sg_alg g) (sg_b g) (sg_bh g) (sg_chead g) (sg_cbody g)
  (sg_domain g) (sg_headers g) (sg_local g) (sg_mdomain g) n b (sg_selector g) (sg_arc g) (sg_instance g).
Definition set_selector s g := mkSig (sg_tags g) (sg_digest g) (sg_alg g) (sg_b g) (sg_bh g) (sg_chead g) (sg_cbody g)
  (sg_domain g) (sg_headers g) (sg_local g) (sg_mdomain g) (sg_size g) (sg_limit g) s (sg_arc g) (sg_instance g).
Definition set_arc a g := mkSig (sg_tags g) (sg_digest g) (sg_alg g) (sg_b g) (sg_bh g) (sg_chead g) (sg_cbody g)
  (sg_domain g) (sg_headers g) (sg_local g) (sg_mdomain g) (sg_size g) (sg_limit g) (sg_selector g) a (sg_instance g).
Definition set_instance n g := mkSig (sg_tags g) (sg_digest g) (sg_alg g) (sg_b g) (sg_bh g) (sg_chead g) (sg_cbody g)
  (sg_domain g) (sg_headers g) (sg_local g) (sg_mdomain g) (sg_size g) (sg_limit g) (sg_selector g) (sg_arc g) n.

(** The object together with [errno == ERANGE] of the calling thread: l= is judged by errno,
    which nobody clears.  Only strtoul and strtol change it in the model. *)
Definition sig_st := (signature * bool)%type.
Definition upd (f : signature -> signature) (st : sig_st) : sig_st := (f (fst st), snd st).
Definition tag (name : string) (st : sig_st) : option tag_entry := GetTag (str name) (sg_tags (fst st)).
Definition done (st : sig_st) : sig_st * outcome unit := (st, Ok tt).
Definition fail_perm (st : sig_st) : sig_st * outcome unit := (st, perm).

(** Signature.cpp:76-79. *)
Definition parse_arc (strict : bool) (name : bytes) (st : sig_st) : sig_st * outcome unit :=
  lift st as n <- lower_str strict name ;;
  if beqb n (str "arc-message-signature") then done (upd (set_arc true) st) else done st.

(** d=, Signature.cpp:86-90.  [m_domain] is assigned before it is lower-cased. *)
Definition parse_d (strict : bool) (st : sig_st) : sig_st * outcome unit :=
  match tag "d" st with
  | None => fail_perm st
  | Some d => lift (upd (set_domain (te_value d)) st) as x <- lower_str strict (te_value d) ;;
              done (upd (set_domain x) st)
  end.

(** v=, Signature.cpp:93-104. *)
Definition parse_v (st : sig_st) : sig_st * outcome unit :=
  if sg_arc (fst st) then done st
  else match tag "v" st with
       | None => fail_perm st
       | Some v => if beqb (te_value v) (str "1") then done st else fail_perm st
       end.

(** a=, Signature.cpp:107-130. *)
Definition parse_a (st : sig_st) : sig_st * outcome unit :=
  match tag "a" st with
  | None => fail_perm st
  | Some a =>
      if beqb (te_value a) (str "rsa-sha256") then done (upd (set_algs SHA256 RSA) st)
      else if beqb (te_value a) (str "rsa-sha1") then done (upd (set_algs SHA1 RSA) st)
      else if beqb (te_value a) (str "ed25519-sha256") then done (upd (set_algs SHA256 ED25519) st)
      else fail_perm st
  end.

(** b=, Signature.cpp:133-139. *)
Definition parse_b (C : crypto) (strict : bool) (st : sig_st) : sig_st * outcome unit :=
  match tag "b" st with
  | None => fail_perm st
  | Some b => match te_value b with
              | [] => fail_perm st
              | v => lift st as x <- strip_space strict v ;; done (upd (set_b (b64d C x)) st)
              end
  end.

(** bh=, Signature.cpp:142-147. *)
Definition parse_bh (C : crypto) (strict : bool) (st : sig_st) : sig_st * outcome unit :=
  match tag "bh" st with
  | None => fail_perm st
  | Some bh => lift st as x <- strip_space strict (te_value bh) ;; done (upd (set_bh (b64d C x)) st)
  end.

(** "relaxed" / "simple", Signature.cpp:165-183. *)
Definition mode_of (s : bytes) : option canon_mode :=
  if beqb s (str "relaxed") then Some RELAXED
  else if beqb s (str "simple") then Some SIMPLE else None.

(** c=, Signature.cpp:150-184. *)
Definition parse_c (st : sig_st) : sig_st * outcome unit :=
  match tag "c" st with
  | None => done st
  | Some c =>
      let '(h, b) := match find_char (chr 47) (te_value c) with
                     | None => (te_value c, str "simple")
                     | Some i => (firstn i (te_value c), skipn (S i) (te_value c))
                     end in
      match mode_of h with
      | None => fail_perm st
      | Some mh =>
          let st1 := upd (set_chead mh) st in
          match mode_of b with
          | None => fail_perm st1
          | Some mb => done (upd (set_cbody mb) st1)
          end
      end
  end.

(** [strcasecmp(i->c_str(), "from") == 0], Signature.cpp:195. *)
Definition is_from (n : bytes) : bool := beqb (lower (c_str n)) (str "from").

(** h=, Signature.cpp:187-202. *)
Definition parse_h (st : sig_st) : sig_st * outcome unit :=
  match tag "h" st with
  | None => fail_perm st
  | Some h =>
      lift st as l <- ValueList (te_value h) ;;
      let st1 := upd (set_headers l) st in
      if existsb is_from l then done st1 else fail_perm st1
  end.

(** [m_mailDomain.size() > m_domain.size() && ("." + m_domain) == m_mailDomain.substr(..)],
    Signature.cpp:236. *)
Definition sub_domain (mail dom : bytes) : bool :=
  Nat.ltb (length dom) (length mail)
  && beqb (DOT :: dom) (skipn (length mail - length dom - 1) mail).

(** i=, Signature.cpp:205-246. *)
Definition parse_i (strict : bool) (st : sig_st) : sig_st * outcome unit :=
  if sg_arc (fst st) then
    match tag "i" st with
    | None => fail_perm st
    | Some i =>
        let '(n, _, erange) := strtoul (te_value i) in
        let st1 := (set_instance n (fst st), snd st || erange) in
        if ((n <? 1) || (50 <? n))%N then fail_perm st1 else done st1
    end
  else
    match tag "i" st with
    | None => done (upd (set_mail [] (sg_domain (fst st))) st)
    | Some i =>
        lift st as mail <- qp_decode (te_value i) false ;;
        match find_char AT mail with
        | None => fail_perm st
        | Some p =>
            let raw := skipn (S p) mail in
            let st1 := upd (set_mail (firstn p mail) raw) st in
            lift st1 as dom <- lower_str strict raw ;;
            let st2 := upd (set_mail (firstn p mail) dom) st in
            if beqb dom (sg_domain (fst st)) || sub_domain dom (sg_domain (fst st))
            then done st2 else fail_perm st2
        end
    end.

(** l=, Signature.cpp:249-265. *)
Definition parse_l (st : sig_st) : sig_st * outcome unit :=
  match tag "l" st with
  | None => done st
  | Some l =>
      if Nat.ltb 76 (length (te_value l)) then fail_perm st
      else
        let '(bs, rest, erange) := strtoul (te_value l) in
        let st1 := (fst st, snd st || erange) in
        if snd st1 then fail_perm st1
        else if (9223372036854775808 <=? bs)%N then fail_perm st1
        else match rest with
             | [] => done (upd (set_size bs true) st1)
             | _ => fail_perm st1
             end
  end.

(** q=, Signature.cpp:268-278. *)
Definition parse_q (st : sig_st) : sig_st * outcome unit :=
  match tag "q" st with
  | None => done st
  | Some q => if beqb (te_value q) (str "dns/txt") then done st else fail_perm st
  end.

(** s=, Signature.cpp:281-284. *)
Definition parse_s (st : sig_st) : sig_st * outcome unit :=
  match tag "s" st with
  | None => fail_perm st
  | Some s => done (upd (set_selector (te_value s)) st)
  end.

(** x=, Signature.cpp:292-297. *)
Definition parse_x (now : Z) (st : sig_st) : sig_st * outcome unit :=
  match tag "x" st with
  | None => done st
  | Some x =>
      let '(v, erange) := strtol (te_value x) in
      let st1 := (fst st, snd st || erange) in
      if (v <? now)%Z then fail_perm st1 else done st1
  end.

(** TagList::Parse on the value, Signature.cpp:74. *)
Definition parse_tags (h : header) (st : sig_st) : sig_st * outcome unit :=
  lift st as v <- substr_from (h_text h) (h_voff h) ;;
  let '(t, r) := TagList_Parse (sg_tags (fst st)) v in
  (upd (set_tags t) st, r).

(** Signature::Parse, Signature.cpp:72-300. *)
Definition Signature_Parse (C : crypto) (strict : bool) (now : Z) (h : header) (st : sig_st)
  : sig_st * outcome unit :=
  do s1 <- parse_tags h st ;;
  do s2 <- parse_arc strict (h_name h) s1 ;;
  do s3 <- parse_d strict s2 ;;
  do s4 <- parse_v s3 ;;
  do s5 <- parse_a s4 ;;
  do s6 <- parse_b C strict s5 ;;
  do s7 <- parse_bh C strict s6 ;;
  do s8 <- parse_c s7 ;;
  do s9 <- parse_h s8 ;;
  do s10 <- parse_i strict s9 ;;
  do s11 <- parse_l s10 ;;
  do s12 <- parse_q s11 ;;
  do s13 <- parse_s s12 ;;
  parse_x now s13.
