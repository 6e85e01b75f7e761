(** The grammars of RFC 6376 for signatures (3.2, 3.5) and key records (3.6.1), rule by rule.  Of the
    model only the types of the results are used. *)
From Verif Require Import Bytes SpecText SpecAddress SpecCanon SpecVerify SpecSig Canonicalization Util MailParser.

(** [FWS] *)
Definition opt_FWS (w : bytes) : Prop := w = [] \/ FWS w.

(** 3.2: tag-name = ALPHA *ALNUMPUNC *)
Definition ALPHA (c : ascii) : Prop := between 65 90 c \/ between 97 122 c.
Definition DIGIT (c : ascii) : Prop := between 48 57 c.
Definition ALNUMPUNC (c : ascii) : Prop := ALPHA c \/ DIGIT c \/ c = chr 95.
Inductive rfc_name : bytes -> Prop := rfc_name_intro c r : ALPHA c -> Forall ALNUMPUNC r -> rfc_name (c :: r).
(** tag-value = [ tval *( 1*(WSP / FWS) tval ) ], tval = 1*VALCHAR, VALCHAR = %x21-3A / %x3C-7E *)
Definition VALCHAR (c : ascii) : Prop := between 33 58 c \/ between 60 126 c.
Inductive rfc_tvals : bytes -> Prop :=
| rt_tval v : v <> [] -> Forall VALCHAR v -> rfc_tvals v
| rt_tvals v w r : v <> [] -> Forall VALCHAR v -> FWSs w -> w <> [] -> rfc_tvals r -> rfc_tvals (v ++ w ++ r).
Definition rfc_value (v : bytes) : Prop := v = [] \/ rfc_tvals v.
(** tag-spec = [FWS] tag-name [FWS] "=" [FWS] tag-value [FWS] *)
Inductive rfc_spec : bytes * bytes -> bytes -> Prop :=
  rfc_spec_intro w1 n w2 w3 v w4 : opt_FWS w1 -> rfc_name n -> opt_FWS w2 -> opt_FWS w3 -> rfc_value v -> opt_FWS w4 ->
    rfc_spec (n, v) (w1 ++ n ++ w2 ++ EQUALS :: w3 ++ v ++ w4).
(** tag-list = tag-spec *( ";" tag-spec ) [ ";" ], each name once; whitespace may follow the last ";". *)
Inductive rfc_specs : list (bytes * bytes) -> bytes -> Prop :=
| rs_last x t : rfc_spec x t -> rfc_specs [x] t
| rs_final x t w : rfc_spec x t -> opt_FWS w -> rfc_specs [x] (t ++ SEMI :: w)
| rs_more x t l r : rfc_spec x t -> rfc_specs l r -> rfc_specs (x :: l) (t ++ SEMI :: r).
Definition rfc_tags (l : list (bytes * bytes)) (t : bytes) : Prop := rfc_specs l t /\ NoDup (map fst l).

(** The tag [n] has the value [v]; or is not there. *)
Definition tag (l : list (bytes * bytes)) (n : string) (v : bytes) : Prop := In (str n, v) l.
Definition no_tag (l : list (bytes * bytes)) (n : string) : Prop := ~ In (str n) (map fst l).
Definition opt_tag (l : list (bytes * bytes)) (n : string) (P : bytes -> Prop) : Prop := forall v, tag l n v -> P v.

(** base64string = ALPHADIGITPS *([FWS] ALPHADIGITPS) [ [FWS] "=" [ [FWS] "=" ] ] *)
Definition ALPHADIGITPS (c : ascii) : Prop := ALPHA c \/ DIGIT c \/ c = chr 43 \/ c = chr 47.
Inductive base64_more : bytes -> Prop :=
| bm_end : base64_more []
| bm_pad w : opt_FWS w -> base64_more (w ++ [EQUALS])
| bm_pad2 w w2 : opt_FWS w -> opt_FWS w2 -> base64_more (w ++ EQUALS :: w2 ++ [EQUALS])
| bm_char w c r : opt_FWS w -> ALPHADIGITPS c -> base64_more r -> base64_more (w ++ c :: r).
Inductive base64string : bytes -> Prop := bs_intro c r : ALPHADIGITPS c -> base64_more r -> base64string (c :: r).

(** sub-domain = Let-dig [Ldh-str]; a domain has two of them at least, a selector one. *)
Definition let_dig (c : ascii) : Prop := ALPHA c \/ DIGIT c.
Definition ldh (c : ascii) : Prop := let_dig c \/ c = chr 45.
Definition sub_domain (d : bytes) : Prop := d <> [] /\ Forall ldh d /\ first_ok let_dig d /\ last_ok let_dig d.
Inductive dotted (P : bytes -> Prop) : bytes -> Prop :=
| do_one a : P a -> dotted P a
| do_dot a r : P a -> dotted P r -> dotted P (a ++ DOT :: r).
Definition selector_name : bytes -> Prop := dotted sub_domain.
Definition domain_name (d : bytes) : Prop := selector_name d /\ In DOT d.

(** Lists: item *( [FWS] ":" [FWS] item ) *)
Inductive rfc_list (P : bytes -> Prop) : list bytes -> bytes -> Prop :=
| rfl_one v : P v -> rfc_list P [v] v
| rfl_more v w1 w2 vs r : P v -> opt_FWS w1 -> opt_FWS w2 -> rfc_list P vs r -> rfc_list P (v :: vs) (v ++ w1 ++ COLON :: w2 ++ r).
(** hdr-name = field-name (RFC 5322 3.6.8), without ";", which no tag-value has. *)
Definition hdr_name (n : bytes) : Prop := n <> [] /\ Forall (fun c => between 33 57 c \/ between 60 126 c) n.
(** hyphenated-word = ALPHA [ *(ALPHA / DIGIT / "-") (ALPHA / DIGIT) ] *)
Definition hyphenated_word (v : bytes) : Prop := v <> [] /\ Forall ldh v /\ first_ok ALPHA v /\ last_ok let_dig v.
(** sig-q-tag-method = "dns/txt" / x-sig-q-tag-type ["/" x-sig-q-tag-args] (the arguments: any tag-value
    text without whitespace and ":") *)
Definition query_method (v : bytes) : Prop := v = str "dns/txt" \/ hyphenated_word v \/
  exists a b, v = a ++ chr 47 :: b /\ hyphenated_word a /\ Forall (fun c => VALCHAR c /\ c <> COLON) b.

(** Local-part = Dot-string / Quoted-string (RFC 5321 4.1.2) *)
Definition atext (c : ascii) : Prop := ALPHA c \/ DIGIT c \/ In c (str "!#$%&'*+-/=?^_`{|}~").
Definition atom (v : bytes) : Prop := v <> [] /\ Forall atext v.
Inductive quoted_content : bytes -> Prop :=
| qc_end : quoted_content []
| qc_text c r : between 32 33 c \/ between 35 91 c \/ between 93 126 c -> quoted_content r -> quoted_content (c :: r)
| qc_pair c r : between 32 126 c -> quoted_content r -> quoted_content (chr 92 :: c :: r).
Definition local_part (v : bytes) : Prop := dotted atom v \/ exists q, v = DQ :: q ++ [DQ] /\ quoted_content q.

(** 1*nDIGIT *)
Definition number (n : nat) (v : bytes) : Prop := v <> [] /\ Forall DIGIT v /\ length v <= n.

(** 3.5: a DKIM-Signature with the tags [l], of the algorithms and canonicalizations of the RFCs (6376, 8463). *)
Inductive rfc_signature (l : list (bytes * bytes)) (dg : digest_alg) (al : sig_alg) (d s b bh : bytes) (names : list bytes) : Prop :=
  rfc_signature_intro a hv :
    tag l "v" (str "1") -> tag l "a" a -> a_value a dg al -> tag l "b" b -> base64string b -> tag l "bh" bh -> base64string bh ->
    opt_tag l "c" (fun c => exists x y, c_value c x y) -> tag l "d" d -> domain_name d ->
    tag l "h" hv -> rfc_list hdr_name names hv -> (exists n, In n names /\ same_name n (str "from") = true) ->
    opt_tag l "i" (fun i => exists lp dom, qp_text false i (lp ++ AT :: dom) /\ (lp = [] \/ local_part lp) /\ domain_name dom /\
      in_domain (map low dom) (map low d)) ->
    opt_tag l "l" (number 76) ->
    opt_tag l "q" (fun q => exists ms, rfc_list query_method ms q /\ In (str "dns/txt") ms) ->
    tag l "s" s -> selector_name s -> opt_tag l "t" (number 12) -> opt_tag l "x" (number 12) ->
    rfc_signature l dg al d s b bh names.
Definition unexpired (now : Z) (l : list (bytes * bytes)) : Prop := opt_tag l "x" (fun x => (now <= Z.of_N (dec_value x))%Z).

(** The header field [h] is such a DKIM-Signature field, not expired. *)
Definition rfc_field (now : Z) (h : header) (l : list (bytes * bytes)) (dg : digest_alg) (al : sig_alg) (d s b bh : bytes) (names : list bytes) : Prop :=
  h_voff h <= length (h_text h) /\ rfc_tags l (skipn (h_voff h) (h_text h)) /\ same_name (h_name h) (str "DKIM-Signature") = true /\
  rfc_signature l dg al d s b bh names /\ unexpired now l.

(** What the library can read of them: no other query method, no length of 2^63 or more, and no "@" in the
    local part unless the domain of i= is a proper subdomain. *)
Definition readable (l : list (bytes * bytes)) (d : bytes) : Prop :=
  opt_tag l "q" (eq (str "dns/txt")) /\ opt_tag l "l" (fun v => (dec_value v < 9223372036854775808)%N) /\
  opt_tag l "i" (fun i => forall lp dom, qp_text false i (lp ++ AT :: dom) -> domain_name dom -> In AT lp -> exists p, map low dom = p ++ DOT :: map low d).

(** 3.6.1: a key record with the tags [l], of the key types of the RFCs: [hs] and [ts] are what h= and t= list,
    [pv] is p=. *)
Definition service_name (v : bytes) : Prop := v = str "*" \/ hyphenated_word v.
Inductive opt_list_tag (l : list (bytes * bytes)) (n : string) (P : bytes -> Prop) : list bytes -> Prop :=
| olt_none : no_tag l n -> opt_list_tag l n P []
| olt_some v vs : tag l n v -> rfc_list P vs v -> opt_list_tag l n P vs.
Inductive rfc_key (l : list (bytes * bytes)) (al : sig_alg) (pv : bytes) (hs ts : list bytes) : Prop :=
  rfc_key_intro ss : opt_tag l "v" (eq (str "DKIM1")) -> opt_list_tag l "h" hyphenated_word hs ->
    (no_tag l "k" /\ al = RSA \/ tag l "k" (match al with RSA => str "rsa" | ED25519 => str "ed25519" end)) ->
    tag l "p" pv -> base64string pv -> opt_list_tag l "s" service_name ss -> opt_list_tag l "t" hyphenated_word ts -> rfc_key l al pv hs ts.
(** v= comes first. *)
Definition version_first (l : list (bytes * bytes)) : Prop := no_tag l "v" \/ exists v r, l = (str "v", v) :: r.
