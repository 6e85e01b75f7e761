(** Specification vocabulary for what a verified signature says about its maker.  Of the model the
    entry points for signing and parsing, header canonicalization and the types are used. *)
From Verif Require Import Bytes Outcome Stream Tokenizer MailParser Canonicalization Util Crypto Signature SignatoryOptions Signatory SpecText SpecTags
  SpecMail SpecCanon SpecVerify SpecSig SpecOptions SpecSign BodyFacts.

(** [signed_text ... d]: signing the message [t] (with the fields of [m]) with the options [o]
    succeeds, and [d] is the text that the i-th signature, that for [q], is to be made for: the
    canonical forms [outs] of the chosen fields, the last field first, and that of the new field
    without the value of b=. *)
Record signed_text (C : crypto) (strict : bool) (clock : nat -> Z) (o : options) (t : bytes) (m : message) (i : nat) (q : sig_options)
  (outs : list bytes) (d : bytes) : Prop := {
  su_start : ~ (exists c r, t = c :: r /\ WSP c);
  su_parse : exists s, parse_all new_message (open_str t) = Ok (m, s);
  su_options : Forall (sound_options strict o) (all_signatures o);
  su_names : Forall signable_name (listed_names h_name o (m_headers m));
  su_words : o_chead o = RELAXED -> Forall (Forall (fun c => ~ WSP c)) (listed_names h_name o (m_headers m));
  su_which : nth_error (rev (all_signatures o)) i = Some q;
  su_outs : Forall2 (fun f out => FilterHeader false (o_chead o) (h_text f) = Ok out)
      (filter (fun h => choice o (h_name h)) (rev (m_headers m))) outs;
  su_run : exists y H m' s' h pre b post c,
    CreateSignature C strict clock o (new_signatory (open_str t)) = (y, Ok H) /\
    parse_all new_message (open_str (H ++ CRLF ++ t)) = Ok (m', s') /\ nth_error (m_headers m') i = Some h /\
    tag_at (str "b") (skipn (h_voff h) (h_text h)) pre b post /\ b <> [] /\
    FilterHeader false (o_chead o) (firstn (h_voff h) (h_text h) ++ pre ++ post) = Ok c /\ d = with_crlf outs ++ c }.

(** The signature [g] says what the options [o] and [q] say, and [names] are its header names. *)
Record same_terms (o : options) (q : sig_options) (names : list bytes) (g : signature) : Prop := {
  st_digest : sg_digest g = o_digest o;
  st_alg : sg_alg g = so_alg q;
  st_chead : sg_chead g = o_chead o;
  st_cbody : sg_cbody g = o_cbody o;
  st_domain : sg_domain g = map low (so_domain q);
  st_selector : sg_selector g = so_selector q;
  st_headers : sg_headers g = names;
  st_limit : sg_limit g = o_signlen o;
  st_size : o_signlen o = true -> sg_size g = o_bodylen o;
  st_arc : sg_arc g = negb (o_arc o =? 0)%N;
  st_instance : o_arc o <> 0%N -> sg_instance g = o_arc o;
  st_identity : o_arc o = 0%N -> match o_identity o with
    | [] => sg_local g = [] /\ sg_mdomain g = map low (so_domain q)
    | i => exists dom, i = sg_local g ++ AT :: dom /\ ~ In AT (sg_local g) /\ sg_mdomain g = map low dom
    end }.

(** The signature [g] of a field of the message [t'] (with the fields of [m']), taken at the time
    [now], is for what was signed: same terms, same canonical fields, a body with the same digest,
    and not expired. *)
Record bound (C : crypto) (clock : nat -> Z) (o : options) (t : bytes) (m : message) (i : nat) (q : sig_options) (outs : list bytes)
  (t' : bytes) (m' : message) (g : signature) (now : Z) : Prop := {
  bd_terms : same_terms o q (listed_names h_name o (m_headers m)) g;
  bd_fields : Forall2 (fun f out => FilterHeader false (o_chead o) (h_text f) = Ok out)
      (selection h_name (m_headers m') [] (sg_headers g)) outs;
  bd_body : forall b out, message_body t b -> canonical_body (is_relaxed (o_cbody o)) b out ->
    sg_bh g = digest C (o_digest o) (cut (o_signlen o) (o_bodylen o) out) /\ (o_signlen o = true -> (o_bodylen o <= N.of_nat (length out))%N);
  bd_time : o_exsign o = true -> (0 <= expiry o (clock i))%Z -> (now <= expiry o (clock i))%Z }.
