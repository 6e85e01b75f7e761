(** Specification vocabulary for the fields that signing produces: their tags and their lines. *)
From Verif Require Import Bytes SpecText SpecTags SpecMail SpecCanon SpecVerify SpecSig SpecOptions SpecSign SpecBase64 Canonicalization Util Crypto
  SignatoryOptions.
Local Open Scope string_scope.
Local Open Scope list_scope.

(** The names of the tags, in order. *)
Definition tag_order (o : options) : list bytes :=
  map str ([if (o_arc o =? 0)%N then "v" else "i"; "a"; "c"] ++ (if o_tssign o then ["t"] else []) ++ (if o_exsign o then ["x"] else []) ++
    ["d"; "s"] ++ (match o_identity o with [] => [] | _ => ["i"] end) ++ (if o_signlen o then ["l"] else []) ++ ["h"; "bh"; "b"]).

(** The tag [n] is the number [k], written in decimal. *)
Definition has_number (tags : list (bytes * bytes)) (n : string) (k : N) : Prop := exists v, has tags n v /\ digits v /\ dec_value v = k.

(** A time as t= and x= show it: a negative one wraps around. *)
Definition shown_time (z : Z) : N := Z.to_N (z mod 18446744073709551616).

(** [says ...]: [tags] say what the options [o] and [q] say, with the time [now] of signing, the
    header names [names], the body hash [bh] and the signature data [x]. *)
Record says (o : options) (q : sig_options) (now : Z) (names : list bytes) (bh x : bytes) (tags : list (bytes * bytes)) : Prop := {
  sy_order : map fst tags = tag_order o;
  sy_version : o_arc o = 0%N -> has tags "v" (str "1");
  sy_instance : o_arc o <> 0%N -> has_number tags "i" (o_arc o);
  sy_a : has tags "a" (a_text (o_digest o) (so_alg (o_main o)));
  sy_c : exists v, has tags "c" v /\ c_value v (o_chead o) (o_cbody o);
  sy_t : o_tssign o = true -> has_number tags "t" (shown_time (if (o_ts o =? -1)%Z then now else o_ts o));
  sy_fits : o_exsign o = true -> (- 9223372036854775808 <= expiry o now < 9223372036854775808)%Z;
  sy_x : o_exsign o = true -> has_number tags "x" (shown_time (expiry o now));
  sy_d : has tags "d" (so_domain q);
  sy_s : has tags "s" (so_selector q);
  sy_i : o_identity o <> [] -> exists v, has tags "i" v /\ qp_text false v (o_identity o);
  sy_l : o_signlen o = true -> has_number tags "l" (o_bodylen o);
  sy_h : exists v, has tags "h" v /\ rendered_list names v;
  sy_bh : exists v, has tags "bh" v /\ b64_text bh v;
  sy_b : exists v, has tags "b" v /\ b64_text x (unspaced v) }.

(** Every LF in [t] belongs to a CRLF, behind which comes a byte satisfying [P]. *)
Definition line_starts (P : ascii -> Prop) (t : bytes) : Prop :=
  forall a b, t = a ++ LF :: b -> exists a' c b', a = a' ++ [CR] /\ b = c :: b' /\ P c.
