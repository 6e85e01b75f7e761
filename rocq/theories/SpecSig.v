(** Specification vocabulary for DKIM-Signature fields (RFC 6376 3.5).  Of the model only the
    types of the results are used. *)
From Verif Require Import Bytes SpecText SpecTags SpecCanon SpecVerify Canonicalization Util MailParser.

(** [l] is a list of tags: names with values. *)
Definition has (l : list (bytes * bytes)) (name : string) (v : bytes) : Prop := In (str name, v) l.
Definition lacks (l : list (bytes * bytes)) (name : string) : Prop := ~ In (str name) (map fst l).

(** a= *)
Inductive a_value : bytes -> digest_alg -> sig_alg -> Prop :=
| av_rsa256 : a_value (str "rsa-sha256") SHA256 RSA
| av_rsa1 : a_value (str "rsa-sha1") SHA1 RSA
| av_ed : a_value (str "ed25519-sha256") SHA256 ED25519.

(** All four combinations written in this way; the last one is not allowed. *)
Definition a_text (d : digest_alg) (k : sig_alg) : bytes :=
  match k, d with RSA, SHA1 => str "rsa-sha1" | RSA, SHA256 => str "rsa-sha256" | ED25519, SHA256 => str "ed25519-sha256" | ED25519, SHA1 => str "ed25519-sha1" end.

(** c= *)
Definition mode_name (m : canon_mode) : bytes := match m with SIMPLE => str "simple" | RELAXED => str "relaxed" end.
Inductive c_value : bytes -> canon_mode -> canon_mode -> Prop :=
| cv_head h : c_value (mode_name h) h SIMPLE
| cv_both h b : c_value (mode_name h ++ chr 47 :: mode_name b) h b.

(** Decimal numbers. *)
Definition digits (v : bytes) : Prop := v <> [] /\ Forall (between 48 57) v.
Definition dec_value (v : bytes) : N := fold_left (fun a c => 10 * a + (code c - 48))%N v 0%N.

(** Whitespace removed (space and the bytes 9 to 13). *)
Definition unspaced (v : bytes) : bytes := filter (fun c => negb ((code c =? 32) || ((9 <=? code c) && (code c <=? 13))))%N v.

(** [m] is [d] or a subdomain of it. *)
Definition in_domain (m d : bytes) : Prop := m = d \/ exists p, m = p ++ DOT :: d.

(** A number as strtol and strtoul read it: digits, possibly after a sign. *)
Inductive signed_number : bytes -> bool -> N -> Prop :=
| sn_plain d : digits d -> signed_number d false (dec_value d)
| sn_plus d : digits d -> signed_number (chr 43 :: d) false (dec_value d)
| sn_minus d : digits d -> signed_number (chr 45 :: d) true (dec_value d).
(** [v] starts with such a number (the longest one). *)
Definition starts_number (v : bytes) (neg : bool) (n : N) : Prop :=
  exists t r, v = t ++ r /\ signed_number t neg n /\ first_ok (fun c => ~ between 48 57 c) r.

(** The value as unsigned long (a negative number wraps around), and as an integer. *)
Definition ul_value (neg : bool) (m : N) : N := if neg then ((18446744073709551616 - m) mod 18446744073709551616)%N else m.
Definition l_value (neg : bool) (m : N) : Z := if neg then (- Z.of_N m)%Z else Z.of_N m.

(** [field_tags h l]: [l] are the tags of the value of the header field [h], all different. *)
Definition field_tags (h : header) (l : list (bytes * bytes)) : Prop :=
  h_voff h <= length (h_text h) /\ rendered_tags l (skipn (h_voff h) (h_text h)) /\ NoDup (map fst l).
