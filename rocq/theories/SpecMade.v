(** The field that signing produces, byte by byte.  Of the model only the types of options, keys and header fields and
    the signing primitives are used. *)
From Verif Require Import Bytes SpecText SpecTags SpecMail SpecCanon SpecVerify SpecSig SpecBase64 SpecSign SpecRelaxed
  MailParser Canonicalization Util Crypto SignatoryOptions.

(** Decimal numbers without leading zeros; times count modulo 2^64. *)
Definition number_text (n : N) (d : bytes) : Prop := digits d /\ dec_value d = n /\ (d = str "0" \/ first_ok (fun c => c <> chr 48) d).
Definition time_text (z : Z) (d : bytes) : Prop := number_text (Z.to_N (z mod 18446744073709551616)) d.
(** The bytes [d] as quoted-printable: what has to be encoded is, and nothing else. *)
Inductive qp_written : bytes -> bytes -> Prop :=
| qw_end : qp_written [] []
| qw_char c d e : printable c -> c <> SEMI -> c <> EQUALS -> qp_written d e -> qp_written (c :: d) (c :: e)
| qw_hex c h1 h2 a b d e : ~ (printable c /\ c <> SEMI /\ c <> EQUALS) -> hex_digit h1 a -> hex_digit h2 b -> c = chr (16 * a + b) ->
    qp_written d e -> qp_written (c :: d) (EQUALS :: h1 :: h2 :: e).

(** Names with colons between them. *)
Fixpoint colons (g : list bytes) : bytes := match g with [] => [] | [n] => n | n :: r => n ++ COLON :: colons r end.
(** The lines of h=: [p] begins the line, the names [g] follow; a line is ended, with a colon, where the next name would
    make it longer than 80 bytes.  Only a name that is alone on its line can be too long. *)
Definition next_starts := [HT; SP].
Definition on_line (p : bytes) (g : list bytes) : Prop := length (p ++ colons g) <= 80 \/ p = next_starts /\ exists n, g = [n].
Definition behind (g : list bytes) : bytes := match g with [] => [] | _ => [COLON] end.
Inductive h_lines : bytes -> list (list bytes) -> bytes -> Prop :=
| hl_last p g : on_line p g -> h_lines p [g] (p ++ colons g)
| hl_next p g n g2 r t : on_line p g -> 80 < length (p ++ colons g ++ behind g) + length n -> h_lines next_starts ((n :: g2) :: r) t ->
    h_lines p (g :: (n :: g2) :: r) (p ++ colons g ++ behind g ++ CRLF ++ t).
Definition h_field (names : list bytes) (t : bytes) : Prop := exists gs, concat gs = names /\ h_lines (HT :: str "h=") gs t.

(** The lines of b=: the first has room for [k] bytes, the others for 78. *)
Inductive b_lines : nat -> bytes -> bytes -> Prop :=
| bl_last k e : length e <= k -> b_lines k e e
| bl_next k l e t : length l = k -> e <> [] -> b_lines 78 e t -> b_lines k (l ++ e) (l ++ CRLF ++ next_starts ++ t).

(** The field up to "b=". *)
Definition if_set (b : bool) (part : bytes -> Prop) (t : bytes) : Prop := if b then part t else t = [].
Definition begins (o : options) (t : bytes) : Prop :=
  if (o_arc o =? 0)%N then t = str "DKIM-Signature: v=1" else exists d, t = str "ARC-Message-Signature: i=" ++ d /\ number_text (o_arc o) d.
Definition t_tag (o : options) (now : Z) (t : bytes) : Prop :=
  exists d, t = str " t=" ++ d ++ [SEMI] /\ time_text (if (o_ts o =? -1)%Z then now else o_ts o) d.
Definition x_tag (o : options) (now : Z) (t : bytes) : Prop := exists d, t = str " x=" ++ d ++ [SEMI] /\ time_text (expiry o now) d.
Definition i_tag (o : options) (t : bytes) : Prop :=
  o_identity o = [] /\ t = [] \/ o_identity o <> [] /\ exists e, t = str "; i=" ++ e /\ qp_written (o_identity o) e.
Definition l_tag (o : options) (t : bytes) : Prop := exists d, t = str "; l=" ++ d /\ number_text (o_bodylen o) d.
Definition line_end : bytes := SEMI :: CRLF.
Definition field_up_to_b (o : options) (q : sig_options) (now : Z) (names : list bytes) (bh T : bytes) : Prop :=
  exists v t x i l h e, begins o v /\ if_set (o_tssign o) (t_tag o now) t /\ if_set (o_exsign o) (x_tag o now) x /\
    i_tag o i /\ if_set (o_signlen o) (l_tag o) l /\ h_field names h /\ b64_text bh e /\
    T = v ++ str "; a=" ++ a_text (o_digest o) (so_alg (o_main o)) ++
        str "; c=" ++ mode_name (o_chead o) ++ str "/" ++ mode_name (o_cbody o) ++ [SEMI] ++ t ++ x ++ CRLF ++
        HT :: str "d=" ++ so_domain q ++ str "; s=" ++ so_selector q ++ i ++ l ++ line_end ++
        h ++ line_end ++
        HT :: str "bh=" ++ e ++ line_end ++
        HT :: str "b=".

(** The key of [q] yields the signature data [x] for the digest [md]; the key for Ed25519 is 64 bytes of a C string. *)
Definition signs_as (C : crypto) (o : options) (q : sig_options) (md x : bytes) : Prop :=
  match so_alg q with
  | RSA => exists k, so_rsa q = Some k /\ c_rsa_sign C (o_digest o) md k = Some x
  | ED25519 => 63 <= length (so_ed q) /\ c_ed_sign C md (firstn 64 (so_ed q ++ [chr 0])) = Some x
  end.
Definition relaxes (m : canon_mode) : bool := match m with RELAXED => true | SIMPLE => false end.
(** The field for [q]; [names] go into h=, [data] are the canonical forms of the fields, [bh] the digest of the body. *)
Definition made (C : crypto) (o : options) (now : Z) (names : list bytes) (data bh : bytes) (q : sig_options) (H : bytes) : Prop :=
  (o_exsign o = true -> (-9223372036854775808 <= expiry o now <= 9223372036854775807)%Z) /\
  exists T c x e b, field_up_to_b o q now names bh T /\ text_form (relaxes (o_chead o)) T c /\
    signs_as C o q (digest C (o_digest o) (data ++ c)) x /\ b64_text x e /\ b_lines 77 e b /\ H = T ++ b.
(** All of them, the last signature first.  [clock] gives the time for each. *)
Definition all_made (C : crypto) (o : options) (clock : nat -> Z) (fs : list header) (body H : bytes) : Prop :=
  (o_signlen o = true -> (o_bodylen o <= N.of_nat (length body))%N) /\
  exists outs Hs, Forall2 (fun f out => text_form (relaxes (o_chead o)) (h_text f) out) (filter (fun f => choice o (h_name f)) (rev fs)) outs /\
    length Hs = length (all_signatures o) /\
    (forall k q h, nth_error (rev (all_signatures o)) k = Some q -> nth_error Hs k = Some h ->
      made C o (clock k) (listed_names h_name o fs) (with_crlf outs) (digest C (o_digest o) (cut (o_signlen o) (o_bodylen o) body)) q h) /\
    H = joined Hs.
