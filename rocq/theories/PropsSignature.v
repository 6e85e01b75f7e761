(** Properties C29-C33: Signature::Parse. *)
From Verif Require Import Bytes Outcome Tokenizer Base64 TagList MailParser Canonicalization Util CStdlib Crypto Signature
  SpecText SpecTags SpecCanon SpecVerify SpecSig SpecParse TagListFacts SigFacts SigProps KeyExact SigExact Examples.

(** C29.  [e0] is whether errno is ERANGE when Parse is called. *)
Theorem C29_mandatory : forall C strict now h e0 g e1,
  Signature_Parse C strict now h (new_signature, e0) = ((g, e1), Ok tt) ->
  exists l, field_tags h l /\
    (exists d, has l "d" d /\ sg_domain g = map low d) /\
    has l "s" (sg_selector g) /\
    (exists a, has l "a" a /\ a_value a (sg_digest g) (sg_alg g)) /\
    (exists b, has l "b" b /\ b <> [] /\ sg_b g = b64d C (unspaced b)) /\
    (exists bh, has l "bh" bh /\ sg_bh g = b64d C (unspaced bh)) /\
    (exists hv, has l "h" hv /\ ValueList hv = Ok (sg_headers g) /\
       exists n, In n (sg_headers g) /\ same_name n (str "from") = true) /\
    (lacks l "c" /\ sg_chead g = SIMPLE /\ sg_cbody g = SIMPLE \/
     exists c, has l "c" c /\ c_value c (sg_chead g) (sg_cbody g)) /\
    sg_arc g = same_name (h_name h) (str "arc-message-signature") /\
    (sg_arc g = false -> has l "v" (str "1")) /\
    (sg_arc g = true -> (1 <= sg_instance g <= 50)%N /\
       exists i neg m, has l "i" i /\ starts_number i neg m /\ sg_instance g = ul_value neg m).
Proof. exact parse_mandatory. Qed.
Print Assumptions C29_mandatory.
(** The names in h=, for a field of a message (C15_folded). *)
Theorem C29_headers : forall C strict now h e0 g e1, Signature_Parse C strict now h (new_signature, e0) = ((g, e1), Ok tt) ->
  folds_only (h_text h) -> exists l hv, field_tags h l /\ has l "h" hv /\ list_text (sg_headers g) hv.
Proof. exact headers_text. Qed.
Print Assumptions C29_headers.
Theorem C29_lacking_refused : forall C now h e0 l, field_tags h l ->
  lacks l "d" \/ lacks l "s" \/ (forall a d s, has l "a" a -> ~ a_value a d s) \/ lacks l "b" \/ has l "b" [] \/ lacks l "bh" \/
  lacks l "h" \/
  (exists hv vs, has l "h" hv /\ rendered_list vs hv /\ forall n, In n vs -> same_name n (str "from") = false) \/
  (exists c, has l "c" c /\ forall x y, ~ c_value c x y) \/
  (same_name (h_name h) (str "arc-message-signature") = false /\ ~ has l "v" (str "1")) \/
  (same_name (h_name h) (str "arc-message-signature") = true /\
     (lacks l "i" \/ exists i, has l "i" i /\ digits i /\ (dec_value i < 1 \/ 50 < dec_value i)%N)) \/
  (exists q, has l "q" q /\ q <> str "dns/txt") ->
  snd (Signature_Parse C false now h (new_signature, e0)) = Throw (PermanentError AR_PERMERROR).
Proof. exact parse_lacking. Qed.
Print Assumptions C29_lacking_refused.
(** Exactly: the fields that are taken and what the getters return for them. *)
Theorem C29_exact : forall C now h e0 l, field_tags h l -> forall g e1,
  (exists tags, Signature_Parse C false now h (new_signature, e0) = ((set_tags tags g, e1), Ok tt)) <-> taken C now h l e0 g e1.
Proof. exact parse_exact. Qed.
Print Assumptions C29_exact.
Example C29_case_exact : exists l g, let h := dkim_field (base_sig ++ "; l=12; x=5; i=joe@example.com") in
  field_tags h l /\ taken toy 1 h l false g false /\ sg_limit g = true /\ sg_local g = str "joe".
Proof. exact exact_case. Qed.
(** Nothing but success and PermanentError, whatever the object held before. *)
Theorem C29_total : forall C now h st, h_voff h <= length (h_text h) ->
  snd (Signature_Parse C false now h st) = Ok tt \/
  snd (Signature_Parse C false now h st) = Throw (PermanentError AR_PERMERROR).
Proof. exact Signature_Parse_fine. Qed.
Print Assumptions C29_total.
(** What suffices, with the values of the getters. *)
Theorem C29_sufficient : forall C now h l d s a dg al b bh hv vs ch cb, field_tags h l ->
  has l "d" d -> has l "s" s -> has l "a" a -> a_value a dg al -> has l "b" b -> b <> [] -> has l "bh" bh ->
  has l "h" hv -> rendered_list vs hv -> (exists n, In n vs /\ same_name n (str "from") = true) ->
  (lacks l "c" /\ ch = SIMPLE /\ cb = SIMPLE \/ exists c, has l "c" c /\ c_value c ch cb) ->
  lacks l "l" -> lacks l "x" -> (lacks l "q" \/ has l "q" (str "dns/txt")) ->
  let arc := same_name (h_name h) (str "arc-message-signature") in
  (arc = false -> has l "v" (str "1") /\ lacks l "i") ->
  (arc = true -> exists i, has l "i" i /\ digits i /\ (1 <= dec_value i <= 50)%N) ->
  forall e0, exists g, Signature_Parse C false now h (new_signature, e0) = ((g, e0), Ok tt) /\
    sg_domain g = map low d /\ sg_selector g = s /\ sg_digest g = dg /\ sg_alg g = al /\
    sg_b g = b64d C (unspaced b) /\ sg_bh g = b64d C (unspaced bh) /\ sg_headers g = vs /\
    sg_chead g = ch /\ sg_cbody g = cb /\ sg_limit g = false /\ sg_arc g = arc /\
    (arc = true -> exists i, has l "i" i /\ sg_instance g = dec_value i).
Proof. exact parse_sufficient. Qed.
Print Assumptions C29_sufficient.
Example C29_case : exists l g, field_tags (dkim_field base_sig) l /\
  Signature_Parse toy true 1 (dkim_field base_sig) (new_signature, true) = ((g, true), Ok tt) /\
  sg_domain g = str "example.com" /\ sg_b g = str "b" /\ sg_headers g = [str "Subject"; str "From"] /\ sg_chead g = RELAXED.
Proof.
  do 2 eexists. split; [apply field_tags_nv; [apply Nat.leb_le; reflexivity|vm_compute; reflexivity]|].
  split; [vm_compute; reflexivity|]. repeat split.
Qed.
Example C29_case_arc : exists g, Signature_Parse toy true 1 (arc_field base_arc) (new_signature, false) = ((g, false), Ok tt) /\
  sg_arc g = true /\ sg_instance g = 2%N /\ sg_alg g = ED25519.
Proof. eexists. split; [vm_compute; reflexivity|]. repeat split. Qed.
Example C29_case_refused : exists l, field_tags (dkim_field "v=1; a=rsa-md5; d=a; s=b; h=from; bh=YQ==; b=YQ==") l /\
  snd (Signature_Parse toy true 1 (dkim_field "v=1; a=rsa-md5; d=a; s=b; h=from; bh=YQ==; b=YQ==") (new_signature, false)) = perm.
Proof.
  eexists. split; [apply field_tags_nv; [apply Nat.leb_le; reflexivity|vm_compute; reflexivity]|]. vm_compute. reflexivity.
Qed.

(** C30.  The identity is decoded from quoted-printable; [sg_local]@[sg_mdomain]. *)
Theorem C30_identity : forall C strict now h e0 g e1 l, field_tags h l ->
  Signature_Parse C strict now h (new_signature, e0) = ((g, e1), Ok tt) -> sg_arc g = false ->
  (lacks l "i" /\ sg_local g = [] /\ sg_mdomain g = sg_domain g) \/
  exists i raw, has l "i" i /\ qp_text false i (sg_local g ++ AT :: raw) /\ ~ In AT (sg_local g) /\
    sg_mdomain g = map low raw /\ in_domain (sg_mdomain g) (sg_domain g).
Proof. exact parse_identity. Qed.
Print Assumptions C30_identity.
Theorem C30_outside_refused : forall C now h e0 l i d loc raw, field_tags h l ->
  same_name (h_name h) (str "arc-message-signature") = false ->
  has l "i" i -> has l "d" d -> qp_text false i (loc ++ AT :: raw) -> ~ In AT loc ->
  ~ in_domain (map low raw) (map low d) ->
  snd (Signature_Parse C false now h (new_signature, e0)) = Throw (PermanentError AR_PERMERROR).
Proof. exact parse_identity_refused. Qed.
Print Assumptions C30_outside_refused.
Theorem C30_no_at_refused : forall C now h e0 l i m, field_tags h l ->
  same_name (h_name h) (str "arc-message-signature") = false ->
  has l "i" i -> qp_text false i m -> ~ In AT m ->
  snd (Signature_Parse C false now h (new_signature, e0)) = Throw (PermanentError AR_PERMERROR).
Proof. exact parse_identity_no_at. Qed.
Print Assumptions C30_no_at_refused.
Example C30_case : exists g, Signature_Parse toy true 1 (dkim_field (base_sig ++ "; i=joe@sub.EXAMPLE.com")) (new_signature, false) = ((g, false), Ok tt) /\
  sg_local g = str "joe" /\ sg_mdomain g = str "sub.example.com".
Proof. eexists. split; [vm_compute; reflexivity|]. repeat split. Qed.
Example C30_case_suffix : snd (Signature_Parse toy true 1 (dkim_field (base_sig ++ "; i=joe@badexample.com")) (new_signature, false)) = perm.
Proof. vm_compute. reflexivity. Qed.

(** C31.  What is proved: the number taken, and what is refused.  Missing: some texts that are
    not decimal numbers are taken for numbers, see below. *)
Theorem C31_limit_partial : forall C strict now h e0 g e1 l v, field_tags h l ->
  Signature_Parse C strict now h (new_signature, e0) = ((g, e1), Ok tt) -> has l "l" v ->
  sg_limit g = true /\ (sg_size g < 9223372036854775808)%N /\ length v <= 76 /\
  (v = [] /\ sg_size g = 0%N \/ exists neg m, signed_number v neg m /\ sg_size g = ul_value neg m) /\
  (digits v -> sg_size g = dec_value v).
Proof. exact parse_limit. Qed.
Print Assumptions C31_limit_partial.
Theorem C31_no_limit : forall C strict now h e0 g e1 l, field_tags h l ->
  Signature_Parse C strict now h (new_signature, e0) = ((g, e1), Ok tt) -> lacks l "l" -> sg_limit g = false.
Proof. exact parse_no_limit. Qed.
Print Assumptions C31_no_limit.
Theorem C31_refused_partial : forall C now h e0 l v, field_tags h l -> has l "l" v ->
  (76 < length v) \/ (digits v /\ (9223372036854775808 <= dec_value v)%N) \/
  (v <> [] /\ forall neg m, ~ signed_number v neg m) ->
  snd (Signature_Parse C false now h (new_signature, e0)) = Throw (PermanentError AR_PERMERROR).
Proof. exact parse_limit_refused. Qed.
Print Assumptions C31_refused_partial.
(** Adding l= with a number in range to an accepted field: accepted, with that limit. *)
Theorem C31_accepted : forall C strict now h1 h2 l1 l2 v g e, field_tags h1 l1 -> field_tags h2 l2 -> h_name h1 = h_name h2 ->
  (forall m w, m <> str "l" -> (In (m, w) l1 <-> In (m, w) l2)) -> lacks l1 "l" -> has l2 "l" v ->
  digits v -> length v <= 76 -> (dec_value v < 9223372036854775808)%N ->
  Signature_Parse C strict now h1 (new_signature, false) = ((g, e), Ok tt) ->
  exists g2, Signature_Parse C strict now h2 (new_signature, false) = ((g2, e), Ok tt) /\
    g2 = set_tags (sg_tags g2) (set_size (dec_value v) true g).
Proof. exact parse_limit_accepted. Qed.
Print Assumptions C31_accepted.
(** Nothing, "+5" and "-18446744073709551615" are accepted as 0, 5 and 1. *)
Theorem C31_not_a_number_refuted : forall C,
  limit_taken C [] 0 /\ limit_taken C (str "+5") 5 /\ limit_taken C (str "-18446744073709551615") 1.
Proof. exact odd_limits. Qed.
Print Assumptions C31_not_a_number_refuted.
Example C31_case : exists g, Signature_Parse toy true 1 (dkim_field (base_sig ++ "; l=0012")) (new_signature, false) = ((g, false), Ok tt) /\
  sg_limit g = true /\ sg_size g = 12%N.
Proof. eexists. split; [vm_compute; reflexivity|]. repeat split. Qed.
Example C31_case_big : snd (Signature_Parse toy true 1 (dkim_field (base_sig ++ "; l=9223372036854775808")) (new_signature, false)) = perm /\
  snd (Signature_Parse toy true 1 (dkim_field (base_sig ++ "; l=9223372036854775807")) (new_signature, false)) = Ok tt.
Proof. vm_compute. split; reflexivity. Qed.

(** C32.  False: a number out of range in an earlier field makes a good l= fail. *)
Theorem C32_history_refuted : forall C, exists h1 h2 now,
  snd (Signature_Parse C true now h2 (new_signature, false)) = Ok tt /\
  snd (Signature_Parse C true now h2 (new_signature, errno_after C true false (now, h1))) = Throw (PermanentError AR_PERMERROR).
Proof. exact parse_depends_on_history. Qed.
Print Assumptions C32_history_refuted.
(** What holds: fields without l= do not depend on the history, and no field does if no earlier
    field had a number of 2^63 or more in i=, l= or x=. *)
Theorem C32_without_limit_partial : forall C strict now h e1 e2 l, field_tags h l -> lacks l "l" ->
  let r1 := Signature_Parse C strict now h (new_signature, e1) in
  let r2 := Signature_Parse C strict now h (new_signature, e2) in
  fst (fst r1) = fst (fst r2) /\ snd r1 = snd r2.
Proof. exact parse_history_free. Qed.
Print Assumptions C32_without_limit_partial.
Theorem C32_quiet_history_partial : forall C strict hist,
  Forall (fun p => ~ sets_errno (snd p)) hist -> fold_left (errno_after C strict) hist false = false.
Proof. exact parse_quiet_history. Qed.
Print Assumptions C32_quiet_history_partial.
(** Exactly: what errno was matters if and only if there is an l= and the field is good otherwise. *)
Theorem C32_exact : forall C now h l, field_tags h l -> h_voff h <= length (h_text h) ->
  (snd (Signature_Parse C false now h (new_signature, true)) = snd (Signature_Parse C false now h (new_signature, false)) <->
   lacks l "l" \/ snd (Signature_Parse C false now h (new_signature, false)) <> Ok tt).
Proof. exact errno_exact. Qed.
Print Assumptions C32_exact.
Example C32_case : fold_left (errno_after toy true) [(1%Z, dkim_field (base_sig ++ "; l=7")); (1%Z, dkim_field "x")] false = false.
Proof. vm_compute. reflexivity. Qed.

(** C33.  [now] is time(nullptr), a 64 bit number. *)
Theorem C33_expired : forall C now h e0 l x, field_tags h l -> has l "x" x -> (LONG_MIN < now <= LONG_MAX)%Z ->
  (exists neg m, starts_number x neg m /\ (l_value neg m < now)%Z) \/ ((0 < now)%Z /\ forall neg m, ~ starts_number x neg m) ->
  snd (Signature_Parse C false now h (new_signature, e0)) = Throw (PermanentError AR_PERMERROR).
Proof. exact parse_expired. Qed.
Print Assumptions C33_expired.
Theorem C33_decimal_expired : forall C now h e0 l x, field_tags h l -> has l "x" x -> (LONG_MIN < now <= LONG_MAX)%Z ->
  digits x -> (Z.of_N (dec_value x) < now)%Z ->
  snd (Signature_Parse C false now h (new_signature, e0)) = Throw (PermanentError AR_PERMERROR).
Proof. exact (fun C now h e0 l x F H B D L => parse_expired C now h e0 l x F H B (or_introl (ex_intro _ false (ex_intro _ _ (conj (starts_digits x D) L))))). Qed.
Print Assumptions C33_decimal_expired.
(** Adding x= with a number not smaller than the time to an accepted field changes nothing. *)
Theorem C33_not_expired : forall C strict now h1 h2 l1 l2 x neg m e0 g e, field_tags h1 l1 -> field_tags h2 l2 -> h_name h1 = h_name h2 ->
  (forall k w, k <> str "x" -> (In (k, w) l1 <-> In (k, w) l2)) -> lacks l1 "x" -> has l2 "x" x ->
  starts_number x neg m -> (now <= l_value neg m)%Z -> (now <= LONG_MAX)%Z ->
  Signature_Parse C strict now h1 (new_signature, e0) = ((g, e), Ok tt) ->
  exists g2 e2, Signature_Parse C strict now h2 (new_signature, e0) = ((g2, e2), Ok tt) /\ g2 = set_tags (sg_tags g2) g.
Proof. exact parse_not_expired. Qed.
Print Assumptions C33_not_expired.
Example C33_case : snd (Signature_Parse toy true 1700000000 (dkim_field (base_sig ++ "; x=1699999999")) (new_signature, false)) = perm /\
  snd (Signature_Parse toy true 1700000000 (dkim_field (base_sig ++ "; x=1700000000")) (new_signature, false)) = Ok tt /\
  snd (Signature_Parse toy true 1700000000 (dkim_field (base_sig ++ "; x=never")) (new_signature, false)) = perm /\
  snd (Signature_Parse toy true 1700000000 (dkim_field (base_sig ++ "; x=99999999999999999999")) (new_signature, false)) = Ok tt.
Proof. vm_compute. auto. Qed.
