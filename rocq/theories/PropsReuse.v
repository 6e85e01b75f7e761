(** Property C95: objects that are used for one field or record after another. *)
From Verif Require Import Bytes Outcome Stream TagList MailParser Canonicalization Util Crypto Signature PublicKey Validatory
  SpecText SpecTags SpecVerify SpecSig SpecParse SpecKey SpecReuse ReuseFacts ReuseKeys Examples VerifyExamples ReuseExamples.

(** C95.  A used object reads a field as a new one would read the tags it holds followed by those of the field, as long as the
    names are new; for ARC it keeps its identity. *)
Theorem C95_exact : forall C g now h h' l e, used C g -> field_tags h l -> new_names (held (sg_tags g)) l ->
  same_name (h_name h') (str "arc-message-signature") = sg_arc g || same_name (h_name h) (str "arc-message-signature") -> forall g2 e1,
  (exists tags, Signature_Parse C false now h (g, e) = ((set_tags tags g2, e1), Ok tt)) <->
  exists g', taken C now h' (held (sg_tags g) ++ l) e g' e1 /\ g2 = old_identity g g'.
Proof. exact used_exact. Qed.
Print Assumptions C95_exact.
Example C95_exact_case : exists g l g' h, used toy g /\ held (sg_tags g) = [(str "i", str "boss@ex.org")] /\ field_tags h l /\ new_names (held (sg_tags g)) l /\
  taken toy 1 h (held (sg_tags g) ++ l) false g' false /\ sg_local (old_identity g g') = str "boss".
Proof. exact reuse_case. Qed.
(** What it holds afterwards: all tags of such a field, even if the field is refused, *)
Theorem C95_kept : forall C g strict now h l e, used C g -> field_tags h l -> new_names (held (sg_tags g)) l ->
  held (sg_tags (fst (fst (Signature_Parse C strict now h (g, e))))) = held (sg_tags g) ++ l.
Proof. exact used_kept. Qed.
Print Assumptions C95_kept.
(** and any other field is refused; the tags in front of the place in question are left behind and nothing else changes. *)
Theorem C95_left : forall C g strict now h e, used C g -> h_voff h <= length (h_text h) -> (forall l, field_tags h l -> ~ new_names (held (sg_tags g)) l) ->
  exists tags l, Signature_Parse C strict now h (g, e) = ((set_tags tags g, e), Throw (PermanentError AR_PERMERROR)) /\ held tags = held (sg_tags g) ++ l /\
    (forall l', left_behind (map fst (held (sg_tags g))) l' (skipn (h_voff h) (h_text h)) <-> l' = l).
Proof. exact used_left. Qed.
Print Assumptions C95_left.
Example C95_left_case : exists t, left_behind [] [(str "i", str "boss@ex.org")] t.
Proof. exact reuse_left_case. Qed.
(** An object that holds no tags is as good as new, but for having seen an ARC field. *)
Theorem C95_as_new : forall C g, used C g -> sg_tags g = [] -> g = set_arc (sg_arc g) new_signature.
Proof. exact used_blank. Qed.
Print Assumptions C95_as_new.
(** Behind a field that was taken no other signature is taken. *)
Theorem C95_once : forall C g strict1 now1 h1 e st1 strict2 now2 h2 e2 st2 e3, used C g ->
  Signature_Parse C strict1 now1 h1 (g, e) = (st1, Ok tt) -> Signature_Parse C strict2 now2 h2 (new_signature, e2) = (st2, Ok tt) ->
  snd (Signature_Parse C strict2 now2 h2 (fst st1, e3)) = Throw (PermanentError AR_PERMERROR).
Proof. exact used_after. Qed.
Print Assumptions C95_once.
Example C95_once_case : exists h1 h2 st1 st2, Signature_Parse toy false 1 h1 (new_signature, false) = (st1, Ok tt) /\
  Signature_Parse toy false 1 h2 (new_signature, false) = (st2, Ok tt) /\ h1 <> h2.
Proof. exact reuse_after_case. Qed.

(** The same for key records, up to what the checks can tell of a key. *)
Theorem C95_key_exact : forall C p strict r l, used_key C p -> record_tags r l -> new_names (held (pk_tags p)) l ->
  (forall p', PublicKey_Parse C strict r p = (p', Ok tt) -> exists q, key_says C (held (pk_tags p) ++ l) q /\ same_key p' q) /\
  (forall q, key_says C (held (pk_tags p) ++ l) q -> exists p', PublicKey_Parse C strict r p = (p', Ok tt) /\ same_key p' q).
Proof. exact used_key_exact. Qed.
Print Assumptions C95_key_exact.
Example C95_key_case : exists p r l q, used_key toy p /\ held (pk_tags p) = [(str "t", str "y")] /\ record_tags r l /\ new_names (held (pk_tags p)) l /\
  key_says toy (held (pk_tags p) ++ l) q /\ pk_flags q = [str "y"].
Proof. exact reuse_key_case. Qed.
Theorem C95_same_key : forall C strict p q, same_key p q ->
  SoftFail p = SoftFail q /\ forall h g v, CheckSignature C strict h g p v = CheckSignature C strict h g q v.
Proof. exact same_key_checks. Qed.
Print Assumptions C95_same_key.
Theorem C95_key_kept : forall C p strict r l, used_key C p -> record_tags r l -> new_names (held (pk_tags p)) l ->
  held (pk_tags (fst (PublicKey_Parse C strict r p))) = held (pk_tags p) ++ l.
Proof. exact used_key_kept. Qed.
Print Assumptions C95_key_kept.
Theorem C95_key_left : forall C p strict r, used_key C p -> (forall l, record_tags r l -> ~ new_names (held (pk_tags p)) l) ->
  exists tags l, PublicKey_Parse C strict r p = (kset_tags tags p, Throw (PermanentError AR_PERMERROR)) /\ held tags = held (pk_tags p) ++ l /\
    (forall l', left_behind (map fst (held (pk_tags p))) l' r <-> l' = l).
Proof. exact used_key_left. Qed.
Print Assumptions C95_key_left.
Theorem C95_key_as_new : forall C p, used_key C p -> pk_tags p = [] -> p = new_public_key.
Proof. exact used_key_blank. Qed.
Print Assumptions C95_key_as_new.
Theorem C95_key_once : forall C p strict1 r1 p1 strict2 r2 p2, used_key C p ->
  PublicKey_Parse C strict1 r1 p = (p1, Ok tt) -> PublicKey_Parse C strict2 r2 new_public_key = (p2, Ok tt) ->
  snd (PublicKey_Parse C strict2 r2 p1) = Throw (PermanentError AR_PERMERROR).
Proof. exact used_key_after. Qed.
Print Assumptions C95_key_once.

(** So a field that is refused can say for whom the next one speaks, though that one is verified, *)
Theorem C95_identity_refuted : exists C t v h1 h2 g1 v2 g2 p l,
  new_validatory false V_DKIM (open_str t) = Ok v /\ v_sigs v = [h1; h2] /\
  GetSignature C false 1 h1 (new_signature, false) v = (v, (g1, false), Throw (PermanentError AR_PERMERROR)) /\
  GetSignature C false 1 h2 (g1, false) v = (v2, (g2, false), Ok tt) /\
  GetPublicKey C false (fun _ => Ok (true, rsa_record)) g2 new_public_key = (p, Ok tt) /\
  CheckSignature C false h2 g2 p v2 = Ok tt /\
  sg_local g2 = str "boss" /\ field_tags h2 l /\ lacks l "i".
Proof. exact reuse_identity. Qed.
Print Assumptions C95_identity_refuted.
(** it can make CheckSignature cut the next one beyond its end, *)
Theorem C95_place_refuted : exists C t v h1 h2 g1 v2 g2 p,
  new_validatory false V_DKIM (open_str t) = Ok v /\ v_sigs v = [h1; h2] /\
  GetSignature C false 1 h1 (new_signature, false) v = (v, (g1, false), Throw (PermanentError AR_PERMERROR)) /\
  GetSignature C false 1 h2 (g1, false) v = (v2, (g2, false), Ok tt) /\
  GetPublicKey C false (fun _ => Ok (true, rsa_record)) g2 new_public_key = (p, Ok tt) /\
  CheckSignature C false h2 g2 p v2 = Throw StdOutOfRange.
Proof. exact reuse_place. Qed.
Print Assumptions C95_place_refuted.
(** behind a signature a field that is none is taken, *)
Theorem C95_anything_refuted : exists C h1 h2 g1 g2,
  Signature_Parse C false 1 h1 (new_signature, false) = ((g1, false), Ok tt) /\
  Signature_Parse C false 1 h2 (g1, false) = ((g2, false), Ok tt) /\
  field_tags h2 [(str "y", str "1")].
Proof. exact reuse_anything. Qed.
Print Assumptions C95_anything_refuted.
(** and a key record that is refused can put the next one into testing mode. *)
Theorem C95_testing_refuted : exists C r1 r2 p1 p2 p3,
  PublicKey_Parse C false r1 new_public_key = (p1, Throw (PermanentError AR_PERMERROR)) /\
  PublicKey_Parse C false r2 p1 = (p2, Ok tt) /\ SoftFail p2 = true /\
  PublicKey_Parse C false r2 new_public_key = (p3, Ok tt) /\ SoftFail p3 = false.
Proof. exact reuse_testing. Qed.
Print Assumptions C95_testing_refuted.
