(** Objects that are used again: what goes wrong (for C95). *)
From Verif Require Import Bytes Outcome Stream Base64 TagList MailParser Canonicalization Util Crypto Signature PublicKey
  Validatory SpecText SpecTags SpecSig SpecKey SpecParse SpecReuse Tokenizer TagListFacts VerifyFacts VerifyProps SigProps SigExact Examples VerifyExamples ReuseTags ReuseFacts ReuseKeys.

(** A field that is refused, and a good one behind it. *)
Definition bad_field : bytes := esc "DKIM-Signature: i=boss@ex.org; =".
Definition good_field (b : bytes) : bytes :=
  esc "DKIM-Signature: v=1; a=rsa-sha256; d=ex.org; s=s1; h=From; bh=" ++ sample_bh ++ esc "; b=" ++ b.
Definition good_b : bytes := Base64_Encode (chr 2 :: toy_hash 32 (sample_from ++ CRLF ++ good_field []) ++ esc "KEY").
Definition two_fields (f1 f2 : bytes) : bytes := f1 ++ CRLF ++ f2 ++ CRLF ++ sample_from ++ CRLF ++ CRLF ++ sample_body.
Definition dkim_header (t : bytes) : header := mkHeader (esc "DKIM-Signature") t 15.

Lemma reuse_identity : exists C t v h1 h2 g1 v2 g2 p l,
  new_validatory false V_DKIM (open_str t) = Ok v /\ v_sigs v = [h1; h2] /\
  GetSignature C false 1 h1 (new_signature, false) v = (v, (g1, false), Throw (PermanentError AR_PERMERROR)) /\
  GetSignature C false 1 h2 (g1, false) v = (v2, (g2, false), Ok tt) /\
  GetPublicKey C false (fun _ => Ok (true, rsa_record)) g2 new_public_key = (p, Ok tt) /\
  CheckSignature C false h2 g2 p v2 = Ok tt /\
  sg_local g2 = str "boss" /\ field_tags h2 l /\ lacks l "i".
Proof.
  exists toy, (two_fields bad_field (good_field good_b)). eexists. exists (dkim_header bad_field), (dkim_header (good_field good_b)). do 5 eexists.
  split; [vm_compute; reflexivity|]. split; [vm_compute; reflexivity|]. split; [vm_compute; reflexivity|]. split; [vm_compute; reflexivity|].
  split; [vm_compute; reflexivity|]. split; [vm_compute; reflexivity|]. split; [vm_compute; reflexivity|].
  split; [apply field_tags_nv; [apply Nat.leb_le; reflexivity|vm_compute; reflexivity]|].
  intros I. vm_compute in I. repeat destruct I as [I|I]; try discriminate I. exact I.
Qed.

(** The place of b= is that of another field. *)
Definition far_field : bytes := esc "DKIM-Signature: z=" ++ repeat (chr 97) 300 ++ esc "; b=QUJD; =".
Definition near_field : bytes := esc "DKIM-Signature: v=1; a=rsa-sha256; d=ex.org; s=s1; h=From; bh=" ++ sample_bh.
Lemma reuse_place : exists C t v h1 h2 g1 v2 g2 p,
  new_validatory false V_DKIM (open_str t) = Ok v /\ v_sigs v = [h1; h2] /\
  GetSignature C false 1 h1 (new_signature, false) v = (v, (g1, false), Throw (PermanentError AR_PERMERROR)) /\
  GetSignature C false 1 h2 (g1, false) v = (v2, (g2, false), Ok tt) /\
  GetPublicKey C false (fun _ => Ok (true, rsa_record)) g2 new_public_key = (p, Ok tt) /\
  CheckSignature C false h2 g2 p v2 = Throw StdOutOfRange.
Proof.
  exists toy, (two_fields far_field near_field). eexists. exists (dkim_header far_field), (dkim_header near_field). do 4 eexists.
  split; [vm_compute; reflexivity|]. split; [vm_compute; reflexivity|]. split; [vm_compute; reflexivity|]. split; [vm_compute; reflexivity|].
  split; vm_compute; reflexivity.
Qed.

(** Behind a signature everything passes for one. *)
Lemma reuse_anything : exists C h1 h2 g1 g2,
  Signature_Parse C false 1 h1 (new_signature, false) = ((g1, false), Ok tt) /\
  Signature_Parse C false 1 h2 (g1, false) = ((g2, false), Ok tt) /\
  field_tags h2 [(str "y", str "1")].
Proof.
  exists toy, (dkim_header (good_field good_b)), (dkim_header (esc "DKIM-Signature: y=1")). do 2 eexists.
  split; [vm_compute; reflexivity|]. split; [vm_compute; reflexivity|].
  change [(str "y", str "1")] with (nv [(str "y", mkEntry (str "1") 3)]). apply field_tags_nv; [apply Nat.leb_le; reflexivity|vm_compute; reflexivity].
Qed.

(** A record that is refused puts the next one into testing mode. *)
Lemma reuse_testing : exists C r1 r2 p1 p2 p3,
  PublicKey_Parse C false r1 new_public_key = (p1, Throw (PermanentError AR_PERMERROR)) /\
  PublicKey_Parse C false r2 p1 = (p2, Ok tt) /\ SoftFail p2 = true /\
  PublicKey_Parse C false r2 new_public_key = (p3, Ok tt) /\ SoftFail p3 = false.
Proof.
  exists toy, (esc "t=y; ="), rsa_record. do 3 eexists. repeat (split; [vm_compute; reflexivity|]). vm_compute. reflexivity.
Qed.

(** The theorems speak of something: an object with a left tag takes a field. *)
Lemma reuse_case : exists g l g' h, used toy g /\ held (sg_tags g) = [(str "i", str "boss@ex.org")] /\ field_tags h l /\ new_names (held (sg_tags g)) l /\
  taken toy 1 h (held (sg_tags g) ++ l) false g' false /\ sg_local (old_identity g g') = str "boss".
Proof.
  remember (fst (fst (Signature_Parse toy false 1 (dkim_header bad_field) (new_signature, false)))) as g eqn:Eg.
  assert (U : used toy g) by (rewrite Eg; apply used_again, used_new).
  assert (H : held (sg_tags g) = [(str "i", str "boss@ex.org")]) by (rewrite Eg; vm_compute; reflexivity).
  assert (FT : exists l, field_tags (dkim_header (good_field good_b)) l /\ new_names (held (sg_tags g)) l).
  { eexists. split; [apply field_tags_nv; [apply Nat.leb_le; reflexivity|vm_compute; reflexivity]|]. rewrite H. intros n I J. destruct J as [<-|[]].
    vm_compute in I. repeat destruct I as [I|I]; try discriminate I. exact I. }
  destruct FT as (l & FT & NN).
  assert (A : sg_arc g = false) by (rewrite Eg; vm_compute; reflexivity).
  remember (fst (fst (Signature_Parse toy false 1 (dkim_header (good_field good_b)) (g, false)))) as g2 eqn:E2.
  assert (P : Signature_Parse toy false 1 (dkim_header (good_field good_b)) (g, false) = ((set_tags (sg_tags g2) g2, false), Ok tt)).
  { rewrite E2, Eg. vm_compute. reflexivity. }
  destruct (proj1 (used_exact toy g 1 (dkim_header (good_field good_b)) (dkim_header (good_field good_b)) l false U FT NN ltac:(rewrite A; reflexivity) g2 false) (ex_intro _ _ P)) as (g' & K & E).
  exists g, l, g', (dkim_header (good_field good_b)). repeat (split; [assumption|]). rewrite <- E, E2, Eg. vm_compute. reflexivity.
Qed.
Lemma reuse_left_case : exists t, left_behind [] [(str "i", str "boss@ex.org")] t.
Proof.
  exists (esc " i=boss@ex.org; ="). destruct (TagList_left [] (esc " i=boss@ex.org; =")) as (ents & o & P & _ & _ & [[-> _]|[-> L]]).
  - vm_compute in P. discriminate P.
  - assert (E : nv ents = [(str "i", str "boss@ex.org")]) by (vm_compute in P; injection P as <-; reflexivity). rewrite E in L. exact L.
Qed.
Lemma reuse_after_case : exists h1 h2 st1 st2, Signature_Parse toy false 1 h1 (new_signature, false) = (st1, Ok tt) /\
  Signature_Parse toy false 1 h2 (new_signature, false) = (st2, Ok tt) /\ h1 <> h2.
Proof.
  exists (dkim_header (good_field good_b)), (dkim_header (good_field (esc "QUJD"))). do 2 eexists. split; [vm_compute; reflexivity|]. split; [vm_compute; reflexivity|]. vm_compute. discriminate.
Qed.
Lemma reuse_key_case : exists p r l q, used_key toy p /\ held (pk_tags p) = [(str "t", str "y")] /\ record_tags r l /\ new_names (held (pk_tags p)) l /\
  key_says toy (held (pk_tags p) ++ l) q /\ pk_flags q = [str "y"].
Proof.
  remember (fst (PublicKey_Parse toy false (esc "t=y; =") new_public_key)) as p eqn:Ep.
  assert (U : used_key toy p) by (rewrite Ep; apply used_key_again, used_key_new).
  assert (H : held (pk_tags p) = [(str "t", str "y")]) by (rewrite Ep; vm_compute; reflexivity).
  assert (RT : exists l, record_tags rsa_record l /\ new_names (held (pk_tags p)) l).
  { eexists. split; [apply record_nv; vm_compute; reflexivity|]. rewrite H. intros n I J. destruct J as [<-|[]].
    vm_compute in I. repeat destruct I as [I|I]; try discriminate I. exact I. }
  destruct RT as (l & RT & NN).
  destruct (PublicKey_Parse toy false rsa_record p) as [p' o] eqn:P.
  assert (E : o = Ok tt /\ pk_flags p' = [str "y"]) by (rewrite Ep in P; vm_compute in P; injection P as <- <-; split; reflexivity).
  destruct E as [-> F].
  destruct (proj1 (used_key_exact toy p false rsa_record l U RT NN) p' P) as (q & K & SK).
  exists p, rsa_record, l, q. repeat (split; [assumption|]). destruct SK as (_ & _ & E & _). rewrite <- E. exact F.
Qed.
