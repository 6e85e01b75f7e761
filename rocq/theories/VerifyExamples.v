(** Concrete messages and records for the examples beside the verification theorems. *)
From Verif Require Import Bytes Outcome Stream Base64 TagList MailParser Canonicalization Util Crypto Signature PublicKey
  Validatory SpecText SpecTags SpecSig SpecKey Tokenizer TagListFacts VerifyFacts VerifyProps Examples ListWide.

Definition sample_from : bytes := esc "From: a@ex.org".
Definition sample_body : bytes := esc "hi\r\n".
Definition sample_bh : bytes := Base64_Encode (toy_hash 32 sample_body).
(** The signature field up to the b= value. *)
Definition sample_open (alg : string) : bytes :=
  esc "DKIM-Signature: v=1; a=" ++ str alg ++ esc "; d=ex.org; i=@sub.ex.org; s=s1; h=From; bh=" ++ sample_bh ++ esc ";\r\n\tb=".
Definition sample_field (alg : string) (b : bytes) : bytes := sample_open alg ++ b ++ esc " ; z=1".
Definition sample_digest (alg : string) : bytes :=
  toy_hash 32 (sample_from ++ CRLF ++ sample_field alg []).
Definition sample_message (alg : string) (b : bytes) : bytes :=
  sample_field alg b ++ CRLF ++ sample_from ++ CRLF ++ CRLF ++ sample_body.
Definition sample_header (alg : string) (b : bytes) : header :=
  mkHeader (esc "DKIM-Signature") (sample_field alg b) 15.

(** RSA with the toy primitives: tag byte, digest, key. *)
Definition rsa_b : bytes := Base64_Encode (chr 2 :: sample_digest "rsa-sha256" ++ esc "KEY").
Definition rsa_record : bytes := esc "v=DKIM1; p=S0VZ".
(** Ed25519 with the toy primitives: digest, key. *)
Definition ed_key : bytes := esc "0123456789abcdef0123456789abcdef".
Definition ed_sig : bytes := sample_digest "ed25519-sha256" ++ ed_key.
Definition ed_record : bytes := esc "k=ed25519; p=" ++ Base64_Encode ed_key.

(** All calls a verifier makes. *)
Definition verify (C : crypto) (strict : bool) (t record : bytes) : outcome unit :=
  let* v := new_validatory strict V_DKIM (open_str t) in
  match v_sigs v with
  | [] => perm
  | h :: _ =>
      let '(v1, st1, o) := GetSignature C strict 1 h (new_signature, false) v in
      let* _ := o in
      let '(p, o1) := GetPublicKey C strict (fun _ => Ok (true, record)) (fst st1) new_public_key in
      let* _ := o1 in
      CheckSignature C strict h (fst st1) p v1
  end.
Example verify_rsa : verify toy true (sample_message "rsa-sha256" rsa_b) rsa_record = Ok tt.
Proof. vm_compute. reflexivity. Qed.
Example verify_ed : verify toy true (sample_message "ed25519-sha256" (Base64_Encode ed_sig)) ed_record = Ok tt.
Proof. vm_compute. reflexivity. Qed.
Example verify_wrong : verify toy true (sample_message "rsa-sha256" (esc "QUJD")) rsa_record = perm_fail.
Proof. vm_compute. reflexivity. Qed.

(** The message [t] with two signatures of which the first has an overlong l=. *)
Definition l_field (l : string) : bytes :=
  esc "DKIM-Signature: v=1; a=rsa-sha256; d=ex.org; s=s1; h=From; l=" ++ str l ++ esc "; bh=" ++ sample_bh ++ esc "; b=QUJD".
Definition l_header (l : string) : header := mkHeader (esc "DKIM-Signature") (l_field l) 15.
Definition l_message : bytes :=
  l_field "99999999999999999999" ++ CRLF ++ l_field "4" ++ CRLF ++ sample_from ++ CRLF ++ CRLF ++ sample_body.
Lemma errno_order : exists C t h1 h2 v g1 g2, new_validatory true V_DKIM (open_str t) = Ok v /\
  perform C true false (CallGetSignature 1 h1 new_signature) v = (v, GotSignature g1 true (Throw (PermanentError AR_PERMERROR))) /\
  (exists v', perform C true false (CallGetSignature 1 h2 new_signature) v = (v', GotSignature g2 false (Ok tt))) /\
  exists g3 o, snd (perform C true true (CallGetSignature 1 h2 new_signature) v) = GotSignature g3 true o /\ o <> Ok tt.
Proof.
  exists toy, l_message, (l_header "99999999999999999999"), (l_header "4"). do 3 eexists.
  split; [vm_compute; reflexivity|]. split; [vm_compute; reflexivity|]. split; [eexists; vm_compute; reflexivity|].
  do 2 eexists. split; [vm_compute; reflexivity|]. discriminate.
Qed.

Lemma short_ed_read C : exists h g p v,
  Signature_Parse C true 1 h (new_signature, false) = ((g, false), Ok tt) /\
  PublicKey_Parse C true ed_record new_public_key = (p, Ok tt) /\
  new_validatory true V_DKIM (open_str (h_text h)) = Ok v /\ v_sigs v = [h] /\
  CheckSignature C true h g p v = UB UB_oob_read.
Proof.
  exists (mkHeader (esc "DKIM-Signature") (esc "DKIM-Signature: v=1; a=ed25519-sha256; d=ex.org; s=s1; h=From; bh=QUJD; b=QUJD") 15).
  do 3 eexists. split; [vm_compute; reflexivity|]. split; [vm_compute; reflexivity|]. split; [vm_compute; reflexivity|].
  split; vm_compute; reflexivity.
Qed.

Lemma record_nv r tags : TagList_Parse [] r = (tags, Ok tt) -> record_tags r (nv tags).
Proof.
  intros P. destruct (TagList_Parse_cases [] r) as [(ents & P' & G & [ND _] & _)|((t2 & P') & _)]; rewrite P' in P; [|discriminate].
  injection P as <-. split; auto.
Qed.
Lemma unknown_hash : exists t r l hv vs, record_tags r l /\ has l "h" hv /\ list_wide vs hv /\
  ~ In (str "sha256") vs /\ verify toy true t r = Ok tt.
Proof.
  exists (sample_message "rsa-sha256" rsa_b), (esc "h=sha512;p=S0VZ"). do 3 eexists.
  split; [apply record_nv; vm_compute; reflexivity|]. split; [left; vm_compute; reflexivity|]. split; [apply ValueList_wide; vm_compute; reflexivity|].
  split; [intros [K|[]]; discriminate|vm_compute; reflexivity].
Qed.
