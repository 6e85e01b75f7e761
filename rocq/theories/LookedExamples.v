(** Concrete cases for C111. *)
From Verif Require Import Bytes Outcome Stream Base64 Tokenizer TagList MailParser Canonicalization Util Crypto Signature PublicKey Validatory
  SpecText SpecTags SpecSig SpecKey TagListFacts KeyFacts SigFacts SigProps SpecLooked VerifyExamples Examples.

(** A signature made at 99 that was valid until 50; the clock shows 1. *)
Definition odd_field (b : bytes) : bytes :=
  esc "DKIM-Signature: v=1; a=rsa-sha256; d=ex.org; s=s1; t=99; x=50; h=From; bh=" ++ sample_bh ++ esc "; b=" ++ b.
Definition odd_b : bytes := Base64_Encode (chr 2 :: toy_hash 32 (sample_from ++ CRLF ++ odd_field []) ++ esc "KEY").
Definition odd_message : bytes := odd_field odd_b ++ CRLF ++ sample_from ++ CRLF ++ CRLF ++ sample_body.
Lemma odd_times : exists t v h l, new_validatory true V_DKIM (open_str t) = Ok v /\ v_sigs v = [h] /\ field_tags h l /\
  has l "t" (str "99") /\ has l "x" (str "50") /\ verify toy true t rsa_record = Ok tt.
Proof.
  exists odd_message. eexists. exists (mkHeader (esc "DKIM-Signature") (odd_field odd_b) 15). eexists.
  split; [vm_compute; reflexivity|]. split; [vm_compute; reflexivity|].
  split; [apply field_tags_nv; [apply Nat.leb_le; vm_compute; reflexivity|vm_compute; reflexivity]|].
  split; [vm_compute; auto 20|]. split; [vm_compute; auto 20|vm_compute; reflexivity].
Qed.

Definition plain_text (more : string) : bytes := esc "DKIM-Signature: v=1; a=rsa-sha256; d=ex.org; s=s1; h=From; bh=QUJD; b=QUJD" ++ str more.
Lemma in_end n v l x : has l n v -> has (l ++ x) n v. Proof. intros I. apply in_or_app. left. exact I. Qed.
Lemma idle_tags : exists h h' l x, h_name h' = h_name h /\ field_tags h l /\ field_tags h' (l ++ x) /\ x <> [] /\ agree looked_at l (l ++ x) /\
  snd (Signature_Parse toy true 1 h (new_signature, false)) = Ok tt.
Proof.
  exists (mkHeader (esc "DKIM-Signature") (plain_text "") 15), (mkHeader (esc "DKIM-Signature") (plain_text "; t=99; z=a") 15). eexists. exists [(str "t", str "99"); (str "z", str "a")].
  split; [reflexivity|]. split; [apply field_tags_nv; [apply Nat.leb_le; vm_compute; reflexivity|vm_compute; reflexivity]|].
  split; [eapply (eq_rect _ (field_tags _)); [apply field_tags_nv; [apply Nat.leb_le; vm_compute; reflexivity|vm_compute; reflexivity]|vm_compute; reflexivity]|]. split; [discriminate|]. split; [|vm_compute; reflexivity].
  intros n v I. split; [apply in_end|]. intros K. apply in_app_or in K as [K|K]; [exact K|]. exfalso. cbn [looked_at In] in I.
  destruct K as [K|[K|[]]]; injection K as K _; repeat (destruct I as [<-|I]; [discriminate K|]); exact I.
Qed.
Lemma idle_key : exists r r' l x, record_tags r l /\ record_tags r' (l ++ x) /\ x <> [] /\ agree key_looked_at l (l ++ x) /\
  snd (PublicKey_Parse toy true r new_public_key) = Ok tt.
Proof.
  exists (esc "p=S0VZ"), (esc "p=S0VZ; n=note; g="). eexists. exists [(str "n", str "note"); (str "g", [])].
  split; [apply record_nv; vm_compute; reflexivity|]. split; [eapply (eq_rect _ (record_tags _)); [apply record_nv; vm_compute; reflexivity|vm_compute; reflexivity]|]. split; [discriminate|]. split; [|vm_compute; reflexivity].
  intros n v I. split; [apply in_end|]. intros K. apply in_app_or in K as [K|K]; [exact K|]. exfalso. cbn [key_looked_at In] in I.
  destruct K as [K|[K|[]]]; injection K as K _; repeat (destruct I as [<-|I]; [discriminate K|]); exact I.
Qed.
