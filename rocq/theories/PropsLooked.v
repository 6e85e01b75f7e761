(** Property C111: tags that are looked at, and contradictory times. *)
From Verif Require Import Bytes Outcome Stream MailParser Crypto Signature PublicKey Validatory SpecSig SpecKey SpecLooked LookedFacts LookedExamples VerifyExamples Examples.

(** C111.  Of a signature only twelve tags are looked at: t=, the time of signing, is not one of them, so nothing is compared with it.  Two fields whose tags
    agree on the twelve give the same object, except for the list of tags itself, or the same error. *)
Theorem C111_looked : forall C strict now e h h' l l', field_tags h l -> field_tags h' l' -> h_name h' = h_name h -> agree looked_at l l' ->
  exists tags, Signature_Parse C strict now h' (new_signature, e) =
    (let r := Signature_Parse C strict now h (new_signature, e) in ((set_tags tags (fst (fst r)), snd (fst r)), snd r)).
Proof. exact looked_only. Qed.
Print Assumptions C111_looked.
Example C111_looked_case : exists h h' l x, h_name h' = h_name h /\ field_tags h l /\ field_tags h' (l ++ x) /\ x <> [] /\ agree looked_at l (l ++ x) /\
  snd (Signature_Parse toy true 1 h (new_signature, false)) = Ok tt.
Proof. exact idle_tags. Qed.
(** Of a key record six tags are looked at; with the others changed or left out every check of every message ends alike. *)
Theorem C111_key : forall C strict r r' l l' g h v, record_tags r l -> record_tags r' l' -> agree key_looked_at l l' -> r <> [] -> r' <> [] ->
  let k := GetPublicKey C strict (fun _ => Ok (true, r)) g new_public_key in let k' := GetPublicKey C strict (fun _ => Ok (true, r')) g new_public_key in
  snd k' = snd k /\ CheckSignature C strict h g (fst k') v = CheckSignature C strict h g (fst k) v /\ SoftFail (fst k') = SoftFail (fst k).
Proof. exact key_looked. Qed.
Print Assumptions C111_key.
Example C111_key_case : exists r r' l x, record_tags r l /\ record_tags r' (l ++ x) /\ x <> [] /\ agree key_looked_at l (l ++ x) /\
  snd (PublicKey_Parse toy true r new_public_key) = Ok tt.
Proof. exact idle_key. Qed.
(** A signature with x= before t= (forbidden by RFC 6376, 3.5), made in the future besides, is accepted. *)
Theorem C111_times_refuted : exists t v h l, new_validatory true V_DKIM (open_str t) = Ok v /\ v_sigs v = [h] /\ field_tags h l /\
  has l "t" (str "99") /\ has l "x" (str "50") /\ verify toy true t rsa_record = Ok tt.
Proof. exact odd_times. Qed.
Print Assumptions C111_times_refuted.
