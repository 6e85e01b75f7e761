(** Concrete cases for C114. *)
From Verif Require Import Bytes Outcome Stream TagList MailParser Canonicalization Util CStdlib Crypto Signature Validatory BytesFacts SpecText SpecTags SpecMail SpecVerify SpecSig SpecParse TagListFacts SigFacts SigProps SpecPass PassFacts SpecReuse ReuseFacts
  Narrow SpecNarrow NarrowFacts VerifyExamples LookedExamples Examples ListWide.
Local Open Scope string_scope. Local Open Scope list_scope.

Definition modest_tag (p : bytes * bytes) : bool :=
  if beqb (fst p) (str "l") || beqb (fst p) (str "i") then match snd p with [] => false | v => forallb is_digit v && (dec_value v <=? narrow_max)%N end else true.
Lemma modest_by l : forallb modest_tag l = true -> modest_numbers l.
Proof.
  intros F. assert (K : forall n v neg m, n = "l" \/ n = "i" -> has l n v -> starts_number v neg m -> neg = false /\ (m <= narrow_max)%N).
  { intros n v neg m N I S. rewrite forallb_forall in F. specialize (F _ I). unfold modest_tag in F. cbn [fst snd] in F.
    replace (beqb (str n) (str "l") || beqb (str n) (str "i")) with true in F by (destruct N as [->| ->]; reflexivity).
    destruct v as [|c v]; [discriminate|]. apply andb_prop in F as [D B]. apply N.leb_le in B.
    assert (DV : digits (c :: v)). { split; [discriminate|]. apply Forall_forall. intros x I2. rewrite forallb_forall in D. apply is_digit_spec. apply D. exact I2. }
    assert (A : starts_number (c :: v) false (dec_value (c :: v))) by (exists (c :: v), []; rewrite app_nil_r; split; [reflexivity|split; [constructor; exact DV|exact Logic.I]]).
    destruct (starts_fun _ _ _ _ _ A S) as [<- <-]. auto. }
  split; intros v neg m I S; [exact (K "l" v neg m (or_introl eq_refl) I S)|]. destruct (K "i" v neg m (or_intror eq_refl) I S). assumption.
Qed.
Definition timed (more : string) : header := mkHeader (esc "DKIM-Signature") (plain_text more) 15.
Definition read_wide (now : Z) (more : string) : outcome unit := snd (Signature_Parse toy true now (timed more) (new_signature, false)).
Definition read_narrow (now : Z) (more : string) : outcome unit := snd (Signature_Parse_long narrow_max toy true now (timed more) (new_signature, false)).
Ltac tags := apply field_tags_nv; [apply Nat.leb_le; vm_compute; reflexivity|vm_compute; reflexivity].
Lemma narrow_fine : exists h l, field_tags h l /\ modest_numbers l /\ has l "x" (str "4294967296") /\ snd (Signature_Parse toy true 2147483647 h (new_signature, false)) = Ok tt.
Proof.
  exists (timed "; l=5; x=4294967296"). eexists. split; [tags|]. split; [apply modest_by; vm_compute; reflexivity|]. split; [vm_compute; auto 20|vm_compute; reflexivity].
Qed.
Lemma late : exists h l, field_tags h l /\ has l "x" (str "4294967295") /\ lacks l "l" /\ lacks l "i" /\
  snd (Signature_Parse toy true 2147483648 h (new_signature, false)) = Ok tt /\ snd (Signature_Parse_long narrow_max toy true 2147483648 h (new_signature, false)) = perm.
Proof.
  exists (timed "; x=4294967295"). eexists. split; [tags|]. split; [vm_compute; auto 20|].
  split; [unfold lacks; rewrite <- memb_In; vm_compute; discriminate|]. split; [unfold lacks; rewrite <- memb_In; vm_compute; discriminate|]. split; vm_compute; reflexivity.
Qed.
Lemma long_body : exists h l, field_tags h l /\ has l "l" (str "4294967296") /\
  snd (Signature_Parse toy true 1 h (new_signature, false)) = Ok tt /\ snd (Signature_Parse_long narrow_max toy true 1 h (new_signature, false)) = perm.
Proof. exists (timed "; l=4294967296"). eexists. split; [tags|]. split; [vm_compute; auto 20|]. split; vm_compute; reflexivity. Qed.
Lemma wrapped : exists h l, field_tags h l /\ has l "l" (str "-4294967295") /\
  snd (Signature_Parse toy true 1 h (new_signature, false)) = perm /\
  exists g e, Signature_Parse_long narrow_max toy true 1 h (new_signature, false) = ((g, e), Ok tt) /\ sg_limit g = true /\ sg_size g = 1%N.
Proof.
  exists (timed "; l=-4294967295"). eexists. split; [tags|]. split; [vm_compute; auto 20|]. split; [vm_compute; reflexivity|].
  do 2 eexists. split; [vm_compute; reflexivity|]. split; reflexivity.
Qed.
