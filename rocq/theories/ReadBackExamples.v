(** C56: a case in which a field is read until it expires. *)
From Verif Require Import Bytes Outcome Stream MailParser Canonicalization Util Crypto Signatory SignatoryOptions Signature BytesFacts SpecText SpecTags SpecVerify SpecSig SpecCanon SpecOptions SpecSign
  SpecFields SpecLegible MailFacts SignProps SignExamples FieldsExamples AddressClean Examples.
Local Open Scope string_scope.
Local Open Scope list_scope.

Lemma full_legible : exists y H m s, parse_all new_message (open_str letter) = Ok (m, s) /\
  CreateSignature toy true (fun _ => 5%Z) full (new_signatory (open_str letter)) = (y, Ok H) /\
  Forall (plain_options full) (all_signatures full) /\ Forall signable_name (listed_names h_name full (m_headers m)) /\
  Forall (fun q => legible true full q (listed_names h_name full (m_headers m)) 5 15 false /\
                   ~ legible true full q (listed_names h_name full (m_headers m)) 5 16 false /\
                   ~ legible true full q (listed_names h_name full (m_headers m)) 5 15 true) (all_signatures full).
Proof.
  destruct full_says as (y & H & m & s & PA & CS & PO & SN & _). destruct letter_parsed as (m' & s' & PA' & HM).
  rewrite PA in PA'. assert (m' = m) as -> by (apply Ok_inj in PA'; congruence).
  exists y, H, m, s. repeat (split; [assumption|]). rewrite HM.
  assert (L : listed_names h_name full letter_fields = [esc "subject"; esc "from"; esc "from"; esc "x-missing"]) by (vm_compute; reflexivity). rewrite L.
  assert (E : expiry full 5 = 15%Z) by (vm_compute; reflexivity).
  assert (D : Forall (fun q => map low (so_domain q) = esc "ex.org") (all_signatures full)).
  { assert (X : map (fun q => map low (so_domain q)) (all_signatures full) = [esc "ex.org"; esc "ex.org"]) by (vm_compute; reflexivity).
    apply Forall_forall. intros q I. apply (in_map (fun q => map low (so_domain q))) in I. rewrite X in I. destruct I as [I|[I|[]]]; auto. }
  eapply Forall_impl; [|exact D]. intros q DQ. split; [|split].
  - constructor.
    + intros A. vm_compute in A. discriminate.
    + exists (esc "from"). split; [right; left; reflexivity|vm_compute; reflexivity].
    + vm_compute. discriminate.
    + intros _. exists (esc "me"), (esc "sub.ex.org"). split; [vm_compute; reflexivity|]. split; [apply find_char_None; vm_compute; reflexivity|].
      split; [rewrite DQ; right; exists (esc "sub"); vm_compute; reflexivity|]. intros _. apply Forall_forall. intros c I.
      assert (F : forallb (fun c => (code c <? 128)%N) (esc "sub.ex.org") = true) by (vm_compute; reflexivity).
      rewrite forallb_forall in F. apply N.ltb_lt. auto.
    + intros _. split; [vm_compute; reflexivity|reflexivity].
    + intros _. rewrite E. vm_compute. discriminate.
  - intros [_ _ _ _ _ T]. specialize (T ltac:(vm_compute; reflexivity)). rewrite E in T. vm_compute in T. apply T. reflexivity.
  - intros [_ _ _ _ X _]. destruct (X ltac:(vm_compute; reflexivity)) as [_ Y]. discriminate.
Qed.
