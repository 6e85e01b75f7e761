(** A letter that is signed, relayed, and signed again (for C108). *)
From Verif Require Import Bytes Outcome Stream Base64 TagList MailParser Canonicalization Util Crypto Signature PublicKey SignatoryOptions Signatory
  Validatory BytesFacts SpecText SpecTags SpecMail SpecCanon SpecVerify SpecSig SpecKey SpecOptions SpecSign SpecTransit SpecTransport SpecRelay SelectFacts ListFacts MailFacts
  BodyFacts QPFacts HeaderFacts VerifyFacts VerifyProps SignText SignFacts SignMail SignRound SignExamples VerifyExamples TransitFacts TransitExamples TransportExamples AddressClean Examples.

Definition at5 : nat -> Z := fun _ => 5%Z.
Definition made (o : options) (u : bytes) : bytes := match sign toy o u with Ok H => H | _ => [] end.
Definition fields_in (u : bytes) : list header := match parse_all new_message (open_str u) with Ok (m, _) => m_headers m | _ => [] end.

Definition list_server : options := with_rsa [AddHeaders [esc "DKIM-Signature"; esc "Received"]; SetCanonModeBody RELAXED].
Definition guarded : options := with_rsa [SetOversignHeaders [esc "arc-message-signature"]].
Definition sealer : options := with_rsa [SetARCInstance 1].

Definition no_wsp (u : bytes) : bool := match u with c :: _ => negb (is_wsp c) | [] => true end.
Definition plain_field_name (n : bytes) : bool :=
  negb (beqb n []) && forallb (fun c => negb (c =?c COLON) && negb (c =?c SEMI) && (32 <? code c)%N && (code c <? 127)%N) n.
Lemma no_start u : no_wsp u = true -> ~ starts_wsp u.
Proof. intros E (c & r & -> & W). cbn in E. apply is_wsp_WSP in W. rewrite W in E. discriminate. Qed.
Definition from_taken (o : options) (h : header) : bool := choice o (h_name h) && same_name (h_name h) (str "from").
Definition over_fits (o : options) (hs : list header) (n : bytes) : bool :=
  plain_field_name n && negb (same_name n (field_name o)) && forallb (fun h => negb (same_name (h_name h) n) || choice o (h_name h)) hs.
Lemma fits o hs : forallb (fun h => plain_field_name (h_name h)) hs = true -> forallb (over_fits o hs) (o_oversign o) = true ->
  existsb (from_taken o) hs = true -> sound_fields h_name o hs.
Proof.
  intros A B D. rewrite forallb_forall in A, B. constructor.
  - intros h I _. apply is_signable. apply A. exact I.
  - intros n I. specialize (B n I). unfold over_fits in B. rewrite !andb_true_iff, negb_true_iff in B. destruct B as ((B1 & B2) & B3).
    split; [apply is_signable; exact B1|]. split; [exact B2|]. intros h IH S. rewrite forallb_forall in B3. specialize (B3 h IH). rewrite S in B3. cbn in B3.
    apply choice_chosen. exact B3.
  - left. apply existsb_exists in D as (h & I & E). unfold from_taken in E. apply andb_true_iff in E as [E1 E2]. exists h. split; [exact I|].
    split; [apply choice_chosen; exact E1|exact E2].
Qed.
Lemma sealer_sound : Forall (sound_options true sealer) (all_signatures sealer).
Proof.
  change (all_signatures sealer) with [o_main sealer]. constructor; [|constructor]. constructor.
  - apply is_dotted. vm_compute. reflexivity.
  - apply is_dotted. vm_compute. reflexivity.
  - reflexivity.
  - intros _. vm_compute. reflexivity.
  - intros _. vm_compute. split; [discriminate|reflexivity].
  - intros X. exfalso. apply X. vm_compute. reflexivity.
  - intros X. vm_compute in X. discriminate.
Qed.
Lemma step_signer o l u H w hs : w = H ++ CRLF ++ u -> (exists m s, parse_all new_message (open_str u) = Ok (m, s) /\ m_headers m = hs) ->
  (exists y, CreateSignature toy true at5 o (new_signatory (open_str u)) = (y, Ok H)) ->
  Forall (sound_options true o) (all_signatures o) -> sound_fields h_name o hs -> no_wsp u = true -> passed toy true letter l u ->
  passed toy true letter (Signer o at5 H :: l) w.
Proof. intros -> (m & s & PA & HM) (y & CS) SO SF NW P. rewrite <- HM in SF. eapply passed_signer; eauto. apply no_start. exact NW. Qed.
Ltac parsed := do 2 eexists; split; vm_compute; reflexivity.
Ltac made_so := eexists; vm_compute; reflexivity.
Ltac fitting := apply fits; vm_compute; reflexivity.
Ltac sound_rsa o := change (all_signatures o) with [o_main o]; constructor; [|constructor];
  eapply (one_sound (esc "ex.org")); [vm_compute; reflexivity|reflexivity|vm_compute; reflexivity|vm_compute; reflexivity|
    vm_compute; reflexivity|vm_compute; reflexivity|vm_compute; reflexivity|left; vm_compute; reflexivity|vm_compute; reflexivity].

(** What is signed and what comes out, computed once. *)
Definition by_author : bytes := Eval vm_compute in made full letter.
Definition way1 : bytes := Eval vm_compute in by_author ++ CRLF ++ letter.
Definition way2 : bytes := Eval vm_compute in trace ++ way1.
Definition by_list : bytes := Eval vm_compute in made list_server way2.
Definition way3 : bytes := Eval vm_compute in by_list ++ CRLF ++ way2.
Definition by_sealer : bytes := Eval vm_compute in made sealer way3.
Definition way4 : bytes := Eval vm_compute in by_sealer ++ CRLF ++ way3.
Definition fields2 : list header := Eval vm_compute in fields_in way2.
Definition fields3 : list header := Eval vm_compute in fields_in way3.
Ltac signed := vm_compute; reflexivity.
Lemma way_author : passed toy true letter [Signer full at5 by_author] way1.
Proof. apply (step_signer full _ letter by_author _ letter_fields); [signed|parsed|made_so|exact full_sound|exact full_fields|signed|apply passed_none]. Qed.
Lemma way_letter : exists ls, passed toy true letter
  [Signer sealer at5 by_sealer; Signer list_server at5 by_list; Putter ls trace; Signer full at5 by_author] way4.
Proof.
  eexists.
  apply (step_signer sealer _ way3 _ _ fields3); [signed|parsed|made_so|exact sealer_sound|fitting|signed|].
  apply (step_signer list_server _ way2 _ _ fields2); [signed|parsed|made_so|sound_rsa list_server|fitting|signed|].
  change way2 with (trace ++ way1). apply passed_putter; [exact way_author|exact trace_block].
Qed.
(** Its signatures: that of the list server, the junk in the trace, the two of the author; that of the sealer is of the other type. *)
Lemma way_accepted : accepts toy true V_DKIM 5 way4 0 rsa_pub = Ok tt /\ accepts toy true V_DKIM 5 way4 1 rsa_pub <> Ok tt /\
  accepts toy true V_DKIM 5 way4 2 rsa_pub = Ok tt /\ accepts toy true V_DKIM 5 way4 3 rsa_pub = Ok tt /\ accepts toy true V_ARC 5 way4 0 rsa_pub = Ok tt.
Proof. split; [vm_compute; reflexivity|]. split; [vm_compute; discriminate|]. repeat (split; [vm_compute; reflexivity|]). vm_compute. reflexivity. Qed.

Definition by_guarded : bytes := Eval vm_compute in made guarded letter.
Definition own1 : bytes := Eval vm_compute in by_guarded ++ CRLF ++ letter.
Definition by_sealer1 : bytes := Eval vm_compute in made sealer own1.
Definition own2 : bytes := Eval vm_compute in by_sealer1 ++ CRLF ++ own1.
Definition own_fields : list header := Eval vm_compute in fields_in own1.
Lemma own_letter : passed toy true letter [Signer sealer at5 by_sealer1; Signer guarded at5 by_guarded] own2.
Proof.
  apply (step_signer sealer _ own1 _ _ own_fields); [signed|parsed|made_so|exact sealer_sound|fitting|signed|].
  apply (step_signer guarded _ letter _ _ letter_fields); [signed|parsed|made_so|sound_rsa guarded|fitting|signed|apply passed_none].
Qed.
Lemma own_refused : accepts toy true V_DKIM 5 own1 0 rsa_pub = Ok tt /\ accepts toy true V_DKIM 5 own2 0 rsa_pub = perm_fail /\ accepts toy true V_ARC 5 own2 0 rsa_pub = Ok tt.
Proof. repeat (split; [vm_compute; reflexivity|]). vm_compute. reflexivity. Qed.
Lemma not_spared : exists t o1 o2 H1 H2 u, passed toy true t [Signer o2 at5 H2; Signer o1 at5 H1] u /\
  (forall q, In q (all_signatures o1) -> serves toy o1 q rsa_pub) /\
  accepts toy true V_DKIM 5 (H1 ++ CRLF ++ t) 0 rsa_pub = Ok tt /\ accepts toy true V_DKIM 5 u 0 rsa_pub = perm_fail.
Proof.
  exists letter, guarded, sealer, by_guarded, by_sealer1, own2. split; [exact own_letter|]. split; [|change (by_guarded ++ CRLF ++ letter) with own1; split; apply own_refused].
  change (all_signatures guarded) with [o_main guarded]. intros q [<-|[]]. apply toy_rsa_serves; vm_compute; reflexivity.
Qed.
Definition by_list1 : bytes := Eval vm_compute in made list_server way1.
Definition twice : bytes := Eval vm_compute in by_list1 ++ CRLF ++ way1.
Definition fields1 : list header := Eval vm_compute in fields_in way1.
Lemma twice_letter : passed toy true letter [Signer list_server at5 by_list1; Signer full at5 by_author] twice /\
  only_signers [Signer list_server at5 by_list1] /\ spared full [Signer list_server at5 by_list1].
Proof.
  split; [|split].
  - apply (step_signer list_server _ way1 _ _ fields1); [signed|parsed|made_so|sound_rsa list_server|fitting|signed|exact way_author].
  - constructor; [|constructor]. do 3 eexists. reflexivity.
  - intros n o1 c1 H1 I [E|[]]. apply (f_equal (fun a => match a with Signer o _ _ => o | Putter _ _ => o1 end)) in E. cbv beta iota in E. rewrite <- E. change (o_oversign full) with [esc "from"; esc "x-missing"] in I. destruct I as [<-|[<-|[]]]; vm_compute; reflexivity.
Qed.
Lemma twice_accepted : accepts toy true V_DKIM 5 twice 0 rsa_pub = Ok tt /\ accepts toy true V_DKIM 5 twice 1 rsa_pub = Ok tt /\ accepts toy true V_DKIM 5 twice 2 rsa_pub = Ok tt.
Proof. repeat (split; [vm_compute; reflexivity|]). vm_compute. reflexivity. Qed.
