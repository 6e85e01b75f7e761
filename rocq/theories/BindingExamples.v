(** A case for the theorems of PropsBinding: primitives whose digest is the text itself, so that a
    signature says what it was made for. *)
From Verif Require Import Bytes Outcome Stream Tokenizer Base64 Base64Facts TagList MailParser Canonicalization Util CStdlib Crypto Signature PublicKey
  SignatoryOptions Signatory Validatory SpecText SpecTags SpecMail SpecCanon SpecVerify SpecSig SpecOptions SpecSign BytesFacts MailFacts SelectFacts TagListFacts
  SigFacts SigProps VerifyFacts VerifyProps OptionsFacts SignRound SignProps AddressClean VerifyExamples Examples SignExamples SpecBinding BindingProps QPFacts.

Definition frank : crypto := {|
  c_sha1 := fun d => d;
  c_sha256 := fun d => d;
  c_rsa_sign := c_rsa_sign toy;
  c_rsa_verify := c_rsa_verify toy;
  c_ed_sign := c_ed_sign toy;
  c_ed_verify := c_ed_verify toy;
  c_seed_keypair := c_seed_keypair toy;
  c_d2i_pubkey := c_d2i_pubkey toy;
  c_pem_private := c_pem_private toy;
  c_der_private := c_der_private toy;
  c_b64_junk := c_b64_junk toy |}.
Lemma frank_signs : signs_something frank.
Proof. exact toy_signs. Qed.

Definition frank_options : options := with_rsa [SetCanonModeHeader RELAXED; SetCanonModeBody RELAXED; SetExpiration 10 false].
Definition five : nat -> Z := fun _ => 5%Z.
Definition frank_field : bytes :=
  match CreateSignature frank true five frank_options (new_signatory (open_str letter)) with (_, Ok H) => H | _ => [] end.
(** The letter on its way: other folding and spacing, and a field put before it. *)
Definition received : bytes := esc "Received: by mx\r\n" ++ frank_field ++ CRLF ++ esc "FROM :  a@ex.org \r\nSubject:\r\n\t x\r\n\r\nhi  \r\n\r\n".
(** The signature data, and what they are for. *)
Definition frank_b : bytes := Eval vm_compute in
  match new_validatory true V_DKIM (open_str received) with
  | Ok v => match v_sigs v with
            | h :: _ => match GetSignature frank true 7 h (new_signature, false) v with (_, (g, _), Ok _) => sg_b g | _ => [] end
            | [] => []
            end
  | _ => []
  end.
Definition frank_pub : public_key := fst (PublicKey_Parse frank true rsa_record new_public_key).

Lemma Forall_b {A} (f : A -> bool) (P : A -> Prop) l : (forall a, f a = true -> P a) -> forallb f l = true -> Forall P l.
Proof. intros K F. rewrite forallb_forall in F. apply Forall_forall. auto. Qed.
Lemma frank_sound : Forall (sound_options true frank_options) (all_signatures frank_options).
Proof.
  apply Forall_forall. intros q [<-|[]]. apply (one_sound (esc "ex.org") (esc "s1")).
  1-7: vm_compute; reflexivity.
  - left. vm_compute. reflexivity.
  - vm_compute. reflexivity.
Qed.
Lemma letter_names m s : parse_all new_message (open_str letter) = Ok (m, s) ->
  listed_names h_name frank_options (m_headers m) = [str "subject"; str "from"].
Proof.
  intros P. assert (E : match parse_all new_message (open_str letter) with Ok (m, _) => listed_names h_name frank_options (m_headers m) | _ => [] end = [str "subject"; str "from"])
    by (vm_compute; reflexivity). rewrite P in E. exact E.
Qed.
Lemma frank_text : exists m d outs q, signed_text frank true five frank_options letter m 0 q outs d /\ frank_b = chr 2 :: d ++ esc "KEY".
Proof.
  destruct (parse_all new_message (open_str letter)) as [[m s]| | |] eqn:PA; try (vm_compute in PA; discriminate).
  destruct (CreateSignature frank true five frank_options (new_signatory (open_str letter))) as [y r] eqn:CS.
  assert (EH : r = Ok frank_field). { apply (f_equal snd) in CS. cbn [snd] in CS. rewrite <- CS. vm_compute. reflexivity. }
  subst r. pose proof (letter_names _ _ PA) as LN.
  pose proof letter_start as NW.
  assert (SN : Forall signable_name (listed_names h_name frank_options (m_headers m))).
  { rewrite LN. constructor; [|constructor; [|constructor]]; apply is_signable; vm_compute; reflexivity. }
  assert (WD : o_chead frank_options = RELAXED -> Forall (Forall (fun c => ~ WSP c)) (listed_names h_name frank_options (m_headers m))).
  { intros _. rewrite LN. apply (Forall_b (forallb (fun c => negb (is_wsp c)))); [|vm_compute; reflexivity]. intros n. apply Forall_b.
    intros c E W. apply negb_true_iff in E. apply is_wsp_WSP in W. congruence. }
  destruct (signer_text _ _ _ _ _ _ _ _ _ frank_signs NW PA CS frank_sound SN WD) as (m' & s' & PA' & K).
  destruct (nth_error (rev (all_signatures frank_options)) 0) as [q|] eqn:NQ; [|vm_compute in NQ; discriminate].
  destruct (K 0 q NQ) as (h & pre & b & post & outs & d & x & NI & TA & ST & MK & UB). exists m, d, outs, q. split; auto.
  assert (EX : x = chr 2 :: d ++ esc "KEY").
  { unfold make_signature in MK. assert (QA : so_alg q = RSA /\ so_rsa q = Some (esc "KEY")).
    { assert (Q : option_map (fun q => (so_alg q, so_rsa q)) (nth_error (rev (all_signatures frank_options)) 0) = Some (RSA, Some (esc "KEY"))) by (vm_compute; reflexivity).
      rewrite NQ in Q. cbn [option_map] in Q. injection Q as Q1 Q2. auto. }
    destruct QA as [QA QK]. rewrite QA, QK in MK. cbn [c_rsa_sign frank toy] in MK. apply Ok_inj in MK. rewrite <- MK.
    assert (DG : o_digest frank_options = SHA256) by (vm_compute; reflexivity). rewrite DG. reflexivity. }
  rewrite <- EX. clear EX.
  assert (HH : exists h0 g0 e1, nth_error (m_headers m') 0 = Some h0 /\ Signature_Parse frank true 7 h0 (new_signature, false) = ((g0, e1), Ok tt) /\ small_field h0 /\
    sg_b g0 = frank_b).
  { assert (E : match parse_all new_message (open_str (frank_field ++ CRLF ++ letter)) with
      | Ok (m', _) => match nth_error (m_headers m') 0 with
                      | Some h0 => match Signature_Parse frank true 7 h0 (new_signature, false) with
                                   | ((g0, _), Ok tt) => (Z.of_nat (length (h_text h0)) <? 2147483648)%Z && beqb (sg_b g0) frank_b
                                   | _ => false end
                      | None => false end
      | _ => false end = true) by (vm_compute; reflexivity).
    rewrite PA' in E. destruct (nth_error (m_headers m') 0) as [h0|]; [|discriminate].
    destruct (Signature_Parse frank true 7 h0 (new_signature, false)) as [[g0 e1] [[]| | |]] eqn:SP; [|discriminate E|discriminate E|discriminate E].
    apply andb_true_iff in E as [E1 E2]. exists h0, g0, e1. split; auto. split; auto. split.
    - unfold small_field. apply Z.ltb_lt in E1. lia.
    - apply beqb_eq in E2. exact E2. }
  destruct HH as (h0 & g0 & e1 & NI0 & SP & SF & EB). rewrite NI in NI0. injection NI0 as <-. rewrite <- EB.
  destruct (b_only _ _ _ _ _ _ _ _ _ _ SP SF TA) as (_ & EG & _). rewrite EG, UB. apply Base64_round.
Qed.

(** The owner of the key has signed the letter once. *)
Definition frank_owner (strict : bool) (clock : nat -> Z) (o : options) (t : bytes) (i : nat) : Prop :=
  strict = true /\ clock = five /\ o = frank_options /\ t = letter /\ i = 0.
Definition frank_unforged (g : signature) : Prop := forall d, accepted frank g frank_pub (digest frank (sg_digest g) d) ->
  exists strict clock o t m i q outs, frank_owner strict clock o t i /\ signed_text frank strict clock o t m i q outs d /\
    ((o_chead o = RELAXED /\ sg_chead g = RELAXED) \/ ~ starts_wsp received).
Lemma frank_case : exists v0 h g e1 v', new_validatory true V_DKIM (open_str received) = Ok v0 /\ In h (v_sigs v0) /\ small_field h /\
  GetSignature frank true 7 h (new_signature, false) v0 = (v', (g, e1), Ok tt) /\
  PublicKey_Parse frank true rsa_record new_public_key = (frank_pub, Ok tt) /\ CheckSignature frank true h g frank_pub v' = Ok tt /\ frank_unforged g.
Proof.
  destruct (new_validatory true V_DKIM (open_str received)) as [v0| | |] eqn:NV; try (vm_compute in NV; discriminate).
  assert (E : match new_validatory true V_DKIM (open_str received) with
    | Ok v => match v_sigs v with
      | h :: _ => match GetSignature frank true 7 h (new_signature, false) v with
                  | (v', (g, _), Ok tt) => (Z.of_nat (length (h_text h)) <? 2147483648)%Z &&
                      match CheckSignature frank true h g frank_pub v' with Ok tt => true | _ => false end &&
                      match sg_alg g, sg_digest g, sg_chead g with RSA, SHA256, RELAXED => true | _, _, _ => false end && beqb (sg_b g) frank_b
                  | _ => false end
      | [] => false end
    | _ => false end = true) by (vm_compute; reflexivity).
  destruct frank_text as (m & d & outs & q & ST & EX). rewrite NV in E.
  destruct (v_sigs v0) as [|h hs] eqn:VS; [discriminate|].
  destruct (GetSignature frank true 7 h (new_signature, false) v0) as [[v' [g e1]] [[]| | |]] eqn:GS; [|discriminate E|discriminate E|discriminate E].
  apply andb_true_iff in E as [E EB]. apply beqb_eq in EB. apply andb_true_iff in E as [E E3]. apply andb_true_iff in E as [E1 E2].
  exists v0, h, g, e1, v'. split; auto. split; [rewrite VS; left; reflexivity|]. split; [unfold small_field; apply Z.ltb_lt; exact E1|]. split; auto.
  split; [vm_compute; reflexivity|]. split.
  - destruct (CheckSignature frank true h g frank_pub v') as [[]| | |]; [reflexivity|discriminate E2|discriminate E2|discriminate E2].
  - intros d' AC. destruct (sg_alg g) eqn:A; [|discriminate E3]. destruct (sg_digest g) eqn:DG; [discriminate E3|]. destruct (sg_chead g) eqn:CH; [discriminate E3|].
    unfold accepted in AC. rewrite A, DG in AC. destruct AC as (k & PK & VR).
    assert (KK : k = esc "KEY"). { assert (X : pk_rsa frank_pub = Some (esc "KEY")) by (vm_compute; reflexivity). rewrite PK in X. apply (f_equal (fun z => match z with Some y => y | None => [] end)) in X. exact X. }
    subst k. cbn [c_rsa_verify frank toy digest c_sha256] in VR. apply beqb_eq in VR. rewrite EB, EX in VR. apply (f_equal (@tl ascii)) in VR. cbn [tl] in VR. apply app_inv_tail in VR. subst d'.
    exists true, five, frank_options, letter, m, 0, q, outs. split; [repeat split; reflexivity|]. split; [exact ST|]. left. split; [vm_compute; reflexivity|reflexivity].
Qed.
