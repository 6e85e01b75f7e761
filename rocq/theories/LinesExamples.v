(** Examples for C118. *)
From Verif Require Import Bytes Outcome Stream MailParser Canonicalization Util Crypto SignatoryOptions Signatory Validatory
  SpecText SpecMail SpecCanon SpecVerify SpecPass SpecSign SpecMade SpecLines BytesFacts MailFacts BodyFacts VerifyProps MadeFacts LinesFacts MadeExamples VerifyExamples SignExamples
  FieldsExamples OutcomeExamples Examples.

Lemma le_bytes_length n : forall v, length (le_bytes n v) = n.
Proof. induction n as [|n IH]; intros v; cbn [le_bytes length]; [reflexivity|]. rewrite IH. reflexivity. Qed.
Lemma toy_digest o d : length (digest toy (o_digest o) d) <= 64.
Proof. destruct (o_digest o); cbn [digest toy c_sha1 c_sha256]; unfold toy_hash; rewrite le_bytes_length; lia. Qed.
Lemma letter_has : exists fs, has_fields letter fs /\ fs = letter_fields.
Proof. destruct letter_parsed as (m & s & P & HM). exists (m_headers m). split; [eapply parse_fields; eauto|exact HM]. Qed.

(** All lines of the field of the example are short. *)
Lemma full_short : lines_within 998 full_made_text.
Proof.
  destruct letter_has as (fs & HF & ->).
  assert (CS : snd (CreateSignature toy true (fun _ => 5%Z) full (new_signatory (open_str letter))) = Ok full_made_text) by (vm_compute; reflexivity).
  eapply usual_short; [exact HF|exact CS|reflexivity|reflexivity|apply toy_digest|apply Nat.leb_le; vm_compute; reflexivity| |].
  - apply Forall_forall. intros q I. apply Nat.leb_le. revert q I. apply forallb_forall. vm_compute. reflexivity.
  - rewrite letter_fields_are. apply Forall_forall. intros q I. apply Nat.leb_le. revert q I. apply forallb_forall. vm_compute. reflexivity.
Qed.
Lemma full_case : snd (CreateSignature toy true (fun _ => 5%Z) full (new_signatory (open_str letter))) = Ok full_made_text /\ lines_within 998 full_made_text /\ has_fields letter letter_fields.
Proof.
  split; [vm_compute; reflexivity|]. split; [exact full_short|]. destruct letter_has as (fs & HF & <-). exact HF.
Qed.
(** An identity with a local part of a thousand letters. *)
Definition long_calls : list op := rsa_calls ++ [SetIdentity (repeat (chr 97) 1000 ++ esc "@ex.org")].
Definition long_options : options := run_ops toy long_calls new_options.
Definition result : options -> outcome bytes := fun o => snd (CreateSignature toy true (fun _ => 5%Z) o (new_signatory (open_str letter))).
Lemma long_taken : match result long_options with Ok x => accepts toy true V_DKIM 5 (x ++ CRLF ++ letter) 0 rsa_pub | _ => perm end = Ok tt.
Proof. vm_compute. reflexivity. Qed.
Definition too_wide (o : options) : Prop := (o_arc o <? 18446744073709551616)%N = true /\
  forallb (forallb (fun c => negb (c =?c CR) && negb (c =?c LF))) (listed_names h_name o letter_fields) = true /\ o_signlen o = false /\ Nat.leb (length (i_text o)) 998 = false.
Lemma long_wide : too_wide long_options.
Proof. vm_compute. repeat split. Qed.
Lemma wide_long l o : o = run_ops toy l new_options -> too_wide o ->
  match result o with Ok x => accepts toy true V_DKIM 5 (x ++ CRLF ++ letter) 0 rsa_pub | _ => perm end = Ok tt ->
  exists H, result o = Ok H /\ accepts toy true V_DKIM 5 (H ++ CRLF ++ letter) 0 rsa_pub = Ok tt /\ ~ lines_within 998 H.
Proof.
  intros EO (A & U & SL & K) T. destruct (result o) as [H| | |] eqn:E; try discriminate T. exists H. split; [reflexivity|]. split; [exact T|]. clear T.
  unfold result in E. destruct letter_has as (fs & HF & EF). rewrite <- EF in U. clear EF. intros LW. apply N.ltb_lt in A. pose proof (toy_digest o) as DG. rewrite EO in *.
  apply (built_exact toy true _ l letter fs 998 H HF E ltac:(lia) A DG) in LW.
  - rewrite <- EO in *. destruct LW as [_ D]. apply Nat.leb_gt in K. apply (Nat.lt_irrefl 998). eapply Nat.lt_le_trans; [exact K|].
    eapply Nat.le_trans; [|apply (D (o_main o)); [left; reflexivity|exists (i_text o), []; split; [apply i_exact; reflexivity|split; [|reflexivity]]; rewrite SL; reflexivity]].
    cbn [length]. rewrite !app_length. lia.
  - apply Forall_forall. intros x I. rewrite forallb_forall in U. specialize (U x I). apply Forall_forall. intros c J. rewrite forallb_forall in U.
    specialize (U c J). apply andb_true_iff in U as [P Q]. apply negb_true_iff in P, Q. apply ceqb_neq in P, Q. auto.
Qed.
Lemma wide_refuted l o : o = run_ops toy l new_options -> too_wide o ->
  match result o with Ok x => accepts toy true V_DKIM 5 (x ++ CRLF ++ letter) 0 rsa_pub | _ => perm end = Ok tt ->
  exists l t p H, snd (CreateSignature toy true (fun _ => 5%Z) (run_ops toy l new_options) (new_signatory (open_str t))) = Ok H /\
    accepts toy true V_DKIM 5 (H ++ CRLF ++ t) 0 p = Ok tt /\ lines_within 998 t /\ ~ lines_within 998 H.
Proof.
  intros EO W T. destruct (wide_long l o EO W T) as (H & E & A & N). exists l, letter, rsa_pub, H. rewrite <- EO. split; [exact E|]. split; [exact A|]. split; [|exact N].
  apply lw_last. apply Nat.leb_le. vm_compute. reflexivity.
Qed.
Lemma long_refuted : exists l t p H, snd (CreateSignature toy true (fun _ => 5%Z) (run_ops toy l new_options) (new_signatory (open_str t))) = Ok H /\
  accepts toy true V_DKIM 5 (H ++ CRLF ++ t) 0 p = Ok tt /\ lines_within 998 t /\ ~ lines_within 998 H.
Proof. exact (wide_refuted long_calls long_options eq_refl long_wide long_taken). Qed.
