(** Verifying runs (for C101). *)
From Verif Require Import PassFacts Bytes Outcome Stream Base64 TagList MailParser Canonicalization Util Crypto Signature PublicKey SignatoryOptions Signatory Validatory Tool ErrorText Reasons
  SpecText SpecTags SpecMail SpecCanon SpecSig SpecParse SpecReason SpecPass SpecStop SpecTool SpecEight SpecVerdict ToolArgs ToolNumbers VerdictCore VerdictRun Examples VerifyExamples ReasonExamples ToolExamples EightExamples.
Local Open Scope string_scope. Local Open Scope list_scope.

(** A key in testing mode; no answer for other names. *)
Definition answers (q : bytes) : bool * bytes :=
  if beqb q (str "s1._domainkey.ex.org") then (true, rsa_record ++ str "; t=y") else (false, []).
Lemma small_ones : small_files files [str "signed"; str "nofile"; str "forged"; str "two"].
Proof.
  assert (X : forallb (fun f => match files f with Some t => (Z.of_nat (length t) <? 1073741824)%Z | None => true end) [str "signed"; str "nofile"; str "forged"; str "two"] = true) by (vm_compute; reflexivity).
  intros f t I E. rewrite forallb_forall in X. specialize (X f I). cbv beta in X. rewrite E in X. apply small_text, Z.ltb_lt. exact X.
Qed.
Lemma run_case : verifying_run toy false now5 answers files V_DKIM [str "signed"; str "nofile"; str "forged"; str "two"] 0 false
  (esc "[signed][ex.org][s1] OK\n[forged][ex.org][s1](fail) SOFT:Signature did not verify\n[two][ex.org][](permerror) = Invalid body signed length; exceeds available storage size of unsigned long (l)\n[two][ex.org][](permerror) = Invalid body signed length; exceeds available storage size of unsigned long (l)\n") (Exit 0).
Proof. apply files_exact; [discriminate|exact small_ones|]. split; vm_compute; reflexivity. Qed.
Definition lost_files (f : bytes) : option bytes := if beqb f (str "utf8") then Some utf8_mail else if beqb f (str "short") then Some (sample_message "ed25519-sha256" (esc "YQ==")) else Some good_mail.
Definition ed_answers (q : bytes) : bool * bytes := (true, ed_record).
Lemma small_lost : small_files lost_files [str "good"; str "utf8"] /\ small_files lost_files [str "short"; str "good"].
Proof.
  assert (X : forallb (fun f => match lost_files f with Some t => (Z.of_nat (length t) <? 1073741824)%Z | None => true end) [str "good"; str "utf8"; str "short"] = true) by (vm_compute; reflexivity).
  rewrite forallb_forall in X.
  assert (Y : forall f t, In f [str "good"; str "utf8"; str "short"] -> lost_files f = Some t -> small_fields t).
  { intros f t I E. specialize (X f I). cbv beta in X. rewrite E in X. apply small_text, Z.ltb_lt. exact X. }
  split; intros f t I; apply Y; cbn [In] in *; tauto.
Qed.
(** A line, and then a name in UTF-8; signature data that are too short. *)
Lemma lost_case : verifying_run toy true now5 answers lost_files V_DKIM [str "good"; str "utf8"] 0 false (esc "[good][ex.org][s1] OK\n") (Undefined UB_ctype) /\
  verifying_run toy false now5 ed_answers lost_files V_DKIM [str "short"; str "good"] 0 false [] (Undefined UB_oob_read).
Proof. split; (apply files_exact; [discriminate|apply small_lost|]); split; vm_compute; reflexivity. Qed.
Lemma settings_case : all_settings [Validate] (mkArgs true [] [] [] (str "rsa") V_DKIM 0 false) /\
  exists a, all_settings [Instance (str " -1"); Validate; Instance (str "99999999999999999999x"); Instance (esc "\t7th")] a /\ a_instance a = 7%N /\ a_errno a = true.
Proof.
  assert (K : forall ss a, Forall usual ss -> take_options (map event ss) new_args = inl a -> all_settings ss a).
  { intros ss a U T. destruct (take_all ss U) as (a' & T' & AS). rewrite T in T'. injection T' as ->. exact AS. }
  split; [apply K; [repeat constructor; discriminate|reflexivity]|].
  eexists. split; [apply K; [repeat constructor; discriminate|vm_compute; reflexivity]|]. split; vm_compute; reflexivity.
Qed.
