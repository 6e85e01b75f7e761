(** Concrete reports for the examples beside C80. *)
From Verif Require Import Bytes Outcome Stream Base64 MailParser Util Crypto Signature PublicKey SignatoryOptions Signatory Validatory BytesFacts SpecText Tool ToolText SpecReport Reasons ReasonText
  Examples VerifyExamples SignExamples ToolExamples.

Definition lines (r : printed * ending) : list line := match r with (P_lines ls, _) => ls | _ => [] end.
Definition not_ok (l : line) : bool := match l_report l with R_OK => false | _ => true end.
Lemma not_ok_all ls : forallb not_ok ls = true -> Forall (fun l => l_report l <> R_OK) ls.
Proof. intros H. apply Forall_forall. intros l I. rewrite forallb_forall in H. specialize (H l I). unfold not_ok in H. destruct (l_report l); congruence. Qed.

Definition no_lf (a : bytes) : bool := negb (existsb (fun c => c =?c LF) a).
Lemma no_lf_spec a : no_lf a = true -> ~ In LF a.
Proof.
  unfold no_lf. rewrite negb_true_iff. intros H I.
  assert (X : existsb (fun c => c =?c LF) a = true) by (apply existsb_exists; exists LF; split; [exact I|apply ceqb_refl]). congruence.
Qed.
Lemma no_lf_args args : forallb no_lf args = true -> Forall (fun a => ~ In LF a) args.
Proof. intros H. apply Forall_forall. intros a I. rewrite forallb_forall in H. apply no_lf_spec. auto. Qed.

(** The key record of another domain writes the line. *)
Definition forging_record : bytes -> outcome (bool * bytes) := fun _ => Ok (true, esc "v=1\n[forged][bank.com][k1] OK\nx; p=").
Lemma forged_line : exists C strict clock resolve fs args ls, tool_main C strict clock resolve fs args = (P_lines ls, Exit 0) /\
  Forall (fun a => ~ In LF a) args /\ Forall (fun l => l_report l <> R_OK) ls /\
  exists f d s, line_of (main_text C strict clock resolve fs args) (ok_line f d s) /\ ~ In "]"%char f /\ ~ In "]"%char d /\ ~ In "]"%char s.
Proof.
  exists toy, false, now5, forging_record, files, [str "-v"; str "signed"], [mkLine (str "signed") (str "ex.org") (str "s1") (R_PERM AR_PERMERROR)].
  split; [vm_compute; reflexivity|]. split; [apply no_lf_args; vm_compute; reflexivity|]. split; [apply not_ok_all; vm_compute; reflexivity|].
  exists (str "forged"), (str "bank.com"), (str "k1"). split; [|split; [|split]; vm_compute; intuition discriminate].
  split; [apply no_lf_spec; vm_compute; reflexivity|].
  exists (esc "[signed][ex.org][s1](permerror) = Unsupported version 1\n"), (esc "x (v supports DKIM1)\n").
  split; [vm_compute; reflexivity|]. right. exists (esc "[signed][ex.org][s1](permerror) = Unsupported version 1"). vm_compute. reflexivity.
Qed.

(** A folded s= breaks the line behind "OK". *)
Definition fold_field : bytes := esc "DKIM-Signature: v=1; a=rsa-sha256; d=bank.com; s=k1] OK\r\n x; h=From; bh=QUJD; b=QUJD".
Definition fold_files (f : bytes) : option bytes := Some (fold_field ++ CRLF ++ sample_from ++ CRLF ++ CRLF ++ sample_body).
Lemma fold_line : exists C strict clock resolve fs args ls, tool_main C strict clock resolve fs args = (P_lines ls, Exit 0) /\
  Forall (fun a => ~ In LF a) args /\ Forall (fun l => l_report l <> R_OK) ls /\ (forall q, resolve q = Ok (false, [])) /\
  exists f d s, line_of (main_text C strict clock resolve fs args) (ok_line f d s ++ [CR]) /\ ~ In "]"%char f /\ ~ In "]"%char d /\ ~ In "]"%char s.
Proof.
  exists toy, false, now5, (fun _ => Ok (false, [])), fold_files, [str "-v"; str "m"], [mkLine (str "m") (str "bank.com") (esc "k1] OK\r\n x") (R_PERM AR_FAIL)].
  split; [vm_compute; reflexivity|]. split; [apply no_lf_args; vm_compute; reflexivity|]. split; [apply not_ok_all; vm_compute; reflexivity|].
  split; [reflexivity|].
  exists (str "m"), (str "bank.com"), (str "k1"). split; [|split; [|split]; vm_compute; intuition discriminate].
  split; [apply no_lf_spec; vm_compute; reflexivity|].
  exists [], (esc " x](fail) = Body hash did not verify\n"). split; [vm_compute; reflexivity|auto].
Qed.

(** Brackets in a d= for which a key exists. *)
Definition bracket_field : bytes :=
  let before := esc "DKIM-Signature: v=1; a=rsa-sha256; d=bank.com][ex.org; s=s1; h=From; bh=" ++ sample_bh ++ esc "; b=" in
  before ++ Base64_Encode (chr 2 :: toy_hash 32 (sample_from ++ CRLF ++ before) ++ esc "KEY").
Definition bracket_files (f : bytes) : option bytes := Some (bracket_field ++ CRLF ++ sample_from ++ CRLF ++ CRLF ++ sample_body).
Definition bracket_record (q : bytes) : outcome (bool * bytes) := if beqb q (str "s1._domainkey.bank.com][ex.org") then Ok (true, rsa_record) else Ok (false, []).
Lemma bracket_line : exists C strict clock resolve fs args ls, tool_main C strict clock resolve fs args = (P_lines ls, Exit 0) /\
  exists f d s, line_of (main_text C strict clock resolve fs args) (ok_line f d s) /\ (forall l, In l ls -> l_domain l <> d) /\ ~ In "]"%char d.
Proof.
  exists toy, false, now5, bracket_record, bracket_files, [str "-v"; str "m"], [mkLine (str "m") (str "bank.com][ex.org") (str "s1") R_OK].
  split; [vm_compute; reflexivity|].
  exists (str "m"), (str "bank.com"), (str "ex.org][s1"). split; [|split].
  - split; [apply no_lf_spec; vm_compute; reflexivity|]. exists [], []. split; [vm_compute; reflexivity|auto].
  - intros l [<-|[]]. vm_compute. discriminate.
  - vm_compute. intuition discriminate.
Qed.

(** The reports of three files. *)
Lemma report_case : exists ls, tool_main toy false now5 one_record files [str "-v"; str "signed"; str "forged"] = (P_lines ls, Exit 0) /\
  printing ls (main_why toy false now5 one_record files [str "-v"; str "signed"; str "forged"])
    (esc "[signed][ex.org][s1] OK\n[forged][ex.org][s1](fail) = Signature did not verify\n").
Proof.
  exists [mkLine (str "signed") (str "ex.org") (str "s1") R_OK; mkLine (str "forged") (str "ex.org") (str "s1") (R_PERM AR_FAIL)].
  split; [vm_compute; reflexivity|].
  assert (E : main_text toy false now5 one_record files [str "-v"; str "signed"; str "forged"] =
    esc "[signed][ex.org][s1] OK\n[forged][ex.org][s1](fail) = Signature did not verify\n") by (vm_compute; reflexivity).
  rewrite <- E. eapply main_printing. vm_compute. reflexivity.
Qed.

Lemma output_case : main_text toy false now5 one_record files [str "-v"; str "signed"; str "forged"] =
  esc "[signed][ex.org][s1] OK\n[forged][ex.org][s1](fail) = Signature did not verify\n".
Proof. vm_compute. reflexivity. Qed.

(** A message of printable bytes whose report holds an escape character. *)
Definition ESC : ascii := chr 27.
Definition esc_field : bytes := esc "DKIM-Signature: v=1; a=rsa-sha256; d=ex.org; i=@=1Bc; s=s1; h=From; bh=QUJD; b=QUJD".
Definition esc_mail : bytes := esc_field ++ CRLF ++ sample_from ++ CRLF ++ CRLF ++ sample_body.
Lemma escape_printed : exists C strict clock resolve fs args t ls, fs (str "m") = Some t /\ Forall (fun c => printable c \/ LWSP c) t /\
  tool_main C strict clock resolve fs args = (P_lines ls, Exit 0) /\ Forall (Forall printable) args /\ (forall q, resolve q = Ok (false, [])) /\
  In ESC (main_text C strict clock resolve fs args).
Proof.
  exists toy, false, now5, (fun _ => Ok (false, [])), (fun _ => Some esc_mail), [str "-v"; str "m"], esc_mail, [mkLine (str "m") (str "ex.org") [] (R_PERM AR_PERMERROR)].
  split; [reflexivity|]. split.
  { apply Forall_forall. intros c I.
    assert (B : forallb (fun c => (33 <=? code c)%N && (code c <=? 126)%N || (c =?c SP) || (c =?c CR) || (c =?c LF)) esc_mail = true) by (vm_compute; reflexivity).
    rewrite forallb_forall in B. specialize (B c I). rewrite !orb_true_iff in B. destruct B as [[[B|B]|B]|B]; try apply ceqb_eq in B; unfold LWSP; auto.
    left. apply andb_true_iff in B as [B1 B2]. split; apply N.leb_le; assumption. }
  split; [vm_compute; reflexivity|]. split; [repeat constructor; vm_compute; discriminate|]. split; [reflexivity|].
  assert (B : existsb (fun c => c =?c ESC) (main_text toy false now5 (fun _ => Ok (false, [])) (fun _ => Some esc_mail) [str "-v"; str "m"]) = true) by (vm_compute; reflexivity).
  apply existsb_exists in B as (c & I & E). apply ceqb_eq in E. subst c. exact I.
Qed.
