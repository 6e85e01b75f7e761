(** Messages that bring a byte of 128 or more to tolower (for C100). *)
From Verif Require Import Bytes Outcome Stream Base64 TagList MailParser Canonicalization Util Crypto Signature PublicKey SignatoryOptions Signatory Validatory Tool ErrorText Reasons
  SpecText SpecTags SpecMail SpecCanon SpecSig SpecParse SpecReason SpecPass SpecStop SpecEight TagListFacts SigFacts SigProps VerifyProps PassFacts SharedFacts EightFacts EightExact EightVerify Examples VerifyExamples ReasonExamples ToolExamples.
Local Open Scope string_scope. Local Open Scope list_scope.

(** A good message below a field named in UTF-8. *)
Definition utf8_field : bytes := chr 195 :: chr 137 :: esc "tat: 1".
Definition utf8_mail : bytes := utf8_field ++ CRLF ++ good_mail.
Lemma utf8_lost : verify toy false utf8_mail rsa_record = Ok tt /\ new_validatory true V_DKIM (open_str utf8_mail) = UB UB_ctype.
Proof. split; vm_compute; reflexivity. Qed.
Lemma utf8_open : exists fs, has_fields utf8_mail fs /\ ~ Forall ascii_text (map h_name fs).
Proof.
  eexists. split; [apply fields_by; vm_compute; reflexivity|]. intros F. apply Forall_inv in F. apply Forall_inv in F. vm_compute in F. discriminate F.
Qed.
Definition utf8_files (f : bytes) : option bytes := if beqb f (str "key") then Some (esc "S0VZ") else Some utf8_mail.
Lemma utf8_tool : tool_main toy true now5 one_record utf8_files [str "-v"; str "mail"] = (P_lines [], Undefined UB_ctype) /\
  tool_main toy true now5 one_record utf8_files [str "-s"; str "a"; str "-d"; str "b"; str "-k"; str "key"; str "mail"] = (P_nothing, Undefined UB_ctype).
Proof. split; vm_compute; reflexivity. Qed.
(** An identity that is written in printable characters only. *)
Definition identity_field : header := dkim_field "v=1; a=rsa-sha256; d=ex.org; i=@=E9.ex.org; s=s1; h=from; bh=YQ==; b=YQ==".
Lemma identity_lost : snd (Signature_Parse toy false 5 identity_field (new_signature, false)) = Ok tt /\
  ascii_text (h_text identity_field) /\ snd (Signature_Parse toy true 5 identity_field (new_signature, false)) = UB UB_ctype.
Proof.
  split; [vm_compute; reflexivity|]. split; [|vm_compute; reflexivity]. apply Forall_forall. intros c I.
  assert (X : forallb (fun c => (code c <? 128)%N) (h_text identity_field) = true) by (vm_compute; reflexivity). rewrite forallb_forall in X. apply N.ltb_lt, X, I.
Qed.
Lemma identity_leaves : field_leaves 5 false identity_field.
Proof. apply (field_exact toy); [apply Nat.leb_le; vm_compute; reflexivity|]. apply identity_lost. Qed.
(** With an earlier reason the byte is not reached. *)
Lemma identity_kept : forall C st, snd (Signature_Parse C true 5 (dkim_field "v=2; a=rsa-sha256; d=ex.org; i=@=E9.ex.org; s=s1; h=from; bh=YQ==; b=YQ==") (new_signature, st)) = perm.
Proof. intros C st. vm_compute. reflexivity. Qed.
Lemma good_no_eight : no_eight good_mail.
Proof.
  intros fs HF.
  assert (E : fs = [sample_header "rsa-sha256" rsa_b; mkHeader (esc "From") sample_from 5]).
  { eapply has_fields_unique; [exact HF|]. apply fields_by. vm_compute. reflexivity. }
  subst fs. clear HF.
  assert (A : forall x, forallb (fun c => (code c <? 128)%N) x = true -> ascii_text x).
  { intros x X. apply Forall_forall. intros c I. rewrite forallb_forall in X. apply N.ltb_lt, X, I. }
  split; [repeat constructor; apply A; vm_compute; reflexivity|].
  intros h l [<-|[<-|[]]] FT (i & lo & raw & Hi & Q & NI & N8); destruct (field_tags_parse _ _ FT) as (tags & P & HV & _ & _); apply HV in Hi.
  - assert (T : exists e, TagList_Parse [] (skipn (h_voff (sample_header "rsa-sha256" rsa_b)) (h_text (sample_header "rsa-sha256" rsa_b))) = (e, Ok tt) /\ V e "i" = Some (str "@sub.ex.org")).
    { eexists. split; vm_compute; reflexivity. }
    destruct T as (e & T & VI). rewrite P in T. injection T as <-. assert (EI : i = str "@sub.ex.org") by congruence. clear Hi VI P. rewrite EI in Q. clear EI.
    apply (proj1 (QPFacts.qp_decode_grammar false _)) in Q. assert (D : QuotedPrintable.qp_decode (str "@sub.ex.org") false = Ok (AT :: str "sub.ex.org")) by (vm_compute; reflexivity).
    rewrite D in Q. assert (Q1 : AT :: str "sub.ex.org" = lo ++ AT :: raw) by congruence. destruct lo as [|c lo].
    + assert (raw = str "sub.ex.org") as -> by (cbn [app] in Q1; congruence). apply N8, A. vm_compute. reflexivity.
    + apply NI. left. cbn [app] in Q1. congruence.
  - exfalso. assert (T : snd (TagList_Parse [] (skipn 5 sample_from)) = perm) by (vm_compute; reflexivity). change (skipn 5 sample_from) with (skipn (h_voff (mkHeader (esc "From") sample_from 5)) (h_text (mkHeader (esc "From") sample_from 5))) in T. rewrite P in T. discriminate T.
Qed.
Lemma filter_case : name_part_eight utf8_field /\ ~ name_part_eight (str "a: " ++ [chr 233]).
Proof.
  split.
  - exists (chr 195 :: chr 137 :: esc "tat"), (esc " 1"). split; [vm_compute; reflexivity|]. split; [vm_compute; intuition discriminate|].
    intros F. apply Forall_inv in F. vm_compute in F. discriminate F.
  - intros K. pose proof (proj2 (filter_leaves RELAXED _) (conj eq_refl K)) as E. vm_compute in E. discriminate E.
Qed.
