(** Messages for which the program asks as often as one likes. *)
From Verif Require Import Bytes Outcome Stream TagList MailParser Canonicalization Util CStdlib Crypto Signature PublicKey
  SignatoryOptions Signatory Validatory SpecText SpecTags SpecMail SpecCanon SpecVerify SpecSig SpecKey SpecOptions SpecSign SpecTransit Tool SpecTool
  BytesFacts BodyFacts BodyProps MailFacts SelectFacts SigFacts SigProps VerifyFacts KeyFacts VerifyProps ToolFacts ToolArgs ToolMain TransitFacts
  ToolAsk SpecAsk AskFacts Examples VerifyExamples.

(** A field that parses and has the right body hash; no signature. *)
Definition ask_field : bytes := esc "DKIM-Signature: v=1; a=rsa-sha256; d=ex.org; s=s1; h=From; bh=" ++ sample_bh ++ esc "; b=QUJD".
Definition ask_header : header := header_of ask_field.
Definition ask_message (n : nat) : bytes := concat (repeat (ask_field ++ CRLF) n) ++ sample_from ++ CRLF ++ CRLF ++ sample_body.
Lemma no_LF_b l : existsb (fun c => c =?c LF) l = false -> ~ In LF l.
Proof. intros E I. apply Bool.not_true_iff_false in E. apply E. apply existsb_exists. exists LF. split; auto. Qed.
Lemma ask_block : header_block [ask_field] (ask_field ++ CRLF).
Proof.
  rewrite <- (app_nil_r CRLF). apply hb_cons; [discriminate|apply no_LF_b; vm_compute; reflexivity|left; reflexivity|constructor].
Qed.
Lemma ask_parsed n : exists m s, parse_all new_message (open_str (ask_message n)) = Ok (m, s) /\
  m_headers m = repeat ask_header n ++ [header_of sample_from] /\ message_body (ask_message n) sample_body.
Proof.
  induction n as [|n (m & s & P & H & B)].
  - eexists. eexists. split; [vm_compute; reflexivity|]. split; [vm_compute; reflexivity|].
    change (ask_message 0) with ((sample_from ++ CRLF ++ []) ++ CRLF ++ sample_body). apply (mb_blank [sample_from]); [|left; reflexivity].
    apply hb_cons; [discriminate|apply no_LF_b; vm_compute; reflexivity|left; reflexivity|constructor].
  - assert (A : at_field (ask_message n)). { destruct n; vm_compute; intros [X|X]; discriminate. }
    destruct (front_parse _ _ _ _ _ ask_block A P) as (m' & s' & P' & H' & b & B1 & B2).
    rewrite (message_body_unique _ _ _ B1 B) in B2. exists m', s'.
    assert (E : (ask_field ++ CRLF) ++ ask_message n = ask_message (S n)). { unfold ask_message. cbn [repeat concat]. rewrite !app_assoc. reflexivity. }
    rewrite E in P', B2. split; [exact P'|]. split; [|exact B2]. rewrite H', H.
    assert (F : all_headers (fold_left add_line [ask_field] new_message) = [ask_header]) by (vm_compute; reflexivity). rewrite F. reflexivity.
Qed.
Lemma ask_opened n : exists v, new_validatory false V_DKIM (open_str (ask_message n)) = Ok v /\ v_sigs v = repeat ask_header n.
Proof.
  destruct (ask_parsed n) as (m & s & P & H & _). destruct (validatory_plain_iff false V_DKIM _ _ _ P ltac:(discriminate)) as (v & N).
  { apply Forall_forall. intros f _. reflexivity. }
  exists v. split; [exact N|]. apply listed in N as (m' & s' & P' & _ & _ & ->). rewrite P in P'. injection P' as <- <-. rewrite H.
  rewrite filter_app. assert (E : forall k, filter (fun h => same_name (h_name h) (str "DKIM-Signature")) (repeat ask_header k) = repeat ask_header k).
  { induction k; cbn [repeat filter]; [reflexivity|]. rewrite IHk. replace (same_name (h_name ask_header) (str "DKIM-Signature")) with true by (vm_compute; reflexivity). reflexivity. }
  rewrite E. replace (filter _ [header_of sample_from]) with (@nil header) by (vm_compute; reflexivity). apply app_nil_r.
Qed.
Lemma ask_step now answers k n e v : in_use false V_DKIM (ask_message n) v -> (forall i q, answers i q = Ok (false, [])) ->
  exists v1 g, in_use false V_DKIM (ask_message n) v1 /\ sg_domain g = str "ex.org" /\ sg_selector g = str "s1" /\
  ask_one toy false now answers k ask_header e v = (v1, e, g, new_public_key, temp, [str "s1._domainkey.ex.org"]).
Proof.
  intros U A. unfold ask_one. destruct (GetSignature_spec toy false V_DKIM _ v now ask_header (new_signature, e) U) as (v1 & U1 & E).
  assert (SG : exists g, Signature_Parse toy false now ask_header (new_signature, e) = ((g, e), Ok tt) /\ sg_domain g = str "ex.org" /\ sg_selector g = str "s1" /\
    sg_cbody g = SIMPLE /\ sg_bh g = digest toy (sg_digest g) (cut (sg_limit g) (sg_size g) sample_body)).
  { eexists. split; [vm_compute; reflexivity|]. split; [vm_compute; reflexivity|]. split; [vm_compute; reflexivity|]. split; vm_compute; reflexivity. }
  destruct SG as (g & P & D & L & M & H). rewrite P in E. cbn [fst] in E. exists v1, g. split; [exact U1|]. split; [exact D|]. split; [exact L|].
  destruct (ask_parsed n) as (_ & _ & _ & _ & MB).
  assert (CB : canonical_body (is_relaxed (sg_cbody g)) sample_body sample_body). { rewrite M. apply canonical_pass. vm_compute. reflexivity. }
  apply (proj1 (CheckBodyHash_iff toy false V_DKIM _ v g _ _ U MB CB)) in H. rewrite H in E. rewrite E. cbn [fst snd]. unfold key_query. rewrite D, L, A. reflexivity.
Qed.
Lemma ask_many_sigs name clock answers n : (forall i q, answers i q = Ok (false, [])) -> forall j v c e k, in_use false V_DKIM (ask_message n) v ->
  exists c' e', ask_sigs toy false clock answers name (repeat ask_header j) v c e k =
  (repeat (mkLine name (str "ex.org") (str "s1") (R_TEMP AR_TEMPERROR)) j, repeat (str "s1._domainkey.ex.org") j, c', e', None).
Proof.
  intros A. induction j as [|j IH]; intros v c e k U; cbn [repeat ask_sigs]; [eauto|].
  destruct (ask_step (clock c) answers k n e v U A) as (v1 & g & U1 & D & L & ->). cbn [report_of temp length].
  destruct (IH v1 (S c) e (k + 1) U1) as (c' & e' & ->). rewrite D, L. eauto.
Qed.
Lemma ask_many clock answers n : (forall i q, answers i q = Ok (false, [])) ->
  ask_main toy false clock answers (fun _ => Some (ask_message n)) [str "-v"; str "m"] =
  (P_lines (repeat (mkLine (str "m") (str "ex.org") (str "s1") (R_TEMP AR_TEMPERROR)) n), repeat (str "s1._domainkey.ex.org") n, Exit 0).
Proof.
  intros A. unfold ask_main. replace (getopt [str "-v"; str "m"]) with ([Opt (chr 118) None], [str "m"]) by (vm_compute; reflexivity).
  replace (take_options [Opt (chr 118) None] new_args) with (@inl tool_args ending (mkArgs true [] [] [] (str "rsa") V_DKIM 0 false)) by (vm_compute; reflexivity).
  cbn [a_validate a_type a_errno ask_files open_file]. destruct (ask_opened n) as (v & N & SG). rewrite N, SG.
  destruct (ask_many_sigs (str "m") clock answers n A n v 0 false 0 (in_use_fresh _ _ _ _ N)) as (c' & e' & ->). rewrite !app_nil_r. reflexivity.
Qed.
Lemma ask_length n : length (ask_message n) = 116 * n + 22.
Proof.
  unfold ask_message. rewrite app_length. replace (length (sample_from ++ CRLF ++ CRLF ++ sample_body)) with 22 by (vm_compute; reflexivity). f_equal.
  induction n; [reflexivity|]. cbn [repeat concat]. rewrite app_length, IHn. replace (length (ask_field ++ CRLF)) with 116 by (vm_compute; reflexivity). lia.
Qed.
(** More questions than any number. *)
Lemma ask_unbounded n : exists C clock answers t args, length t <= 200 * n + 200 /\
  exists ls qs, ask_main C false clock answers (fun _ => Some t) args = (P_lines ls, qs, Exit 0) /\ length qs = n.
Proof.
  exists toy, (fun _ => 5%Z), (fun _ _ => Ok (false, [])), (ask_message n), [str "-v"; str "m"]. split; [rewrite ask_length; lia|].
  eexists. eexists. split; [apply ask_many; reflexivity|]. apply repeat_length.
Qed.
