(** Messages whose body is read as often as one likes. *)
From Verif Require Import Bytes Outcome Stream TagList MailParser Canonicalization Util CStdlib Crypto Signature Validatory
  SpecText SpecMail SpecCanon SpecVerify SpecTransit SpecRead BodyWork
  BytesFacts StreamFacts BodyFacts BodyProps MailFacts SelectFacts VerifyFacts VerifyProps ToolFacts TransitFacts AskMany ReadFacts Examples VerifyExamples.

Definition long_message (n : nat) (b : bytes) : bytes := concat (repeat (ask_field ++ CRLF) n) ++ sample_from ++ CRLF ++ CRLF ++ b.
Lemma long_parsed n b : exists m s, parse_all new_message (open_str (long_message n b)) = Ok (m, s) /\
  m_headers m = repeat ask_header n ++ [header_of sample_from] /\ message_body (long_message n b) b.
Proof.
  induction n as [|n (m & s & P & H & B)].
  - assert (HB : header_block [sample_from] (sample_from ++ CRLF ++ [])).
    { apply hb_cons; [discriminate|apply no_LF_b; vm_compute; reflexivity|left; reflexivity|constructor]. }
    assert (E : long_message 0 b = (sample_from ++ CRLF ++ []) ++ CRLF ++ b). { unfold long_message. cbn [repeat concat app]. rewrite <- !app_assoc. reflexivity. }
    rewrite E. destruct (parse_blank _ _ CRLF b HB ltac:(left; reflexivity)) as (m & s & P & _ & H & _). exists m, s. split; [exact P|]. split; [rewrite H; vm_compute; reflexivity|].
    apply (mb_blank [sample_from]); [exact HB|left; reflexivity].
  - assert (A : at_field (long_message n b)). { destruct n; unfold long_message; cbn [repeat concat]; vm_compute; intros [X|X]; discriminate. }
    destruct (front_parse _ _ _ _ _ ask_block A P) as (m' & s' & P' & H' & b' & B1 & B2).
    rewrite (message_body_unique _ _ _ B1 B) in B2. exists m', s'.
    assert (E : (ask_field ++ CRLF) ++ long_message n b = long_message (S n) b). { unfold long_message. cbn [repeat concat]. rewrite !app_assoc. reflexivity. }
    rewrite E in P', B2. split; [exact P'|]. split; [|exact B2]. rewrite H', H.
    assert (F : all_headers (fold_left add_line [ask_field] new_message) = [ask_header]) by (vm_compute; reflexivity). rewrite F. reflexivity.
Qed.
Lemma long_opened n b : exists v, new_validatory false V_DKIM (open_str (long_message n b)) = Ok v /\ v_sigs v = repeat ask_header n.
Proof.
  destruct (long_parsed n b) as (m & s & P & H & _). destruct (validatory_plain_iff false V_DKIM _ _ _ P ltac:(discriminate)) as (v & N).
  { apply Forall_forall. intros f _. reflexivity. }
  exists v. split; [exact N|]. apply listed in N as (m' & s' & P' & _ & _ & ->). rewrite P in P'. injection P' as <- <-. rewrite H.
  rewrite filter_app. assert (E : forall k, filter (fun h => same_name (h_name h) (str "DKIM-Signature")) (repeat ask_header k) = repeat ask_header k).
  { induction k; cbn [repeat filter]; [reflexivity|]. rewrite IHk. replace (same_name (h_name ask_header) (str "DKIM-Signature")) with true by (vm_compute; reflexivity). reflexivity. }
  rewrite E. replace (filter _ [header_of sample_from]) with (@nil header) by (vm_compute; reflexivity). apply app_nil_r.
Qed.
Lemma long_field now e : exists g, Signature_Parse toy false now ask_header (new_signature, e) = ((g, e), Ok tt) /\ sg_limit g = false.
Proof. eexists. split; vm_compute; reflexivity. Qed.
Lemma long_reads clock b hs n : forall i e l, hs = repeat ask_header n -> all_reads toy false clock b i e hs l -> l = repeat b n.
Proof.
  revert hs. induction n as [|n IH]; intros hs i e l E R; cbn [repeat] in *; subst hs; inversion R as [|? ? ? g e1 a ? l2 P A R2|? ? ? g e1 r ? l2 P N R2]; subst; auto.
  - destruct (long_field (clock i) e) as (g' & P' & L). rewrite P' in P. injection P as <- <-. rewrite L in A. apply amount_whole in A. subst a. f_equal. eapply IH; eauto.
  - destruct (long_field (clock i) e) as (g' & P' & L). rewrite P' in P. injection P as _ _ <-. congruence.
Qed.
Lemma long_work clock e n b : verify_work toy false clock V_DKIM e (long_message n b) = n * length b.
Proof.
  destruct (long_opened n b) as (v & NV & SG). destruct (long_parsed n b) as (_ & _ & _ & _ & MB).
  destruct (verify_reads toy false clock V_DKIM e _ v b NV MB) as (l & R & _ & ->). rewrite (long_reads clock b _ n _ _ _ SG R).
  clear. induction n; cbn [repeat concat Nat.mul]; [reflexivity|]. rewrite app_length, IHn. reflexivity.
Qed.
Lemma long_length n b : length (long_message n b) = 116 * n + 18 + length b.
Proof.
  unfold long_message. rewrite !app_length. replace (length sample_from) with 14 by (vm_compute; reflexivity). change (length CRLF) with 2.
  assert (X : length (concat (repeat (ask_field ++ CRLF) n)) = 116 * n).
  { induction n; [reflexivity|]. cbn [repeat concat]. rewrite app_length, IHn. replace (length (ask_field ++ CRLF)) with 116 by (vm_compute; reflexivity). lia. }
  lia.
Qed.
Lemma read_unbounded k : exists t, k * length t < verify_work toy false (fun _ => 5%Z) V_DKIM false t.
Proof.
  set (n := 2 * k + 1). exists (long_message n (repeat (chr 97) (116 * n + 18))). rewrite long_work, long_length, repeat_length.
  set (w := 116 * n + 18). assert (W : 0 < w) by (unfold w; lia). clearbody w. subst n. rewrite Nat.mul_add_distr_l. lia.
Qed.
Lemma read_example : let t := long_message 3 (str "hello") in length t = 371 /\ verify_work toy false (fun _ => 5%Z) V_DKIM false t = 15.
Proof. vm_compute. split; reflexivity. Qed.
