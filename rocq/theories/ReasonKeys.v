(** The reasons for which PublicKey::Parse refuses (for C96). *)
From Verif Require Import Bytes Outcome Stream Tokenizer QuotedPrintable Base64 TagList MailParser Canonicalization Util
  CStdlib Crypto Signature PublicKey Tool ToolText ErrorText Reasons BytesFacts SpecText SpecTags SpecMail SpecCanon SpecVerify SpecSig SpecParse SpecKey SpecError SpecReason
  QPFacts ListFacts ListExact ListWide TagListFacts HeaderFacts SigFacts SigProps KeyFacts KeyExact SigExact VerifyProps ErrorQP ErrorList ErrorCases ReportFacts ReasonFacts ReasonSig.
Local Open Scope string_scope. Local Open Scope list_scope.

Definition kinv (tags : taglist) (l : list (bytes * bytes)) (k : nat) (p : public_key) : Prop :=
  pk_tags p = tags /\ (k <= 3 -> pk_alg p = RSA) /\ (4 <= k -> key_type l (pk_alg p)).
Definition key_checks (C : crypto) (strict : bool) : list (stage public_key) :=
  [(key_v, key_v_what); (key_h, key_h_what); (key_k, key_k_what); (key_p C strict, key_p_what C strict); (key_s, key_s_what); (key_t, key_t_what)].

Section Stages.
Context (C : crypto) (strict : bool) (tags : taglist) (l : list (bytes * bytes)).
Context (HV : forall n v, V tags n = Some v <-> has l n v) (LV : forall n, V tags n = None <-> lacks l n) (G : good_tags tags).
Notation R := (key_reason C l).
Notation I_ := (kinv tags l).

Lemma ktag_find n p : pk_tags p = tags ->
  (ktag n p = None /\ lacks l n) \/ (exists e, ktag n p = Some e /\ has l n (te_value e) /\ tag_value (te_value e)).
Proof using HV LV G.
  intros E. pose proof (HV n) as HS. pose proof (LV n) as HN. pose proof (G n) as GT. rewrite <- E in HS, HN, GT. clear HV LV G E.
  unfold V in HS, HN, GT. unfold ktag. destruct (GetTag (str n) (pk_tags p)) as [e|]; [right|left].
  - exists e. split; [reflexivity|]. split; [apply HS; reflexivity|apply GT; reflexivity].
  - split; [reflexivity|]. apply HN. reflexivity.
Qed.
Lemma khas_one n v w : has l n v -> has l n w -> v = w.
Proof using HV. intros A B. apply HV in A, B. congruence. Qed.
Lemma khas_lacks n v : has l n v -> lacks l n -> False.
Proof using HV LV. intros A B. apply HV in A. apply LV in B. congruence. Qed.
Ltac kfin := match goal with
  | A : has l ?n ?v, B : lacks l ?n |- _ => exact (khas_lacks n v A B)
  end.
Ltac kone := repeat match goal with
  | A : has l ?n ?v, B : has l ?n ?w |- _ => assert_fails (constr_eq v w); let E := fresh "E" in pose proof (khas_one n v w A B) as E; clear B; try subst
  end.
Ltac kno_reason := let m := fresh "m" in let K := fresh "K" in
  intros m K; inversion K; try kfin; kone; try congruence.
Lemma kinv_S k p : I_ k p -> k <> 3 -> I_ (S k) p.
Proof. intros (A & B & D) N. split; [exact A|]. split; intros L; [apply B|apply D]; lia. Qed.
Lemma kinv_same k p p' : I_ k p -> pk_tags p' = pk_tags p -> pk_alg p' = pk_alg p -> I_ k p'.
Proof. intros (A & B & D) E1 E2. unfold kinv. rewrite E1, E2. auto. Qed.

Lemma kst_v : good_stage R I_ 1 (key_v, key_v_what).
Proof using HV LV G.
  intros p J. pose proof J as (T & A & D). cbn [fst snd]. unfold key_v, key_v_what.
  destruct (ktag_find "v" p T) as [[-> L]|(e & -> & H & TV)].
  - left. exists p. split; [reflexivity|]. split; [apply kinv_S; [exact J|lia]|]. clear J T A D. kno_reason.
  - destruct (beqb_spec (te_value e) (str "DKIM1")) as [E|N].
    + left. exists p. split; [reflexivity|]. split; [apply kinv_S; [exact J|lia]|]. clear J T A D. kno_reason.
    + right. exists p. split; [reflexivity|]. unfold format. rewrite (tag_value_c_str _ TV). apply rk_v; auto.
Qed.
Lemma kst_h : good_stage R I_ 2 (key_h, key_h_what).
Proof using HV LV G.
  intros p J. pose proof J as (T & A & D). cbn [fst snd]. unfold key_h, key_h_what.
  destruct (ktag_find "h" p T) as [[-> L]|(e & -> & H & TV)].
  - left. exists p. split; [reflexivity|]. split; [apply kinv_S; [exact J|lia]|]. clear J T A D. kno_reason.
  - clear T A D. destruct (te_value e) as [|c v] eqn:EV.
    + right. exists p. split; [reflexivity|]. apply rk_h. exact H.
    + destruct (list_cases3 (c :: v)) as [(vs & E1 & E2 & W)|(m & E1 & E2 & N & K)]; rewrite E1; cbn [slift list_what]; rewrite E2; cbn [said].
      * left. eexists. split; [reflexivity|]. split; [eapply kinv_same; [apply kinv_S; [exact J|lia]|reflexivity|reflexivity]|]. clear J. kno_reason.
        match goal with X : ~ list_ok _ |- _ => apply X; eexists; exact W end.
      * right. eexists. split; [reflexivity|]. eapply rk_h_list; eauto. discriminate.
Qed.
Lemma kst_k : good_stage R I_ 3 (key_k, key_k_what).
Proof using HV LV G.
  intros p J. pose proof J as (T & A & D). cbn [fst snd]. unfold key_k, key_k_what. specialize (A ltac:(lia)).
  destruct (ktag_find "k" p T) as [[-> L]|(e & -> & H & TV)].
  - left. exists p. split; [reflexivity|]. split; [split; [exact T|]; split; [lia|]; intros _; left; auto|]. clear J T A D. kno_reason.
  - destruct (beqb_spec (te_value e) (str "rsa")) as [E|N]; [|destruct (beqb_spec (te_value e) (str "ed25519")) as [E|N2]].
    + left. eexists. split; [reflexivity|]. rewrite E in H. split; [split; [exact T|]; split; [lia|]; intros _; right; exact H|]. clear J T A D. kno_reason.
      match goal with X : forall a, _ <> alg_name a |- _ => apply (X RSA); reflexivity end.
    + left. eexists. split; [reflexivity|]. rewrite E in H. split; [split; [exact T|]; split; [lia|]; intros _; right; exact H|]. clear J T A D. kno_reason.
      match goal with X : forall a, _ <> alg_name a |- _ => apply (X ED25519); reflexivity end.
    + right. exists p. split; [reflexivity|]. unfold format. rewrite (tag_value_c_str _ TV). apply rk_k; auto. intros []; assumption.
Qed.
Lemma key_type_fun a b : key_type l a -> key_type l b -> a = b.
Proof using HV LV.
  intros [[A ->]|A] [[B ->]|B]; auto; try (exfalso; kfin). pose proof (khas_one _ _ _ A B) as E. destruct a, b; auto; discriminate E.
Qed.
Lemma kst_p : good_stage R I_ 4 (key_p C strict, key_p_what C strict).
Proof using HV LV G.
  intros p J. pose proof J as (T & A & D). cbn [fst snd]. unfold key_p, key_p_what. specialize (D ltac:(lia)).
  assert (J' : forall p', pk_tags p' = pk_tags p -> pk_alg p' = pk_alg p -> I_ 5 p').
  { intros p' E1 E2. eapply kinv_same; [apply kinv_S; [exact J|lia]|exact E1|exact E2]. }
  destruct (ktag_find "p" p T) as [[-> L]|(e & -> & H & TV)].
  - right. exists p. split; [reflexivity|]. apply rk_p. exact L.
  - clear T A J. destruct (te_value e) as [|c v] eqn:EV.
    + right. exists p. split; [reflexivity|]. apply rk_p_empty. exact H.
    + rewrite strip_7bit by (apply tag_value_7bit; exact TV). cbn [slift].
      assert (NE : c :: v <> []) by discriminate. revert NE H. generalize (c :: v). clear c v EV TV. intros v NE H. destruct (pk_alg p) eqn:PA.
      * destruct (c_d2i_pubkey C (b64d C (unspaced v))) as [[k|]|] eqn:D2.
        -- left. eexists. split; [reflexivity|]. split; [apply J'; [reflexivity|exact PA]|]. kno_reason.
           match goal with X : key_type l ED25519 |- _ => pose proof (key_type_fun _ _ D X) end. discriminate.
        -- right. eexists. split; [reflexivity|]. eapply rk_p_type; eauto.
        -- right. eexists. split; [reflexivity|]. eapply rk_p_der; eauto.
      * destruct (Nat.eqb_spec (length (b64d C (unspaced v))) 32) as [L|L].
        -- left. eexists. split; [reflexivity|]. split; [apply J'; [reflexivity|exact PA]|]. kno_reason;
           match goal with X : key_type l RSA |- _ => pose proof (key_type_fun _ _ D X) end; discriminate.
        -- right. eexists. split; [reflexivity|]. eapply rk_p_size; eauto.
Qed.
Lemma kst_s : good_stage R I_ 5 (key_s, key_s_what).
Proof using HV LV G.
  intros p J. pose proof J as (T & A & D). cbn [fst snd]. unfold key_s, key_s_what.
  destruct (ktag_find "s" p T) as [[-> L]|(e & -> & H & TV)].
  - left. exists p. split; [reflexivity|]. split; [apply kinv_S; [exact J|lia]|]. clear J T A D. kno_reason.
  - clear T A D. destruct (te_value e) as [|c v] eqn:EV.
    + right. exists p. split; [reflexivity|]. apply rk_s. exact H.
    + destruct (list_cases3 (c :: v)) as [(vs & E1 & E2 & W)|(m & E1 & E2 & N & K)]; rewrite E1; cbn [slift list_what]; rewrite E2; cbn [said].
      * left. eexists. split; [reflexivity|]. split; [eapply kinv_same; [apply kinv_S; [exact J|lia]|reflexivity|reflexivity]|]. clear J. kno_reason.
        match goal with X : ~ list_ok _ |- _ => apply X; eexists; exact W end.
      * right. eexists. split; [reflexivity|]. eapply rk_s_list; eauto. discriminate.
Qed.
Lemma kst_t : good_stage R I_ 6 (key_t, key_t_what).
Proof using HV LV G.
  intros p J. pose proof J as (T & A & D). cbn [fst snd]. unfold key_t, key_t_what.
  destruct (ktag_find "t" p T) as [[-> L]|(e & -> & H & TV)].
  - left. exists p. split; [reflexivity|]. split; [apply kinv_S; [exact J|lia]|]. clear J T A D. kno_reason.
  - clear T A D. destruct (list_cases3 (te_value e)) as [(vs & E1 & E2 & W)|(m & E1 & E2 & N & K)]; rewrite E1, E2; cbn [slift said].
      * left. eexists. split; [reflexivity|]. split; [eapply kinv_same; [apply kinv_S; [exact J|lia]|reflexivity|reflexivity]|]. clear J. kno_reason.
        match goal with X : ~ list_ok _ |- _ => apply X; eexists; exact W end.
      * right. eexists. split; [reflexivity|]. eapply rk_t_list; eauto.
Qed.
Lemma kst_all : all_stages R I_ 1 (key_checks C strict).
Proof using HV LV G.
  cbn [all_stages key_checks]. repeat (split; [first [exact kst_v|exact kst_h|exact kst_k|exact kst_p|exact kst_s|exact kst_t]|]).
  intros j m L K. inversion K; subst; lia.
Qed.
End Stages.

Lemma key_texts_run C strict r p : PublicKey_Parse C strict r p = run_stages (map fst (key_texts C strict r)) p.
Proof. rewrite key_run. reflexivity. Qed.
Lemma key_what C strict r l : record_tags r l ->
  match PublicKey_what C strict r new_public_key with
  | Some m => first_reason (key_reason C l) m /\ snd (PublicKey_Parse C strict r new_public_key) = perm
  | None => (forall k m, ~ key_reason C l k m) /\ snd (PublicKey_Parse C strict r new_public_key) = Ok tt
  end.
Proof.
  intros F. destruct (record_parse r l F) as (tags & T & HV & LV). pose proof (tags_good _ _ T) as G.
  rewrite key_texts_run. unfold PublicKey_what, key_texts. cbn [map fst].
  assert (T1 : key_tags r new_public_key = (kset_tags tags new_public_key, Ok tt)).
  { unfold key_tags. change (pk_tags new_public_key) with (@nil (bytes * tag_entry)). rewrite T. reflexivity. }
  rewrite (what_Ok _ _ _ _ _ T1), (run_Ok _ _ _ _ T1). clear T1.
  assert (J : kinv tags l 1 (kset_tags tags new_public_key)) by (split; [reflexivity|]; split; [reflexivity|lia]).
  pose proof (stages_reason _ _ _ 1 _ (kst_all C strict tags l HV LV G) J) as X.
  change (first_what _ (kset_tags tags new_public_key)) with (first_what (key_checks C strict) (kset_tags tags new_public_key)).
  change (run_stages _ (kset_tags tags new_public_key)) with (run_stages (map fst (key_checks C strict)) (kset_tags tags new_public_key)).
  destruct (first_what (key_checks C strict) _) as [m|].
  - destruct X as [(k & _ & K & M) (s' & E)]. split; [|rewrite E; reflexivity]. exists k. split; [exact K|]. intros j m' Kj.
    apply (M j m'); [|exact Kj]. clear -Kj. inversion Kj; lia.
  - destruct X as [(s' & E) N]. split; [|rewrite E; reflexivity]. intros k m K. apply (N k m); [|exact K]. clear -K. inversion K; lia.
Qed.
Lemma key_tags_none C strict r : (forall l, ~ record_tags r l) ->
  exists m, PublicKey_what C strict r new_public_key = Some m /\ tags_say [] r m /\ snd (PublicKey_Parse C strict r new_public_key) = perm.
Proof.
  intros N. pose proof (same_tags [] r) as X. destruct (TagList_says [] r) as [tags|m|] eqn:E; [|exists m|destruct X].
  - exfalso. destruct (tags_V _ _ X) as (l & R & ND & _). apply (N l). split; assumption.
  - destruct (TagList_Parse [] r) as [t o] eqn:T. cbn [snd] in X. subst o.
    assert (T1 : key_tags r new_public_key = (kset_tags t new_public_key, perm)).
    { unfold key_tags. change (pk_tags new_public_key) with (@nil (bytes * tag_entry)). rewrite T. reflexivity. }
    split; [|split].
    + unfold PublicKey_what, key_texts. cbn [first_what]. rewrite T1. cbn [thrown perm]. unfold key_tags_what.
      change (pk_tags new_public_key) with (@nil (bytes * tag_entry)). rewrite E. reflexivity.
    + apply (tags_tell [] _ _ E).
    + rewrite key_texts_run. unfold key_texts. cbn [map fst run_stages]. rewrite T1. reflexivity.
Qed.
