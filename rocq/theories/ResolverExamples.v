(** Query outcomes (for C37) and witnesses for C64. *)
From Verif Require Import Bytes Outcome Crypto Signature PublicKey Validatory Resolver SpecDns ResolverFacts ResolverCut VerifyFacts VerifyProps Examples.

Lemma query_failed C strict lax answer g p :
  let r := GetPublicKey C strict (fun name => GetTXT lax (answer name)) g p in
  match answer (sg_selector g ++ str "._domainkey." ++ sg_domain g) with
  | QFail HOST_NOT_FOUND | QFail NO_DATA | QFail NO_RECOVERY => r = (p, Throw (PermanentError AR_PERMERROR))
  | QFail _ => r = (p, Throw (TemporaryError AR_TEMPERROR))
  | QAnswer pkt => (65536 < N.of_nat (length pkt))%N -> r = (p, Throw (TemporaryError AR_TEMPERROR))
  end.
Proof.
  cbv zeta. unfold GetPublicKey, key_query. destruct (answer _) as [[]|pkt] eqn:E; try reflexivity.
  intros L. unfold GetTXT. destruct (N.ltb_spec BUFSZ (N.of_nat (length pkt))); [reflexivity|unfold BUFSZ in *; lia].
Qed.
Lemma query_answered C strict lax answer g p texts pkt :
  answer (sg_selector g ++ str "._domainkey." ++ sg_domain g) = QAnswer pkt -> (N.of_nat (length pkt) <= 65536)%N ->
  (response texts pkt -> GetPublicKey C strict (fun name => GetTXT lax (answer name)) g p =
     match concat texts with [] => (p, Throw (PermanentError AR_PERMERROR)) | r => PublicKey_Parse C strict r p end) /\
  (broken_response texts pkt -> GetPublicKey C strict (fun name => GetTXT lax (answer name)) g p = (p, Throw (TemporaryError AR_TEMPERROR))).
Proof.
  intros E L. split; intros R.
  - rewrite (GetPublicKey_lookup C strict _ g p true (concat texts)); [destruct (concat texts); reflexivity|].
    rewrite E. apply GetTXT_response; auto.
  - apply (GetPublicKey_lookup C strict _ g p false (concat texts)). rewrite E. apply GetTXT_broken; auto.
Qed.

Definition head2 : bytes := esc "IDff\0\0" ++ [chr 0; chr 2] ++ esc "aabb".
Definition rr (rd : bytes) : bytes := [chr 192; chr 12; chr 0; chr 16] ++ esc "ccTTTT" ++ [chr 0; chr (N.of_nat (length rd))] ++ rd.
Definition rd_a : bytes := chr 3 :: esc "p=A".
Definition rd_b : bytes := chr 2 :: esc "BC".
Lemma rec_ab : record (esc "p=A") (rr rd_a) /\ record (esc "BC") (rr rd_b).
Proof.
  assert (N12 : dns_name [chr 192; chr 12]) by (apply dn_pointer; vm_compute; discriminate). split.
  - apply (rec_txt [chr 192; chr 12] (esc "ccTTTT") [chr 0; chr 4] rd_a [esc "p=A"]); [exact N12|reflexivity|apply (tb_intro (chr 0) (chr 4))|].
    apply (str_cons (chr 3) (esc "p=A") [] []); [reflexivity|apply str_nil].
  - apply (rec_txt [chr 192; chr 12] (esc "ccTTTT") [chr 0; chr 3] rd_b [esc "BC"]); [exact N12|reflexivity|apply (tb_intro (chr 0) (chr 3))|].
    apply (str_cons (chr 2) (esc "BC") [] []); [reflexivity|apply str_nil].
Qed.
Lemma cut_unnoticed : exists texts have missing, response texts (have ++ missing) /\
  GetTXT false (QAnswer have) = Ok (true, esc "p=A") /\ concat texts = esc "p=ABC".
Proof.
  exists [esc "p=A"; esc "BC"], (head2 ++ rr rd_a), (rr rd_b). split; [|split; vm_compute; reflexivity].
  assert (E : (head2 ++ rr rd_a) ++ rr rd_b = esc "IDff" ++ esc "\0\0" ++ [chr 0; chr 2] ++ esc "aabb" ++ concat [] ++ concat [rr rd_a; rr rd_b] ++ []) by (vm_compute; reflexivity).
  rewrite E. apply response_intro; [reflexivity|apply (tb_intro (chr 0) (chr 0))|apply (tb_intro (chr 0) (chr 2))|reflexivity|constructor|].
  destruct rec_ab. constructor; [assumption|]. constructor; [assumption|constructor].
Qed.
Lemma strings_cons ss a r : strings ss (a :: r) -> exists s d ss', r = s ++ d /\ length s = N.to_nat (code a) /\ strings ss' d.
Proof. intros X. inversion X; subst. do 3 eexists. eauto. Qed.
Lemma overlong_string : exists pre rd, (forall ss, ~ strings ss rd) /\
  GetTXT false (QAnswer (pre ++ rd)) = Ok (true, esc "p=A").
Proof.
  exists (esc "IDff\0\0" ++ [chr 0; chr 1] ++ esc "aabb" ++ [chr 192; chr 12; chr 0; chr 16] ++ esc "ccTTTT" ++ [chr 0; chr 6]),
    [chr 3; chr 112; chr 61; chr 65; chr 5; chr 120]. split; [|vm_compute; reflexivity].
  intros ss X. apply strings_cons in X as (s & d & ss' & E & L & D). change (N.to_nat (code (chr 3))) with 3 in L.
  do 3 (destruct s as [|? s]; [discriminate L|]). destruct s as [|? s]; [|discriminate L]. cbn [app] in E.
  injection E as _ _ _ E. rewrite <- E in D. apply strings_cons in D as (s & d2 & ss2 & E2 & L2 & _). change (N.to_nat (code (chr 5))) with 5 in L2.
  apply (f_equal (@length _)) in E2. rewrite app_length, L2 in E2. cbn [length] in E2. lia.
Qed.
Definition broken_packet : bytes := head2 ++ rr rd_a ++ [chr 192; chr 12; chr 0; chr 16] ++ esc "ccTT".
Lemma broken_case : broken_response [esc "p=A"] broken_packet /\ GetTXT true (QAnswer broken_packet) = Ok (false, esc "p=A").
Proof.
  split; [|vm_compute; reflexivity].
  assert (E : broken_packet = esc "IDff" ++ esc "\0\0" ++ [chr 0; chr 2] ++ esc "aabb" ++ concat [] ++ concat [rr rd_a] ++ ([chr 192; chr 12] ++ [chr 0; chr 16] ++ esc "ccTT")) by (vm_compute; reflexivity).
  rewrite E. apply (broken_response_intro (esc "IDff") (esc "\0\0") [chr 0; chr 2] 2 (esc "aabb") [] [esc "p=A"] [rr rd_a]);
    [reflexivity|apply (tb_intro (chr 0) (chr 0))|apply (tb_intro (chr 0) (chr 2))|vm_compute; reflexivity|reflexivity|constructor| |].
  - constructor; [apply rec_ab|constructor].
  - apply (broken_off_intro [chr 192; chr 12] [chr 0; chr 16] 16 (esc "ccTTTT") [chr 0; chr 0] [] ([chr 0; chr 16] ++ esc "ccTT") (esc "TT\0\0")).
    + apply dn_pointer. vm_compute. discriminate.
    + apply (tb_intro (chr 0) (chr 16)).
    + reflexivity.
    + apply (tb_intro (chr 0) (chr 0)).
    + vm_compute. reflexivity.
    + vm_compute. discriminate.
Qed.
