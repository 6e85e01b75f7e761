(** PublicKey::Parse on objects that were used before (for C95). *)
From Verif Require Import Bytes Outcome Stream Tokenizer Base64 TagList MailParser Canonicalization Util Crypto Signature PublicKey Validatory
  BytesFacts SpecText SpecTags SpecSig SpecKey SpecReuse ListFacts TagListFacts SigFacts SigProps KeyFacts KeyExact VerifyProps ReuseTags ReuseFacts.
Local Open Scope string_scope. Local Open Scope list_scope.

Record ksound (p : public_key) : Prop := {
  ks_good : good_ents (pk_tags p);
  ks_once : NoDup (keys (pk_tags p));
  ks_h : forall d, In d (pk_digests p) -> exists hv vs, V (pk_tags p) "h" = Some hv /\ ValueList hv = Ok vs /\ In d (known_digests vs);
  ks_k : V (pk_tags p) "k" = None -> pk_alg p = RSA;
  ks_s : pk_service p <> [] -> exists sv vs, V (pk_tags p) "s" = Some sv /\ ValueList sv = Ok vs /\ service_loop vs [] <> [];
  ks_t : V (pk_tags p) "t" = None -> pk_flags p = [];
  ks_new : pk_tags p = [] -> p = new_public_key }.
Definition kkeeps (step : public_key -> public_key * outcome unit) : Prop := forall p, ksound p -> ksound (fst (step p)).
Definition ksame (step : public_key -> public_key * outcome unit) : Prop := forall p, pk_tags (fst (step p)) = pk_tags p.
Lemma ktag_held n p e : ktag n p = Some e -> pk_tags p <> [].
Proof. unfold ktag. intros T E. rewrite E in T. discriminate T. Qed.
Lemma ktag_V n p e : ktag n p = Some e -> V (pk_tags p) n = Some (te_value e).
Proof. unfold ktag, V. intros ->. reflexivity. Qed.

Lemma service_base vs : forall acc, service_loop vs acc = [] <-> service_loop vs [] = [] /\ (In (str "*") vs \/ acc = []).
Proof.
  intros acc. destruct (in_dec (list_eq_dec ascii_dec) (str "*") vs) as [I|I].
  - rewrite !service_star by auto. tauto.
  - pose proof (service_count vs acc I) as A. pose proof (service_count vs [] I) as B. cbn [length] in B. split.
    + intros E. rewrite E in A. cbn [length] in A. split; [|right]; apply length_zero_iff_nil; lia.
    + intros [E [J|J]]; [contradiction|rewrite J; exact E].
Qed.
Lemma service_same vs acc : (acc <> [] -> service_loop vs [] <> []) -> service_loop vs acc = [] <-> service_loop vs [] = [].
Proof. intros H. rewrite service_base. split; [tauto|]. intros E. split; [exact E|]. right. destruct acc; [reflexivity|]. destruct H; [discriminate|exact E]. Qed.

Lemma kkeeps_v : kkeeps key_v.
Proof. intros p K. unfold key_v. destruct (ktag "v" p) as [e|]; [|exact K]. destruct (beqb _ _); exact K. Qed.
Lemma kkeeps_h : kkeeps key_h.
Proof.
  intros p K. unfold key_h. destruct (ktag "h" p) as [e|] eqn:T; [|exact K]. pose proof (ktag_held _ _ _ T) as N. apply ktag_V in T.
  destruct (te_value e) as [|c v]; [exact K|]. destruct (ValueList (c :: v)) as [vs| | |] eqn:VL; cbn [slift fst]; [|exact K..].
  destruct K as [A B D E F G H]. split; auto.
  - cbn [pk_digests kset_digests pk_tags]. intros d I. apply in_app_or in I as [I|I]; [apply D; exact I|]. exists (c :: v), vs. auto.
  - intros X. destruct (N X).
Qed.
Lemma kkeeps_k : kkeeps key_k.
Proof.
  intros p K. unfold key_k. destruct (ktag "k" p) as [e|] eqn:T; [|exact K]. pose proof (ktag_held _ _ _ T) as N. apply ktag_V in T.
  assert (X : forall a, ksound (kset_alg a p)).
  { intros a. destruct K as [A B D E F G H]. split; auto; intros X; [cbn in X; congruence|destruct (N X)]. }
  destruct (beqb _ _); [apply X|]. destruct (beqb _ _); [apply X|exact K].
Qed.
Lemma kkeeps_p C strict : kkeeps (key_p C strict).
Proof.
  intros p K. unfold key_p. destruct (ktag "p" p) as [e|] eqn:T; [|exact K]. pose proof (ktag_held _ _ _ T) as N.
  assert (X : forall k, ksound (kset_rsa k p)) by (intros k; destruct K as [A B D E F G H]; split; auto; intros X; destruct (N X)).
  assert (Y : forall k, ksound (kset_ed k p)) by (intros k; destruct K as [A B D E F G H]; split; auto; intros Y; destruct (N Y)).
  destruct (te_value e) as [|c v]; [exact K|]. destruct (strip_space strict (c :: v)); cbn [slift fst]; [|exact K..].
  destruct (pk_alg p).
  - destruct (c_d2i_pubkey C _) as [[k|]|]; [apply X|exact K..].
  - destruct (Nat.eqb _ _); [apply Y|exact K].
Qed.
Lemma kkeeps_s : kkeeps key_s.
Proof.
  intros p K. unfold key_s. destruct (ktag "s" p) as [e|] eqn:T; [|exact K]. pose proof (ktag_held _ _ _ T) as N. apply ktag_V in T.
  destruct (te_value e) as [|c v]; [exact K|]. destruct (ValueList (c :: v)) as [vs| | |] eqn:VL; cbn [slift fst]; [|exact K..].
  destruct K as [A B D E F G H]. split; auto.
  - cbn [pk_service kset_service pk_tags]. intros NE. exists (c :: v), vs. split; [exact T|]. split; [exact VL|]. intros Z. apply NE. apply service_same; [|exact Z].
    intros NA. destruct (F NA) as (sv & vs' & E1 & E2 & E3). rewrite T in E1. injection E1 as <-. rewrite VL in E2. injection E2 as <-. exact E3.
  - intros X. destruct (N X).
Qed.
Lemma kkeeps_t : kkeeps key_t.
Proof.
  intros p K. unfold key_t. destruct (ktag "t" p) as [e|] eqn:T; [|exact K]. pose proof (ktag_held _ _ _ T) as N. apply ktag_V in T.
  destruct (ValueList (te_value e)) as [vs| | |]; cbn [slift fst]; [|exact K..]. destruct K as [A B D E F G H]. split; auto; intros X; [cbn in X; congruence|destruct (N X)].
Qed.
Lemma kthen k1 k2 : kkeeps k1 -> kkeeps k2 -> kkeeps (fun p => sbind (k1 p) k2).
Proof. intros H K p S0. specialize (H p S0). destruct (k1 p) as [q [u| | |]]; cbn [sbind fst] in *; auto. Qed.
Lemma ksthen k1 k2 : ksame k1 -> ksame k2 -> ksame (fun p => sbind (k1 p) k2).
Proof. intros H K p. specialize (H p). destruct (k1 p) as [q [u| | |]]; cbn [sbind fst] in *; auto. rewrite K. exact H. Qed.

Definition key_rest (C : crypto) (strict : bool) (p1 : public_key) : public_key * outcome unit :=
  do p2 <- key_v p1 ;; do p3 <- key_h p2 ;; do p4 <- key_k p3 ;; do p5 <- key_p C strict p4 ;; do p6 <- key_s p5 ;; key_t p6.
Definition key_tags (r : bytes) (p : public_key) : public_key * outcome unit :=
  let '(t, o) := TagList_Parse (pk_tags p) r in (kset_tags t p, o).
Lemma key_split C strict r p : PublicKey_Parse C strict r p = sbind (key_tags r p) (key_rest C strict).
Proof. reflexivity. Qed.
Lemma kkeeps_rest C strict : kkeeps (key_rest C strict).
Proof.
  unfold key_rest. apply (kthen key_v); [apply kkeeps_v|]. apply (kthen key_h); [apply kkeeps_h|]. apply (kthen key_k); [apply kkeeps_k|].
  apply (kthen (key_p C strict)); [apply kkeeps_p|]. apply (kthen key_s); [apply kkeeps_s|]. apply kkeeps_t.
Qed.
Lemma kslift_tags {A} (m : outcome A) (k : A -> public_key * outcome unit) p : (forall x, pk_tags (fst (k x)) = pk_tags p) -> pk_tags (fst (slift p m k)) = pk_tags p.
Proof. intros K. destruct m; cbn [slift fst]; auto. Qed.
Ltac kstays := intros p; repeat first [reflexivity | apply kslift_tags; intros | match goal with |- context [match ?x with _ => _ end] => destruct x end].
Lemma ksame_rest C strict : ksame (key_rest C strict).
Proof.
  unfold key_rest. apply (ksthen key_v); [unfold key_v; kstays|]. apply (ksthen key_h); [unfold key_h; kstays|]. apply (ksthen key_k); [unfold key_k; kstays|].
  apply (ksthen (key_p C strict)); [unfold key_p; kstays|]. apply (ksthen key_s); [unfold key_s; kstays|]. unfold key_t; kstays.
Qed.
Lemma kkeeps_tags r : kkeeps (key_tags r).
Proof.
  intros p [A B D E F G H]. unfold key_tags. destruct (TagList_left (pk_tags p) r) as (ents & o & P & FN & GE & _). rewrite P. cbn [fst].
  split; cbn [pk_tags kset_tags pk_digests pk_alg pk_service pk_flags].
  - apply good_app; auto.
  - apply once_app; auto.
  - intros d I. destruct (D d I) as (hv & vs & X & Y & Z). exists hv, vs. split; [apply V_app_Some; exact X|auto].
  - intros X. apply E. eapply V_app_None; eauto.
  - intros N. destruct (F N) as (hv & vs & X & Y & Z). exists hv, vs. split; [apply V_app_Some; exact X|auto].
  - intros X. apply G. eapply V_app_None; eauto.
  - intros X. apply app_eq_nil in X as [X ->]. rewrite X. rewrite (H X) at 1. reflexivity.
Qed.
Lemma used_ksound C p : used_key C p -> ksound p.
Proof.
  induction 1 as [|p strict r U IH].
  - split; cbn; auto; try constructor; [intros d []|intros []; reflexivity].
  - rewrite key_split. apply (kthen (key_tags r) (key_rest C strict)); [apply kkeeps_tags|apply kkeeps_rest|exact IH].
Qed.

(** ** Success *)
Lemma krest_ok C strict p p' : ksound p -> key_rest C strict p = (p', Ok tt) -> exists q, key_ok C (pk_tags p) q /\ same_key p' q.
Proof.
  intros [SG _ SH SK SS ST _] K. unfold key_rest in K. pose proof (good_V _ SG) as G. destruct p as [tags ds0 rsa0 ed0 a0 sv0 fl0]. cbn [pk_tags pk_digests pk_alg pk_service pk_flags] in *.
  apply sbind_Ok in K as (p2 & K2 & K). apply (proj1 (key_v_Ok _ _)) in K2 as [-> Kv].
  apply sbind_Ok in K as (p3 & K3 & K). apply (proj1 (key_h_Ok _ _)) in K3. change (kV _ "h") with (V tags "h") in K3.
  assert (K3' : exists ds, match V tags "h" with None => ds = [] | Some hv => hv <> [] /\ exists vs, ValueList hv = Ok vs /\ ds = known_digests vs end /\
    exists ds1, (forall d, In d ds1 <-> In d ds) /\ p3 = mkPub tags ds1 rsa0 ed0 a0 sv0 fl0).
  { destruct (V tags "h") as [hv|].
    - destruct K3 as (N & vs & E & ->). exists (known_digests vs). split; [eauto|]. exists (ds0 ++ known_digests vs). split; [|reflexivity].
      intros d. rewrite in_app_iff. split; [intros [I|I]; [|exact I]|auto]. destruct (SH d I) as (hv' & vs' & [= <-] & E2 & J). rewrite E in E2. injection E2 as <-. exact J.
    - exists []. split; [reflexivity|]. exists ds0. split; [|exact K3]. intros d. split; [|intros []]. intros I. destruct (SH d I) as (hv' & _ & [=] & _). }
  destruct K3' as (ds & Kh & ds1 & DS & ->). clear K3.
  apply sbind_Ok in K as (p4 & K4 & K). apply (proj1 (key_k_Ok _ _)) in K4. change (kV _ "k") with (V tags "k") in K4.
  assert (K4' : exists a, match V tags "k" with None => a = RSA | Some k => k = alg_name a end /\ p4 = mkPub tags ds1 rsa0 ed0 a sv0 fl0).
  { destruct (V tags "k"); [destruct K4 as (a & E & ->); exists a; auto|]. exists a0. auto. }
  destruct K4' as (a & Kk & ->). clear K4.
  apply sbind_Ok in K as (p5 & K5 & K). rewrite key_p_Ok in K5 by exact G. destruct K5 as (pv & Ep & Np & K5). change (kV _ "p") with (V tags "p") in Ep.
  cbn [pk_alg] in K5.
  assert (K5' : exists rsa ed rsa1 ed1, match a with
    | RSA => ed = [] /\ exists k, c_d2i_pubkey C (b64d C (unspaced pv)) = Some (Some k) /\ rsa = Some k
    | ED25519 => rsa = None /\ ed = b64d C (unspaced pv) /\ length ed = 32 end /\ p5 = mkPub tags ds1 rsa1 ed1 a sv0 fl0 /\
    match a with RSA => rsa1 = rsa | ED25519 => ed1 = ed end).
  { destruct a; [destruct K5 as (k & E & ->); exists (Some k), [], (Some k), ed0; split; [split; eauto|split; reflexivity]|].
    destruct K5 as (L & ->). exists None, (b64d C (unspaced pv)), rsa0, (b64d C (unspaced pv)). split; [auto|split; reflexivity]. }
  destruct K5' as (rsa & ed & rsa1 & ed1 & Kp & -> & SP). clear K5.
  apply sbind_Ok in K as (p6 & K6 & K). apply (proj1 (key_s_Ok _ _)) in K6. change (kV _ "s") with (V tags "s") in K6.
  assert (K6' : exists sv, match V tags "s" with None => sv = [] | Some x => x <> [] /\ exists vs, ValueList x = Ok vs /\ sv = service_loop vs [] end /\
    exists sv1, (sv1 = [] <-> sv = []) /\ p6 = mkPub tags ds1 rsa1 ed1 a sv1 fl0).
  { destruct (V tags "s") as [x|].
    - destruct K6 as (N & vs & E & ->). exists (service_loop vs []). split; [eauto|]. exists (service_loop vs sv0). split; [|reflexivity]. apply service_same.
      intros NE. destruct (SS NE) as (sv' & vs' & [= <-] & E2 & J). rewrite E in E2. injection E2 as <-. exact J.
    - exists []. split; [reflexivity|]. exists sv0. split; [|exact K6]. split; [reflexivity|]. intros _. destruct sv0 as [|x y]; [reflexivity|]. destruct SS as (z & _ & [=] & _). discriminate. }
  destruct K6' as (sv & Ks & sv1 & SV & ->). clear K6.
  apply (proj1 (key_t_Ok _ _)) in K. change (kV _ "t") with (V tags "t") in K.
  assert (K' : exists fl, match V tags "t" with None => fl = [] | Some x => ValueList x = Ok fl end /\ p' = mkPub tags ds1 rsa1 ed1 a sv1 fl).
  { destruct (V tags "t"); [destruct K as (vs & E & ->); exists vs; auto|]. exists fl0. auto. }
  destruct K' as (fl & Kt & ->). exists (mkPub tags ds rsa ed a sv fl). split; [eapply key_ok_intro; eauto|].
  unfold same_key. cbn [pk_digests pk_alg pk_flags pk_service pk_rsa pk_ed]. repeat (split; auto); try apply DS; try apply SV.
Qed.
Lemma krest_back C strict p q : ksound p -> key_ok C (pk_tags p) q -> exists p', key_rest C strict p = (p', Ok tt).
Proof.
  intros [SG _ SH SK SS ST _] K. unfold key_rest. pose proof (good_V _ SG) as G. destruct p as [tags ds0 rsa0 ed0 a0 sv0 fl0]. cbn [pk_tags pk_digests pk_alg pk_service pk_flags] in *.
  destruct K as [ds a rsa ed sv fl pv Kv Kh Kk Ep Np Kp Ks Kt].
  set (ds1 := match V tags "h" with None => ds0 | Some _ => ds0 ++ ds end).
  set (rsa1 := match a with RSA => rsa | ED25519 => rsa0 end). set (ed1 := match a with RSA => ed0 | ED25519 => ed end).
  assert (KS : exists sv1, key_s (mkPub tags ds1 rsa1 ed1 a sv0 fl0) = (mkPub tags ds1 rsa1 ed1 a sv1 fl0, Ok tt)).
  { destruct (V tags "s") as [x|] eqn:E.
    - destruct Ks as (N & vs & VL & _). exists (service_loop vs sv0). apply key_s_Ok. change (kV _ "s") with (V tags "s"). rewrite E. split; [exact N|]. exists vs. auto.
    - exists sv0. apply key_s_Ok. change (kV _ "s") with (V tags "s"). rewrite E. reflexivity. }
  destruct KS as (sv1 & KS). exists (mkPub tags ds1 rsa1 ed1 a sv1 (match V tags "t" with None => fl0 | Some _ => fl end)).
  apply sbind_Ok. eexists. split. { apply key_v_Ok. split; [reflexivity|exact Kv]. }
  apply sbind_Ok. exists (mkPub tags ds1 rsa0 ed0 a0 sv0 fl0). split.
  { apply key_h_Ok. change (kV _ "h") with (V tags "h"). unfold ds1. destruct (V tags "h"); [|reflexivity].
    destruct Kh as (N & vs & E & ->). split; auto. exists vs. auto. }
  apply sbind_Ok. exists (mkPub tags ds1 rsa0 ed0 a sv0 fl0). split.
  { apply key_k_Ok. change (kV _ "k") with (V tags "k"). destruct (V tags "k"); [exists a; auto|]. rewrite Kk, SK by auto. reflexivity. }
  apply sbind_Ok. exists (mkPub tags ds1 rsa1 ed1 a sv0 fl0). split.
  { apply key_p_Ok; [exact G|]. exists pv. split; [exact Ep|]. split; [exact Np|]. cbn [pk_alg]. unfold rsa1, ed1. destruct a.
    - destruct Kp as (_ & k & E & ->). exists k. auto.
    - destruct Kp as (_ & -> & L). auto. }
  apply sbind_Ok. eexists. split; [exact KS|].
  apply key_t_Ok. change (kV _ "t") with (V tags "t"). destruct (V tags "t"); [exists fl; auto|reflexivity].
Qed.
Lemma same_key_tags t p q : same_key p q -> same_key p (kset_tags t q).
Proof. intros K. exact K. Qed.

Lemma used_key_exact C p strict r l : used_key C p -> record_tags r l -> new_names (held (pk_tags p)) l ->
  (forall p', PublicKey_Parse C strict r p = (p', Ok tt) -> exists q, key_says C (held (pk_tags p) ++ l) q /\ same_key p' q) /\
  (forall q, key_says C (held (pk_tags p) ++ l) q -> exists p', PublicKey_Parse C strict r p = (p', Ok tt) /\ same_key p' q).
Proof.
  intros U (R & N) F. pose proof (used_ksound C p U) as SO.
  destruct (tags_taken (pk_tags p) l _ R N F) as (ents & P & HE & GE & FN). set (T := pk_tags p ++ ents) in *.
  assert (SO1 : ksound (kset_tags T p)).
  { pose proof (kkeeps_tags r p SO) as X. unfold key_tags in X. rewrite P in X. exact X. }
  assert (HV : forall n v, V T n = Some v <-> has (held (pk_tags p) ++ l) n v).
  { intros n v. rewrite (held_has T n v (ks_once _ SO1)). unfold T. rewrite held_app, HE. reflexivity. }
  assert (LV : forall n, V T n = None <-> lacks (held (pk_tags p) ++ l) n).
  { intros n. rewrite (held_lacks T n). unfold T. rewrite held_app, HE. reflexivity. }
  pose proof (ok_says C (held (pk_tags p) ++ l) T HV LV) as OS.
  assert (PS : PublicKey_Parse C strict r p = key_rest C strict (kset_tags T p)).
  { rewrite key_split. unfold key_tags. rewrite P. reflexivity. }
  rewrite PS.
  assert (Q1 : forall p', key_rest C strict (kset_tags T p) = (p', Ok tt) -> exists q, key_says C (held (pk_tags p) ++ l) q /\ same_key p' q).
  { intros p' K. destruct (krest_ok C strict _ _ SO1 K) as (q & KO & SK). exists q. split; [|exact SK]. apply OS. cbn [pk_tags kset_tags] in KO.
    replace (kset_tags T q) with q by (inversion KO; reflexivity). exact KO. }
  split; [exact Q1|]. intros q K. apply OS in K as KO. destruct (krest_back C strict (kset_tags T p) _ SO1 KO) as (p' & K'). exists p'. split; [exact K'|].
  destruct (krest_ok C strict _ _ SO1 K') as (q' & KO' & SK'). cbn [pk_tags kset_tags] in KO'.
  assert (X : q' = kset_tags T q).
  { remember (kset_tags T q) as q0. clear - KO KO'.
    inversion KO as [ds a rsa ed sv fl pv Kv Kh Kk Ep Np Kp Ks Kt E]. inversion KO' as [ds' a' rsa' ed' sv' fl' pv' Kv' Kh' Kk' Ep' Np' Kp' Ks' Kt' E'].
    assert (pv' = pv) by congruence. subst pv'.
    assert (a' = a). { destruct (V T "k"); [|congruence]. subst b. destruct a, a'; auto; discriminate. } subst a'.
    assert (ds' = ds). { destruct (V T "h"); [|congruence]. destruct Kh as (_ & vs & A & ->), Kh' as (_ & vs' & A' & ->). congruence. }
    assert (sv' = sv). { destruct (V T "s"); [|congruence]. destruct Ks as (_ & vs & A & ->), Ks' as (_ & vs' & A' & ->). congruence. }
    assert (fl' = fl). { destruct (V T "t"); congruence. }
    destruct a; [destruct Kp as (-> & k & A & ->), Kp' as (-> & k' & A' & ->)|destruct Kp as (-> & -> & _), Kp' as (-> & -> & _)]; congruence. }
  subst q'. exact SK'.
Qed.
Lemma used_key_kept C p strict r l : used_key C p -> record_tags r l -> new_names (held (pk_tags p)) l ->
  held (pk_tags (fst (PublicKey_Parse C strict r p))) = held (pk_tags p) ++ l.
Proof.
  intros U (R & N) F. rewrite key_split. unfold key_tags.
  destruct (tags_taken (pk_tags p) l _ R N F) as (ents & -> & HE & _). cbn [sbind]. rewrite ksame_rest. cbn [pk_tags kset_tags]. rewrite held_app, HE. reflexivity.
Qed.
Lemma used_key_left C p strict r : used_key C p -> (forall l, record_tags r l -> ~ new_names (held (pk_tags p)) l) ->
  exists tags l, PublicKey_Parse C strict r p = (kset_tags tags p, Throw (PermanentError AR_PERMERROR)) /\ held tags = held (pk_tags p) ++ l /\
    (forall l', left_behind (map fst (held (pk_tags p))) l' r <-> l' = l).
Proof.
  intros U K. destruct (tags_refused (pk_tags p) r) as (ents & l & P & HE & LB).
  { intros l R N. apply K. split; auto. }
  exists (pk_tags p ++ ents), l. rewrite key_split. unfold key_tags. rewrite P. cbn [sbind]. split; [reflexivity|]. split; [rewrite held_app, HE; reflexivity|exact LB].
Qed.
Lemma parsed_p C strict r p p' : PublicKey_Parse C strict r p = (p', Ok tt) -> V (pk_tags p') "p" <> None.
Proof.
  intros P. rewrite key_split in P. apply sbind_Ok in P as (p1 & _ & P). pose proof (ksame_rest C strict p1) as E. rewrite P in E. cbn [fst] in E. rewrite E. clear E.
  unfold key_rest in P. apply sbind_Ok in P as (p2 & P2 & P). apply sbind_Ok in P as (p3 & P3 & P). apply sbind_Ok in P as (p4 & P4 & P). apply sbind_Ok in P as (p5 & P5 & _).
  assert (E2 : pk_tags p2 = pk_tags p1) by (change p2 with (fst (p2, Ok tt)); rewrite <- P2; unfold key_v; clear; revert p1; kstays).
  assert (E3 : pk_tags p3 = pk_tags p2) by (change p3 with (fst (p3, Ok tt)); rewrite <- P3; unfold key_h; clear; revert p2; kstays).
  assert (E4 : pk_tags p4 = pk_tags p3) by (change p4 with (fst (p4, Ok tt)); rewrite <- P4; unfold key_k; clear; revert p3; kstays).
  rewrite <- E2, <- E3, <- E4. unfold key_p, ktag in P5. unfold V. destruct (GetTag (str "p") (pk_tags p4)); [discriminate|discriminate P5].
Qed.
Lemma used_key_after C p strict1 r1 p1 strict2 r2 p2 : used_key C p ->
  PublicKey_Parse C strict1 r1 p = (p1, Ok tt) -> PublicKey_Parse C strict2 r2 new_public_key = (p2, Ok tt) ->
  snd (PublicKey_Parse C strict2 r2 p1) = Throw (PermanentError AR_PERMERROR).
Proof.
  intros U P1 P2. assert (U1 : used_key C p1) by (replace p1 with (fst (PublicKey_Parse C strict1 r1 p)) by (rewrite P1; reflexivity); apply used_key_again; exact U).
  pose proof (parsed_p _ _ _ _ _ P1) as D1. pose proof (parsed_p _ _ _ _ _ P2) as D2.
  apply PublicKey_Parse_Ok in P2 as (tags & PT & K). destruct (tags_V _ _ PT) as (l & R & ND & HV & LV).
  assert (ET : pk_tags p2 = tags) by (inversion K; reflexivity). rewrite ET in D2.
  destruct (used_key_left C p1 strict2 r2 U1) as (tg & l1 & -> & _); [|reflexivity].
  intros l' [R' _] NN. assert (l' = l) by (eapply rendered_unique; eauto). subst l'. apply (NN (str "p")).
  - destruct (in_dec (list_eq_dec ascii_dec) (str "p") (map fst l)) as [I|I]; [exact I|]. exfalso. apply D2. apply LV. exact I.
  - rewrite held_names. destruct (in_dec (list_eq_dec ascii_dec) (str "p") (keys (pk_tags p1))) as [I|I]; [exact I|]. exfalso. apply D1.
    unfold V. apply GetTag_None in I. rewrite I. reflexivity.
Qed.
Lemma used_key_blank C p : used_key C p -> pk_tags p = [] -> p = new_public_key.
Proof. intros U. apply ks_new. exact (used_ksound C p U). Qed.
Lemma same_key_digests d p q : (forall x, In x (pk_digests p) <-> In x (pk_digests q)) ->
  match pk_digests p with [] => true | l => existsb (digest_eqb d) l end = match pk_digests q with [] => true | l => existsb (digest_eqb d) l end.
Proof.
  intros H. assert (E : existsb (digest_eqb d) (pk_digests p) = existsb (digest_eqb d) (pk_digests q)).
  { apply eq_true_iff_eq. rewrite !existsb_exists. split; intros (x & I & E); exists x; (split; [apply H; exact I|exact E]). }
  destruct (pk_digests p) as [|x l], (pk_digests q) as [|y m]; auto.
  - destruct (proj2 (H y)). left. reflexivity.
  - destruct (proj1 (H x)). left. reflexivity.
Qed.
Lemma same_key_checks C strict p q : same_key p q -> SoftFail p = SoftFail q /\ forall h g v, CheckSignature C strict h g p v = CheckSignature C strict h g q v.
Proof.
  intros (D & A & F & _ & K). split; [unfold SoftFail; rewrite F; reflexivity|]. intros h g v. unfold CheckSignature.
  assert (E : key_allows g p = key_allows g q) by (unfold key_allows; rewrite (same_key_digests _ p q D), A, F; reflexivity). rewrite E.
  destruct (key_allows g q) eqn:KA; [|reflexivity]. unfold key_allows in KA. apply andb_prop in KA as [KA _]. apply andb_prop in KA as [_ KA].
  destruct (signed_data strict h g v); cbn [obind]; auto. unfold verify_digest. rewrite A in K.
  destruct (sg_alg g), (pk_alg q); try discriminate KA; rewrite K; reflexivity.
Qed.
