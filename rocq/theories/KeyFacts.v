(** Facts about PublicKey::Parse. *)
From Verif Require Import Bytes Outcome Stream Tokenizer Base64 TagList Util Crypto PublicKey
  BytesFacts SpecText SpecTags SpecSig SpecKey QPFacts ListFacts TagListFacts SigFacts SigProps.

(** ** Success of PublicKey::Parse on a fresh object, exactly *)
Inductive key_ok (C : crypto) (tags : taglist) : public_key -> Prop :=
| key_ok_intro ds a rsa ed sv fl pv :
    (V tags "v" = None \/ V tags "v" = Some (str "DKIM1")) ->
    match V tags "h" with None => ds = [] | Some hv => hv <> [] /\ exists vs, ValueList hv = Ok vs /\ ds = known_digests vs end ->
    match V tags "k" with None => a = RSA | Some k => k = alg_name a end ->
    V tags "p" = Some pv -> pv <> [] ->
    match a with
    | RSA => ed = [] /\ exists k, c_d2i_pubkey C (b64d C (unspaced pv)) = Some (Some k) /\ rsa = Some k
    | ED25519 => rsa = None /\ ed = b64d C (unspaced pv) /\ length ed = 32
    end ->
    match V tags "s" with None => sv = [] | Some x => x <> [] /\ exists vs, ValueList x = Ok vs /\ sv = service_loop vs [] end ->
    match V tags "t" with None => fl = [] | Some x => ValueList x = Ok fl end ->
    key_ok C tags (mkPub tags ds rsa ed a sv fl).

Definition kV (p : public_key) (n : string) : option bytes := V (pk_tags p) n.
Ltac ktagV n p :=
  unfold kV, V, ktag; destruct (GetTag (str n) (pk_tags p)) as [e|] eqn:Eg; cbn [option_map].

Lemma key_v_Ok p p' : key_v p = (p', Ok tt) <-> p' = p /\ (kV p "v" = None \/ kV p "v" = Some (str "DKIM1")).
Proof.
  unfold key_v. ktagV "v"%string p.
  - destruct (beqb_spec (te_value e) (str "DKIM1")) as [E|N].
    + rewrite E. split; [intros [= <-]|intros [-> _]]; auto.
    + split; [discriminate|]. intros [_ [E|E]]; [discriminate|]. injection E as E. contradiction.
  - split; [intros [= <-]|intros [-> _]]; auto.
Qed.
Lemma key_h_Ok p p' : key_h p = (p', Ok tt) <->
  match kV p "h" with
  | None => p' = p
  | Some hv => hv <> [] /\ exists vs, ValueList hv = Ok vs /\ p' = kset_digests (pk_digests p ++ known_digests vs) p
  end.
Proof.
  unfold key_h. ktagV "h"%string p.
  - destruct (te_value e) as [|c v]; [split; [discriminate|intros [X _]; congruence]|]. rewrite slift_Ok. split.
    + intros (vs & E & [= <-]). split; [discriminate|]. eauto.
    + intros (_ & vs & E & ->). eauto.
  - split; [intros [= <-]|intros ->]; auto.
Qed.
Lemma key_k_Ok p p' : key_k p = (p', Ok tt) <->
  match kV p "k" with None => p' = p | Some k => exists a, k = alg_name a /\ p' = kset_alg a p end.
Proof.
  unfold key_k. ktagV "k"%string p.
  - destruct (beqb_spec (te_value e) (str "rsa")) as [E|N]; [|destruct (beqb_spec (te_value e) (str "ed25519")) as [E|N2]].
    + rewrite E. split; [intros [= <-]; exists RSA; auto|]. intros ([] & X & ->); [reflexivity|discriminate].
    + rewrite E. split; [intros [= <-]; exists ED25519; auto|]. intros ([] & X & ->); [discriminate|reflexivity].
    + split; [discriminate|]. intros ([] & X & _); [destruct N|destruct N2]; exact X.
  - split; [intros [= <-]|intros ->]; auto.
Qed.
Lemma key_p_Ok C strict p p' : good_tags (pk_tags p) -> key_p C strict p = (p', Ok tt) <->
  exists pv, kV p "p" = Some pv /\ pv <> [] /\
  match pk_alg p with
  | RSA => exists k, c_d2i_pubkey C (b64d C (unspaced pv)) = Some (Some k) /\ p' = kset_rsa (Some k) p
  | ED25519 => length (b64d C (unspaced pv)) = 32 /\ p' = kset_ed (b64d C (unspaced pv)) p
  end.
Proof.
  intros G. unfold key_p. ktagV "p"%string p.
  - assert (Ev : V (pk_tags p) "p" = Some (te_value e)) by (unfold V; rewrite Eg; reflexivity).
    pose proof (G "p"%string _ Ev) as T. apply tag_value_7bit in T. destruct (te_value e) as [|c v].
    { split; [discriminate|]. intros (pv & [= <-] & X & _). congruence. }
    rewrite slift_Ok, strip_7bit by auto. split.
    + intros (x & [= <-] & K). eexists. split; [reflexivity|]. split; [discriminate|]. destruct (pk_alg p).
      * destruct (c_d2i_pubkey C _) as [[k|]|]; try discriminate. injection K as <-. eauto.
      * match type of K with context [Nat.eqb ?a 32] => destruct (Nat.eqb_spec a 32) as [L|L] end; [|discriminate].
        injection K as <-. auto.
    + intros (pv & [= <-] & _ & K). eexists. split; [reflexivity|]. destruct (pk_alg p).
      * destruct K as (k & E & ->). rewrite E. reflexivity.
      * destruct K as [L ->]. rewrite L. reflexivity.
  - split; [discriminate|]. intros (pv & E & _). discriminate.
Qed.
Lemma key_s_Ok p p' : key_s p = (p', Ok tt) <->
  match kV p "s" with
  | None => p' = p
  | Some x => x <> [] /\ exists vs, ValueList x = Ok vs /\ p' = kset_service (service_loop vs (pk_service p)) p
  end.
Proof.
  unfold key_s. ktagV "s"%string p.
  - destruct (te_value e) as [|c v]; [split; [discriminate|intros [X _]; congruence]|]. rewrite slift_Ok. split.
    + intros (vs & E & [= <-]). split; [discriminate|]. eauto.
    + intros (_ & vs & E & ->). eauto.
  - split; [intros [= <-]|intros ->]; auto.
Qed.
Lemma key_t_Ok p p' : key_t p = (p', Ok tt) <->
  match kV p "t" with None => p' = p | Some x => exists vs, ValueList x = Ok vs /\ p' = kset_flags vs p end.
Proof.
  unfold key_t. ktagV "t"%string p.
  - rewrite slift_Ok. split; [intros (vs & E & [= <-])|intros (vs & E & ->)]; eauto.
  - split; [intros [= <-]|intros ->]; auto.
Qed.

Lemma PublicKey_Parse_Ok C strict r p : PublicKey_Parse C strict r new_public_key = (p, Ok tt) <->
  exists tags, TagList_Parse [] r = (tags, Ok tt) /\ key_ok C tags p.
Proof.
  unfold PublicKey_Parse. rewrite sbind_Ok. change (pk_tags new_public_key) with (@nil (bytes * tag_entry)). split.
  - destruct (TagList_Parse [] r) as [tags o] eqn:P. intros (p1 & [= <- ->] & K). exists tags. split; auto. pose proof (tags_good _ _ P) as G.
    apply sbind_Ok in K as (p2 & K2 & K). apply (proj1 (key_v_Ok _ _)) in K2 as [-> Kv].
    apply sbind_Ok in K as (p3 & K3 & K). apply (proj1 (key_h_Ok _ _)) in K3. change (kV _ "h") with (V tags "h") in K3.
    assert (K3' : exists ds, match V tags "h" with None => ds = [] | Some hv => hv <> [] /\ exists vs, ValueList hv = Ok vs /\ ds = known_digests vs end /\
      p3 = mkPub tags ds None [] RSA [] []).
    { destruct (V tags "h"); [destruct K3 as (N & vs & E & ->); exists (known_digests vs); eauto|]. exists []. auto. }
    destruct K3' as (ds & Kh & ->). clear K3.
    apply sbind_Ok in K as (p4 & K4 & K). apply (proj1 (key_k_Ok _ _)) in K4. change (kV _ "k") with (V tags "k") in K4.
    assert (K4' : exists a, match V tags "k" with None => a = RSA | Some k => k = alg_name a end /\ p4 = mkPub tags ds None [] a [] []).
    { destruct (V tags "k"); [destruct K4 as (a & E & ->); exists a; auto|]. exists RSA. auto. }
    destruct K4' as (a & Kk & ->). clear K4.
    apply sbind_Ok in K as (p5 & K5 & K). rewrite key_p_Ok in K5 by exact G. destruct K5 as (pv & Ep & Np & K5). change (kV _ "p") with (V tags "p") in Ep.
    cbn [pk_alg] in K5.
    assert (K5' : exists rsa ed, match a with
      | RSA => ed = [] /\ exists k, c_d2i_pubkey C (b64d C (unspaced pv)) = Some (Some k) /\ rsa = Some k
      | ED25519 => rsa = None /\ ed = b64d C (unspaced pv) /\ length ed = 32 end /\ p5 = mkPub tags ds rsa ed a [] []).
    { destruct a; [destruct K5 as (k & E & ->); exists (Some k), []; eauto|].
      destruct K5 as (L & ->). exists None, (b64d C (unspaced pv)). auto. }
    destruct K5' as (rsa & ed & Kp & ->). clear K5.
    apply sbind_Ok in K as (p6 & K6 & K). apply (proj1 (key_s_Ok _ _)) in K6. change (kV _ "s") with (V tags "s") in K6.
    assert (K6' : exists sv, match V tags "s" with None => sv = [] | Some x => x <> [] /\ exists vs, ValueList x = Ok vs /\ sv = service_loop vs [] end /\
      p6 = mkPub tags ds rsa ed a sv []).
    { destruct (V tags "s"); [destruct K6 as (N & vs & E & ->); exists (service_loop vs []); eauto|]. exists []. auto. }
    destruct K6' as (sv & Ks & ->). clear K6.
    apply (proj1 (key_t_Ok _ _)) in K. change (kV _ "t") with (V tags "t") in K.
    assert (K' : exists fl, match V tags "t" with None => fl = [] | Some x => ValueList x = Ok fl end /\ p = mkPub tags ds rsa ed a sv fl).
    { destruct (V tags "t"); [destruct K as (vs & E & ->); exists vs; auto|]. exists []. auto. }
    destruct K' as (fl & Kt & ->). eapply key_ok_intro; eauto.
  - intros (tags & P & K). pose proof (tags_good _ _ P) as G. rewrite P. exists (kset_tags tags new_public_key). split; auto.
    destruct K as [ds a rsa ed sv fl pv Kv Kh Kk Ep Np Kp Ks Kt].
    apply sbind_Ok. eexists. split. { apply key_v_Ok. split; [reflexivity|exact Kv]. }
    apply sbind_Ok. exists (mkPub tags ds None [] RSA [] []). split.
    { apply key_h_Ok. change (kV _ "h") with (V tags "h"). destruct (V tags "h").
      - destruct Kh as (N & vs & E & ->). split; auto. exists vs. auto.
      - subst ds. reflexivity. }
    apply sbind_Ok. exists (mkPub tags ds None [] a [] []). split.
    { apply key_k_Ok. change (kV _ "k") with (V tags "k"). destruct (V tags "k"); [exists a; auto|]. subst a. reflexivity. }
    apply sbind_Ok. exists (mkPub tags ds rsa ed a [] []). split.
    { apply key_p_Ok; [exact G|]. exists pv. split; [exact Ep|]. split; [exact Np|]. cbn [pk_alg]. destruct a.
      - destruct Kp as (-> & k & E & ->). exists k. auto.
      - destruct Kp as (-> & -> & L). auto. }
    apply sbind_Ok. exists (mkPub tags ds rsa ed a sv []). split.
    { apply key_s_Ok. change (kV _ "s") with (V tags "s"). destruct (V tags "s").
      - destruct Ks as (N & vs & E & ->). split; auto. exists vs. auto.
      - subst sv. reflexivity. }
    apply key_t_Ok. change (kV _ "t") with (V tags "t"). destruct (V tags "t"); [exists fl; auto|]. subst fl. reflexivity.
Qed.

(** ** How PublicKey::Parse can end *)
Lemma PublicKey_Parse_fine C r p : fine (PublicKey_Parse C false r p).
Proof.
  unfold PublicKey_Parse. apply sbind_fine; [|intros p1; apply sbind_fine; [|intros p2; apply sbind_fine; [|intros p3; apply sbind_fine;
    [|intros p4; apply sbind_fine; [|intros p5; apply sbind_fine; [|intros p6]]]]]].
  - destruct (TagList_total (pk_tags p) r) as (t & [E|E]); rewrite E; [left|right]; reflexivity.
  - unfold key_v. destruct (ktag _ _); [|left; reflexivity]. destruct (beqb _ _); [left|right]; reflexivity.
  - unfold key_h. destruct (ktag _ _) as [e|]; [|left; reflexivity]. destruct (te_value e) eqn:E; [right; reflexivity|].
    apply slift_fine; [|intros; left; reflexivity]. destruct (ValueList_any (a :: b)) as [->|(vs & -> & _)]; eauto.
  - unfold key_k. destruct (ktag _ _); [|left; reflexivity]. destruct (beqb _ _); [left; reflexivity|]. destruct (beqb _ _); [left|right]; reflexivity.
  - unfold key_p. destruct (ktag _ _) as [e|]; [|right; reflexivity]. destruct (te_value e) eqn:E; [right; reflexivity|].
    apply slift_fine; [apply strip_fine|]. intros x. destruct (pk_alg p4).
    + destruct (c_d2i_pubkey C _) as [[k|]|]; [left|right|right]; reflexivity.
    + destruct (Nat.eqb _ _); [left|right]; reflexivity.
  - unfold key_s. destruct (ktag _ _) as [e|]; [|left; reflexivity]. destruct (te_value e) eqn:E; [right; reflexivity|].
    apply slift_fine; [|intros; left; reflexivity]. destruct (ValueList_any (a :: b)) as [->|(vs & -> & _)]; eauto.
  - unfold key_t. destruct (ktag _ _) as [e|]; [|left; reflexivity].
    apply slift_fine; [|intros; left; reflexivity]. destruct (ValueList_any (te_value e)) as [->|(vs & -> & _)]; eauto.
Qed.

(** After success there is a key of the announced type, whatever the object held before. *)
Definition has_key (p : public_key) : Prop :=
  match pk_alg p with RSA => exists k, pk_rsa p = Some k | ED25519 => length (pk_ed p) = 32 end.
Lemma key_p_has C strict p p' : key_p C strict p = (p', Ok tt) -> has_key p'.
Proof.
  unfold key_p. destruct (ktag _ _) as [e|]; [|discriminate]. destruct (te_value e); [discriminate|]. rewrite slift_Ok.
  intros (x & _ & K). unfold has_key. destruct (pk_alg p) eqn:A.
  - destruct (c_d2i_pubkey C _) as [[k|]|]; try discriminate. injection K as <-. cbn. rewrite A. eauto.
  - destruct (Nat.eqb_spec (length (b64d C x)) 32) as [L|]; [|discriminate]. injection K as <-. cbn. rewrite A. exact L.
Qed.
Lemma PublicKey_has C strict r p p' : PublicKey_Parse C strict r p = (p', Ok tt) -> has_key p'.
Proof.
  unfold PublicKey_Parse. intros K. apply sbind_Ok in K as (p1 & _ & K). apply sbind_Ok in K as (p2 & _ & K). apply sbind_Ok in K as (p3 & _ & K).
  apply sbind_Ok in K as (p4 & _ & K). apply sbind_Ok in K as (p5 & K5 & K). apply key_p_has in K5. apply sbind_Ok in K as (p6 & K6 & K).
  assert (H6 : has_key p6).
  { apply (proj1 (key_s_Ok _ _)) in K6. destruct (kV p5 "s"); [destruct K6 as (_ & vs & _ & ->); exact K5|]. subst. exact K5. }
  apply (proj1 (key_t_Ok _ _)) in K. destruct (kV p6 "t"); [destruct K as (vs & _ & ->); exact H6|]. subst. exact H6.
Qed.
