(** Success of PublicKey::Parse, exactly (for C34). *)
From Verif Require Import Bytes Outcome Tokenizer Base64 TagList MailParser Util Crypto Signature PublicKey BytesFacts SpecText SpecTags SpecSig SpecKey
  ListFacts ListExact ListWide SigFacts SigProps BindingList KeyFacts VerifyProps.

Lemma known_digests_of vs : digests_of vs (known_digests vs).
Proof.
  induction vs as [|v vs IH]; [constructor|]. unfold known_digests. cbn [flat_map]. fold (known_digests vs).
  destruct (beqb_spec v (str "sha256")) as [->|N]; [apply (do_known SHA256); auto|].
  destruct (beqb_spec v (str "sha1")) as [->|N2]; [apply (do_known SHA1); auto|].
  apply do_other; auto. intros []; auto.
Qed.
Lemma digests_known vs ds : digests_of vs ds -> ds = known_digests vs.
Proof.
  induction 1 as [|d vs ds D IH|v vs ds N D IH]; [reflexivity| |]; unfold known_digests; cbn [flat_map]; fold (known_digests vs); rewrite <- IH.
  - destruct d; reflexivity.
  - destruct (beqb_spec v (str "sha256")) as [E|_]; [exfalso; apply (N SHA256); auto|].
    destruct (beqb_spec v (str "sha1")) as [E|_]; [exfalso; apply (N SHA1); auto|]. reflexivity.
Qed.

Lemma service_all (ss : list service_type) : ss = repeat S_EMAIL (length ss).
Proof. induction ss as [|[] ss IH]; [reflexivity|]. cbn [length repeat]. f_equal. exact IH. Qed.
Lemma service_star vs : forall acc, In (str "*") vs -> service_loop vs acc = [].
Proof.
  induction vs as [|v vs IH]; intros acc I; [destruct I|]. cbn [service_loop].
  destruct (beqb_spec v (str "email")) as [->|N].
  - destruct I as [I|I]; [discriminate|]. apply IH. auto.
  - destruct (beqb_spec v (str "*")) as [->|N2]; [reflexivity|]. destruct I as [I|I]; [congruence|]. apply IH. auto.
Qed.
Lemma service_count vs : forall acc, ~ In (str "*") vs ->
  length (service_loop vs acc) = length acc + count_occ (list_eq_dec ascii_dec) vs (str "email").
Proof.
  induction vs as [|v vs IH]; intros acc I; cbn [service_loop count_occ]; [lia|].
  assert (I2 : ~ In (str "*") vs) by (intros X; apply I; right; exact X).
  destruct (list_eq_dec ascii_dec v (str "email")) as [->|N].
  - rewrite beqb_refl. rewrite IH by auto. rewrite app_length. cbn [length]. lia.
  - destruct (beqb_spec v (str "email")) as [E|_]; [congruence|].
    destruct (beqb_spec v (str "*")) as [->|N2]; [exfalso; apply I; left; reflexivity|]. apply IH. auto.
Qed.
Lemma services_loop vs ss : services_of vs ss <-> ss = service_loop vs [].
Proof.
  split.
  - intros [I|ss' I L]; [rewrite service_star; auto|]. rewrite (service_all ss'), (service_all (service_loop vs [])).
    rewrite L, service_count by auto. reflexivity.
  - intros ->. destruct (in_dec (list_eq_dec ascii_dec) (str "*") vs) as [I|I].
    + rewrite service_star by auto. apply so_all. auto.
    + apply so_some; auto. rewrite service_count by auto. reflexivity.
Qed.

Lemma ok_record C l tags : (forall n v, V tags n = Some v <-> has l n v) -> (forall n, V tags n = None <-> lacks l n) -> forall p,
  key_ok C tags (kset_tags tags p) <->
  (lacks l "v" \/ has l "v" (str "DKIM1")) /\
  (lacks l "h" /\ pk_digests p = [] \/ exists hv vs, has l "h" hv /\ hv <> [] /\ ValueList hv = Ok vs /\ digests_of vs (pk_digests p)) /\
  key_type l (pk_alg p) /\
  (exists pv, has l "p" pv /\ pv <> [] /\
     match pk_alg p with
     | RSA => pk_ed p = [] /\ exists k, c_d2i_pubkey C (b64d C (unspaced pv)) = Some (Some k) /\ pk_rsa p = Some k
     | ED25519 => pk_rsa p = None /\ pk_ed p = b64d C (unspaced pv) /\ length (pk_ed p) = 32
     end) /\
  (lacks l "s" /\ pk_service p = [] \/ exists sv vs, has l "s" sv /\ sv <> [] /\ ValueList sv = Ok vs /\ services_of vs (pk_service p)) /\
  (lacks l "t" /\ pk_flags p = [] \/ exists tv, has l "t" tv /\ ValueList tv = Ok (pk_flags p)).
Proof.
  intros HS HN p. split.
  - intros K.
    destruct p as [tg0 ds0 rsa0 ed0 a0 sv0 fl0]. unfold kset_tags in K. cbn [pk_digests pk_alg pk_rsa pk_ed pk_flags pk_service] in *.
    inversion K as [ds a rsa ed sv fl pv Kv Kh Kk Ep Np Kp Ks Kt E1]. subst. clear K.
    split; [|split; [|split; [|split; [|split]]]].
    + destruct Kv as [E|E]; [left; apply HN; auto|right; apply HS; auto].
    + destruct (V tags "h") as [hv|] eqn:E.
      * destruct Kh as (N & vs & VL & ->). right. exists hv, vs. apply HS in E. repeat split; auto. apply known_digests_of.
      * left. apply HN in E. auto.
    + unfold key_type. destruct (V tags "k") as [k|] eqn:E; [right; subst k; apply HS; auto|left; apply HN in E; auto].
    + exists pv. apply HS in Ep. split; auto.
    + destruct (V tags "s") as [x|] eqn:E.
      * destruct Ks as (N & vs & VL & ->). right. exists x, vs. apply HS in E. repeat split; auto. apply services_loop. reflexivity.
      * left. apply HN in E. auto.
    + destruct (V tags "t") as [tv|] eqn:E; [right; exists tv; apply HS in E; auto|left; apply HN in E; auto].
  - intros (Kv & Kh & Kk & (pv & Hp & Np & Kp) & Ks & Kt). 
    destruct p as [tg0 ds rsa ed a sv fl]. unfold kset_tags. cbn [pk_digests pk_alg pk_rsa pk_ed pk_flags pk_service] in *.
    apply (key_ok_intro C tags ds a rsa ed sv fl pv).
    + destruct Kv as [E|E]; [left; apply HN; auto|right; apply HS; auto].
    + destruct Kh as [[E ->]|(hv & vs & E & N & VL & D)].
      * apply HN in E. rewrite E. reflexivity.
      * apply HS in E. rewrite E. split; auto. exists vs. split; auto. apply digests_known. auto.
    + destruct Kk as [[E ->]|E]; [apply HN in E; rewrite E; reflexivity|apply HS in E; rewrite E; reflexivity].
    + apply HS. auto.
    + auto.
    + auto.
    + destruct Ks as [[E ->]|(x & vs & E & N & VL & D)].
      * apply HN in E. rewrite E. reflexivity.
      * apply HS in E. rewrite E. split; auto. exists vs. split; auto. apply services_loop. auto.
    + destruct Kt as [[E ->]|(x & E & VL)]; [apply HN in E; rewrite E; reflexivity|apply HS in E; rewrite E; auto].
Qed.
Lemma key_record_exact C strict r l : record_tags r l -> forall p,
  (exists tags, PublicKey_Parse C strict r new_public_key = (kset_tags tags p, Ok tt)) <->
  (lacks l "v" \/ has l "v" (str "DKIM1")) /\
  (lacks l "h" /\ pk_digests p = [] \/ exists hv vs, has l "h" hv /\ hv <> [] /\ ValueList hv = Ok vs /\ digests_of vs (pk_digests p)) /\
  key_type l (pk_alg p) /\
  (exists pv, has l "p" pv /\ pv <> [] /\
     match pk_alg p with
     | RSA => pk_ed p = [] /\ exists k, c_d2i_pubkey C (b64d C (unspaced pv)) = Some (Some k) /\ pk_rsa p = Some k
     | ED25519 => pk_rsa p = None /\ pk_ed p = b64d C (unspaced pv) /\ length (pk_ed p) = 32
     end) /\
  (lacks l "s" /\ pk_service p = [] \/ exists sv vs, has l "s" sv /\ sv <> [] /\ ValueList sv = Ok vs /\ services_of vs (pk_service p)) /\
  (lacks l "t" /\ pk_flags p = [] \/ exists tv, has l "t" tv /\ ValueList tv = Ok (pk_flags p)).
Proof.
  intros R p. destruct (record_parse r l R) as (tags & T & HS & HN). rewrite <- (ok_record C l tags HS HN p). split.
  - intros (tg & P). apply (proj1 (PublicKey_Parse_Ok _ _ _ _)) in P as (tags' & T' & K). rewrite T in T'. injection T' as <-.
    assert (E : tg = tags) by (inversion K; reflexivity). subst tg. exact K.
  - intros K. exists tags. apply PublicKey_Parse_Ok. exists tags. auto.
Qed.

Lemma ok_says C l tags : (forall n v, V tags n = Some v <-> has l n v) -> (forall n, V tags n = None <-> lacks l n) -> forall p,
  key_ok C tags (kset_tags tags p) <-> key_says C l p.
Proof.
  intros HS HN p. rewrite (ok_record C l tags HS HN p). unfold key_says.
  assert (X : forall v vs, ValueList v = Ok vs <-> list_wide vs v) by (intros; apply ValueList_wide).
  split; intros (A & B & D & E & G & H); (split; [exact A|split; [|split; [exact D|split; [exact E|split]]]]).
  - destruct B as [B|(hv & vs & B1 & B2 & B3 & B4)]; [left; exact B|right; exists hv, vs]. apply X in B3. auto.
  - destruct G as [G|(hv & vs & B1 & B2 & B3 & B4)]; [left; exact G|right; exists hv, vs]. apply X in B3. auto.
  - destruct H as [H|(hv & B1 & B3)]; [left; exact H|right; exists hv]. apply X in B3. auto.
  - destruct B as [B|(hv & vs & B1 & B2 & B3 & B4)]; [left; exact B|right; exists hv, vs]. apply X in B3. auto.
  - destruct G as [G|(hv & vs & B1 & B2 & B3 & B4)]; [left; exact G|right; exists hv, vs]. apply X in B3. auto.
  - destruct H as [H|(hv & B1 & B3)]; [left; exact H|right; exists hv]. apply X in B3. auto.
Qed.
Lemma key_record_says C strict r l : record_tags r l -> forall p,
  (exists tags, PublicKey_Parse C strict r new_public_key = (kset_tags tags p, Ok tt)) <-> key_says C l p.
Proof.
  intros R p. rewrite (key_record_exact C strict r l R p). destruct (record_parse r l R) as (tags & T & HS & HN).
  rewrite <- (ok_record C l tags HS HN p). apply ok_says; auto.
Qed.
(** The same with the lists described by [list_text]. *)
Lemma folds_part r a v b : folds_only r -> tag_value v -> r = a ++ v ++ b -> folds_only v.
Proof.
  intros F (_ & _ & LO) -> x y E. subst v. destruct y as [|c y].
  - rewrite app_assoc in LO. unfold last_ok in LO. rewrite app_nil_r in LO. unfold CRLF in LO. rewrite rev_app_distr in LO. cbn in LO.
    destruct LO as [[L _] _]. vm_compute in L. apply L. reflexivity.
  - specialize (F (a ++ x) ((c :: y) ++ b)). apply F. rewrite <- !app_assoc. reflexivity.
Qed.
Lemma tag_part l t n v : rendered_tags l t -> In (n, v) l -> exists a b, t = a ++ v ++ b.
Proof.
  intros R I. destruct (tag_within l t n v R I) as (p & q & -> & w & r & -> & _).
  exists (p ++ EQUALS :: w), r. rewrite <- !app_assoc. reflexivity.
Qed.
Lemma has_folds r l n v : rendered_tags l r -> folds_only r -> has l n v -> folds_only v.
Proof.
  intros R F I. destruct (tag_part l r _ v R I) as (a & b & E). eapply folds_part; eauto. eapply SigFacts.rendered_values; eauto.
Qed.
Lemma key_record_text C strict r l : record_tags r l -> folds_only r -> forall p,
  (exists tags, PublicKey_Parse C strict r new_public_key = (kset_tags tags p, Ok tt)) <->
  (lacks l "v" \/ has l "v" (str "DKIM1")) /\
  (lacks l "h" /\ pk_digests p = [] \/ exists hv vs, has l "h" hv /\ hv <> [] /\ list_text vs hv /\ digests_of vs (pk_digests p)) /\
  key_type l (pk_alg p) /\
  (exists pv, has l "p" pv /\ pv <> [] /\
     match pk_alg p with
     | RSA => pk_ed p = [] /\ exists k, c_d2i_pubkey C (b64d C (unspaced pv)) = Some (Some k) /\ pk_rsa p = Some k
     | ED25519 => pk_rsa p = None /\ pk_ed p = b64d C (unspaced pv) /\ length (pk_ed p) = 32
     end) /\
  (lacks l "s" /\ pk_service p = [] \/ exists sv vs, has l "s" sv /\ sv <> [] /\ list_text vs sv /\ services_of vs (pk_service p)) /\
  (lacks l "t" /\ pk_flags p = [] \/ exists tv, has l "t" tv /\ list_text (pk_flags p) tv).
Proof.
  intros R F p. rewrite (key_record_exact C strict r l R p). destruct R as [R _].
  assert (X : forall n v vs, has l n v -> ValueList v = Ok vs <-> list_text vs v).
  { intros n v vs I. apply ValueList_exact. eapply has_folds; eauto. }
  split; intros (A & B & D & E & G & H); (split; [exact A|split; [|split; [exact D|split; [exact E|split]]]]).
  - destruct B as [B|(hv & vs & B1 & B2 & B3 & B4)]; [left; exact B|right; exists hv, vs]. apply (X _ _ _ B1) in B3. auto.
  - destruct G as [G|(hv & vs & B1 & B2 & B3 & B4)]; [left; exact G|right; exists hv, vs]. apply (X _ _ _ B1) in B3. auto.
  - destruct H as [H|(hv & B1 & B3)]; [left; exact H|right; exists hv]. apply (X _ _ _ B1) in B3. auto.
  - destruct B as [B|(hv & vs & B1 & B2 & B3 & B4)]; [left; exact B|right; exists hv, vs]. apply (X _ _ _ B1) in B3. auto.
  - destruct G as [G|(hv & vs & B1 & B2 & B3 & B4)]; [left; exact G|right; exists hv, vs]. apply (X _ _ _ B1) in B3. auto.
  - destruct H as [H|(hv & B1 & B3)]; [left; exact H|right; exists hv]. apply (X _ _ _ B1) in B3. auto.
Qed.

Lemma SoftFail_iff p : SoftFail p = true <-> In (str "y") (pk_flags p).
Proof. apply memb_In. Qed.
Lemma headers_text C strict now h e0 g e1 : Signature_Parse C strict now h (new_signature, e0) = ((g, e1), Ok tt) ->
  folds_only (h_text h) -> exists l hv, field_tags h l /\ has l "h" hv /\ list_text (sg_headers g) hv.
Proof.
  intros P F. destruct (parse_mandatory _ _ _ _ _ _ _ P) as (l & FT & _ & _ & _ & _ & _ & (hv & Hh & VL & _) & _).
  exists l, hv. split; auto. split; auto. apply ValueList_exact; auto. destruct FT as (_ & R & _). eapply has_folds; eauto.
  apply (folds_only_app (firstn (h_voff h) (h_text h))). rewrite firstn_skipn. exact F.
Qed.
