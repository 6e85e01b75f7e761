(** Signature::Parse looks at twelve tags only. *)
From Verif Require Import Bytes Stream Tokenizer QuotedPrintable Base64 TagList SpecText SpecTags MailParser Util Canonicalization CStdlib Crypto Signature PublicKey Validatory
  SpecCanon SpecVerify SpecSig SpecKey TagListFacts SigFacts SpecReuse ReuseTags ReuseFacts SpecLooked Outcome.

Definition put (T : taglist) (r : sig_st * outcome unit) : sig_st * outcome unit := (upd (set_tags T) (fst r), snd r).
Definition like (T T' : taglist) : Prop := forall n, In n looked_at -> V T' n = V T n.
Definition follows (step : sig_st -> sig_st * outcome unit) : Prop :=
  forall T' g e, like (sg_tags g) T' -> step (set_tags T' g, e) = put T' (step (g, e)).

Lemma tag_put n T' g e : In n looked_at -> like (sg_tags g) T' ->
  (tag n (g, e) = None /\ tag n (set_tags T' g, e) = None) \/
  exists x y, tag n (g, e) = Some x /\ tag n (set_tags T' g, e) = Some y /\ te_value y = te_value x.
Proof.
  intros I L. specialize (L n I). unfold V in L. unfold tag. cbn [fst set_tags sg_tags].
  destruct (GetTag (str n) (sg_tags g)) as [x|], (GetTag (str n) T') as [y|]; cbn [option_map] in L; try discriminate; [right|left; auto].
  exists x, y. injection L as L. auto.
Qed.
Lemma slift_put {A} T' (s s' : sig_st) (m : outcome A) k k' : s' = upd (set_tags T') s -> (forall x, k' x = put T' (k x)) ->
  slift s' m k' = put T' (slift s m k).
Proof. intros -> K. destruct m; cbn [slift]; auto. Qed.
Ltac look n := match goal with L : like (sg_tags ?g) ?T |- context [(set_tags ?T ?g, ?e)] =>
  let x := fresh "x" in let y := fresh "y" in let E := fresh "E" in
  destruct (tag_put n T g e ltac:(cbv [looked_at In]; tauto) L) as [[-> ->]|(x & y & -> & -> & E)]; [|rewrite E; clear E] end.
Ltac same := repeat first [reflexivity | apply slift_put; [reflexivity|intros] | progress cbv zeta | progress cbn [fst snd upd set_tags sg_arc sg_domain] |
  match goal with |- context [match ?x with _ => _ end] => lazymatch x with context [match _ with _ => _ end] => fail | _ => destruct x end end].

Lemma then_follows k1 k2 : follows k1 -> same_tags k1 -> follows k2 -> follows (fun st => sbind (k1 st) k2).
Proof.
  intros F S K T' g e L. rewrite (F T' g e L). specialize (S (g, e)). unfold put. destruct (k1 (g, e)) as [[g1 e1] [u| | |]]; cbn [sbind fst snd upd] in *; auto.
  refine (K T' g1 e1 _). rewrite S. exact L.
Qed.
Lemma rest_follows C strict now name : follows (parse_rest C strict now name).
Proof.
  unfold parse_rest.
  apply (then_follows (parse_arc strict name)); [unfold parse_arc; intros T' g e L; same|unfold parse_arc; stays|].
  apply (then_follows (parse_d strict)); [unfold parse_d; intros T' g e L; look "d"%string; same|unfold parse_d; stays|].
  apply (then_follows parse_v); [unfold parse_v; intros T' g e L; look "v"%string; same|unfold parse_v; stays|].
  apply (then_follows parse_a); [unfold parse_a; intros T' g e L; look "a"%string; same|unfold parse_a; stays|].
  apply (then_follows (parse_b C strict)); [unfold parse_b; intros T' g e L; look "b"%string; same|unfold parse_b; stays|].
  apply (then_follows (parse_bh C strict)); [unfold parse_bh; intros T' g e L; look "bh"%string; same|unfold parse_bh; stays|].
  apply (then_follows parse_c); [unfold parse_c; intros T' g e L; look "c"%string; same|unfold parse_c; stays|].
  apply (then_follows parse_h); [unfold parse_h; intros T' g e L; look "h"%string; same|unfold parse_h; stays|].
  apply (then_follows (parse_i strict)); [unfold parse_i; intros T' g e L; look "i"%string; same|unfold parse_i; stays|].
  apply (then_follows parse_l); [unfold parse_l; intros T' g e L; look "l"%string; same|unfold parse_l; stays|].
  apply (then_follows parse_q); [unfold parse_q; intros T' g e L; look "q"%string; same|unfold parse_q; stays|].
  apply (then_follows parse_s); [unfold parse_s; intros T' g e L; look "s"%string; same|unfold parse_s; stays|].
  unfold parse_x; intros T' g e L; look "x"%string; same.
Qed.

Lemma field_read h l : field_tags h l -> exists T, held T = l /\ NoDup (keys T) /\ forall C strict now e,
  Signature_Parse C strict now h (new_signature, e) = parse_rest C strict now (h_name h) (set_tags T new_signature, e).
Proof.
  intros (LE & R & N). destruct (tags_taken [] l _ R N) as (T & P & HE & _ & FN); [intros n _ []|]. cbn [app] in P. exists T. split; [exact HE|]. split.
  - rewrite <- held_names, HE. exact N.
  - intros C strict now e. rewrite parse_split. unfold parse_tags, substr_from. apply Nat.leb_le in LE. rewrite LE. cbn [slift fst new_signature sg_tags]. rewrite P. reflexivity.
Qed.
Lemma agree_V names T T' : NoDup (keys T) -> NoDup (keys T') -> agree names (held T) (held T') -> forall n, In n names -> V T' n = V T n.
Proof.
  intros NT NT' A n I. assert (K : forall v, V T n = Some v <-> V T' n = Some v).
  { intros v. rewrite (held_has T n v NT), (held_has T' n v NT'). apply A. exact I. }
  destruct (V T' n) as [v|]; [symmetry; apply K; reflexivity|]. destruct (V T n) as [v|]; [|reflexivity]. apply K. reflexivity.
Qed.
Lemma looked_only C strict now e h h' l l' : field_tags h l -> field_tags h' l' -> h_name h' = h_name h -> agree looked_at l l' ->
  exists tags, Signature_Parse C strict now h' (new_signature, e) =
    (let r := Signature_Parse C strict now h (new_signature, e) in ((set_tags tags (fst (fst r)), snd (fst r)), snd r)).
Proof.
  intros F F' EN A. destruct (field_read h l F) as (T & HT & NT & ->). destruct (field_read h' l' F') as (T' & HT' & NT' & ->). exists T'. rewrite EN.
  change (set_tags T' new_signature) with (set_tags T' (set_tags T new_signature)).
  rewrite (rest_follows C strict now (h_name h) T' (set_tags T new_signature) e); [reflexivity|]. cbn [sg_tags set_tags].
  intros n I. subst l l'. exact (agree_V _ _ _ NT NT' A n I).
Qed.

(** ** Key records *)
Definition kput (T : taglist) (r : public_key * outcome unit) : public_key * outcome unit := (kset_tags T (fst r), snd r).
Definition klike (T T' : taglist) : Prop := forall n, In n key_looked_at -> V T' n = V T n.
Definition kfollows (step : public_key -> public_key * outcome unit) : Prop :=
  forall T' p, klike (pk_tags p) T' -> step (kset_tags T' p) = kput T' (step p) /\ pk_tags (fst (step p)) = pk_tags p.
Lemma ktag_put n T' p : In n key_looked_at -> klike (pk_tags p) T' ->
  (ktag n p = None /\ ktag n (kset_tags T' p) = None) \/
  exists x y, ktag n p = Some x /\ ktag n (kset_tags T' p) = Some y /\ te_value y = te_value x.
Proof.
  intros I L. specialize (L n I). unfold V in L. unfold ktag. cbn [kset_tags pk_tags].
  destruct (GetTag (str n) (pk_tags p)) as [x|], (GetTag (str n) T') as [y|]; cbn [option_map] in L; try discriminate; [right|left; auto].
  exists x, y. injection L as L. auto.
Qed.
Ltac klook n := match goal with L : klike (pk_tags ?p) ?T |- _ =>
  let x := fresh "x" in let y := fresh "y" in let E := fresh "E" in
  destruct (ktag_put n T p ltac:(cbv [key_looked_at In]; tauto) L) as [[-> ->]|(x & y & -> & -> & E)]; [|rewrite E; clear E] end.
Ltac ksame := repeat first [split; reflexivity | progress cbv zeta | progress cbn [slift fst snd kset_tags pk_alg pk_digests pk_service pk_flags] |
  match goal with |- context [match ?x with _ => _ end] => lazymatch x with context [match _ with _ => _ end] => fail | _ => destruct x end |
    |- context [slift _ ?m _] => destruct m end].
Lemma then_kfollows k1 k2 : kfollows k1 -> kfollows k2 -> kfollows (fun p => sbind (k1 p) k2).
Proof.
  intros F K T' p L. destruct (F T' p L) as [E S]. rewrite E. unfold kput. destruct (k1 p) as [p1 [u| | |]]; cbn [sbind fst snd] in *; auto.
  destruct (K T' p1) as [E2 S2]; [rewrite S; exact L|]. split; [exact E2|]. rewrite S2. exact S.
Qed.
Definition key_rest (C : crypto) (strict : bool) (p : public_key) : public_key * outcome unit :=
  sbind (key_v p) (fun p => sbind (key_h p) (fun p => sbind (key_k p) (fun p => sbind (key_p C strict p) (fun p => sbind (key_s p) key_t)))).
Lemma key_follows C strict : kfollows (key_rest C strict).
Proof.
  unfold key_rest.
  apply (then_kfollows key_v); [unfold key_v; intros T' p L; klook "v"%string; ksame|].
  apply (then_kfollows key_h); [unfold key_h; intros T' p L; klook "h"%string; ksame|].
  apply (then_kfollows key_k); [unfold key_k; intros T' p L; klook "k"%string; ksame|].
  apply (then_kfollows (key_p C strict)); [unfold key_p; intros T' p L; klook "p"%string; ksame|].
  apply (then_kfollows key_s); [unfold key_s; intros T' p L; klook "s"%string; ksame|].
  unfold key_t; intros T' p L; klook "t"%string; ksame.
Qed.
Lemma record_read r l : record_tags r l -> exists T, held T = l /\ NoDup (keys T) /\ forall C strict,
  PublicKey_Parse C strict r new_public_key = key_rest C strict (kset_tags T new_public_key).
Proof.
  intros (R & N). destruct (tags_taken [] l _ R N) as (T & P & HE & _ & FN); [intros n _ []|]. cbn [app] in P. exists T. split; [exact HE|]. split.
  - rewrite <- held_names, HE. exact N.
  - intros C strict. unfold PublicKey_Parse. change (pk_tags new_public_key) with (@nil (bytes * tag_entry)). rewrite P. reflexivity.
Qed.
Lemma record_looked C strict r r' l l' : record_tags r l -> record_tags r' l' -> agree key_looked_at l l' ->
  exists tags, PublicKey_Parse C strict r' new_public_key = kput tags (PublicKey_Parse C strict r new_public_key).
Proof.
  intros F F' A. destruct (record_read r l F) as (T & HT & NT & ->). destruct (record_read r' l' F') as (T' & HT' & NT' & ->). exists T'.
  change (kset_tags T' new_public_key) with (kset_tags T' (kset_tags T new_public_key)).
  apply (key_follows C strict T' (kset_tags T new_public_key)). cbn [pk_tags kset_tags]. intros n I. subst l l'. exact (agree_V _ _ _ NT NT' A n I).
Qed.
Lemma key_looked C strict r r' l l' g h v : record_tags r l -> record_tags r' l' -> agree key_looked_at l l' -> r <> [] -> r' <> [] ->
  let k := GetPublicKey C strict (fun _ => Ok (true, r)) g new_public_key in let k' := GetPublicKey C strict (fun _ => Ok (true, r')) g new_public_key in
  snd k' = snd k /\ CheckSignature C strict h g (fst k') v = CheckSignature C strict h g (fst k) v /\ SoftFail (fst k') = SoftFail (fst k).
Proof.
  intros F F' A N N'. destruct (record_looked C strict r r' l l' F F' A) as (T & E). unfold GetPublicKey. cbn [slift].
  destruct r as [|a r]; [congruence|]. destruct r' as [|a' r']; [congruence|]. cbv zeta. rewrite E. destruct (PublicKey_Parse C strict (a :: r) new_public_key) as [p o].
  split; [reflexivity|]. split; reflexivity.
Qed.
