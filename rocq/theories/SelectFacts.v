(** Selection of the signed header fields: proofs. *)
From Verif Require Import Bytes Outcome Stream MailParser Canonicalization Signature Validatory BytesFacts
  SpecText SpecMail SpecCanon SpecVerify MailFacts HeaderFacts HeaderProps Examples.

Fixpoint lookup (n : bytes) (c : cache) : list header :=
  match c with
  | [] => []
  | (m, l) :: r => if beqb m n then l else lookup n r
  end.
Lemma lookup_push n h m c : lookup m (cache_push n h c) = if beqb n m then lookup n c ++ [h] else lookup m c.
Proof.
  induction c as [|[k l] c IH]; cbn [cache_push lookup].
  - destruct (beqb n m) eqn:E; reflexivity.
  - destruct (beqb k n) eqn:KN; cbn [lookup].
    + apply beqb_eq in KN. subst. destruct (beqb n m) eqn:E; reflexivity.
    + destruct (beqb k m) eqn:KM.
      * apply beqb_eq in KM. subst. destruct (beqb n m) eqn:E; [|reflexivity]. apply beqb_eq in E. subst. rewrite beqb_refl in KN. discriminate.
      * apply IH.
Qed.
Lemma cache_pop_lookup n c :
  match cache_pop n c with
  | None => lookup n c = []
  | Some (h, c1) => exists p, lookup n c = p ++ [h] /\ lookup n c1 = p /\ forall m, m <> n -> lookup m c1 = lookup m c
  end.
Proof.
  induction c as [|[k l] c IH]; cbn [cache_pop lookup]; [reflexivity|].
  destruct (beqb k n) eqn:KN.
  - destruct (rev l) as [|h p] eqn:R.
    + apply (f_equal (@rev _)) in R. rewrite rev_involutive in R. auto.
    + apply (f_equal (@rev _)) in R. rewrite rev_involutive in R. cbn [rev] in R. exists (rev p). split; auto.
      cbn [lookup]. rewrite KN. split; auto. intros m NM. destruct (beqb k m) eqn:KM; auto.
      apply beqb_eq in KN. apply beqb_eq in KM. congruence.
  - destruct (cache_pop n c) as [[h c1]|]; auto. destruct IH as (p & A & B & D). exists p. cbn [lookup]. rewrite KN. split; auto.
    split; auto. intros m NM. destruct (beqb k m); auto.
Qed.
Lemma build_cache_lookup hs : forall c, exists c1, build_cache false hs c = Ok c1 /\
  forall n, lookup n c1 = lookup n c ++ filter (fun h => beqb (lower (h_name h)) n) hs.
Proof.
  induction hs as [|h hs IH]; intros c; cbn [build_cache].
  - exists c. split; auto. intros n. cbn. rewrite app_nil_r. reflexivity.
  - unfold lower_str. cbn [andb obind]. destruct (IH (cache_push (lower (h_name h)) h c)) as (c1 & E & X). exists c1. split; auto.
    intros n. rewrite X, lookup_push. cbn [filter]. destruct (beqb (lower (h_name h)) n) eqn:E1; auto.
    apply beqb_eq in E1. subst n. rewrite <- app_assoc. reflexivity.
Qed.
Lemma build_cache_strict strict hs : forall c c1, build_cache strict hs c = Ok c1 -> build_cache false hs c = Ok c1.
Proof.
  destruct strict; auto. induction hs as [|h hs IH]; intros c c1; cbn [build_cache]; auto.
  unfold lower_str. cbn [andb]. destruct existsb; cbn [obind]; [discriminate|auto].
Qed.

Definition canon_of strict mode (h : header) (out : bytes) : Prop := FilterHeader strict mode (h_text h) = Ok out.

Lemma nth_error_skipn {A} (l : list A) k : nth_error l k = match skipn k l with [] => None | x :: _ => Some x end.
Proof. revert k. induction l as [|x l IH]; intros [|k]; cbn; auto. Qed.
Lemma skipn_S {A} (l : list A) k : skipn (S k) l = tl (skipn k l).
Proof. revert k. induction l as [|x l IH]; intros [|k]; cbn; auto. apply IH. Qed.
Lemma same_name_refl n : same_name n n = true. Proof. apply beqb_refl. Qed.
Lemma same_name_sym a b : same_name a b = same_name b a.
Proof. unfold same_name. destruct (beqb (map low a) (map low b)) eqn:E, (beqb (map low b) (map low a)) eqn:E2; auto.
  - apply beqb_eq in E. rewrite E, beqb_refl in E2. discriminate.
  - apply beqb_eq in E2. rewrite E2, beqb_refl in E. discriminate.
Qed.
Lemma occurrences_snoc n before m : occurrences n (before ++ [m]) = occurrences n before + (if same_name n m then 1 else 0).
Proof. unfold occurrences. rewrite filter_app, app_length. cbn [filter]. destruct (same_name n m); reflexivity. Qed.

(** What the cache holds after the names [before]. *)
Definition cache_at (hs : list header) (before : list bytes) (c : cache) : Prop :=
  forall n, rev (lookup (lower n) c) = skipn (occurrences n before) (rev (filter (fun h => same_name (h_name h) n) hs)).

Lemma cache_step hs before c n : cache_at hs before c ->
  match cache_pop (lower n) c with
  | None => kth_last h_name hs n (occurrences n before) = None /\ cache_at hs (before ++ [n]) c
  | Some (h, c1) => kth_last h_name hs n (occurrences n before) = Some h /\ cache_at hs (before ++ [n]) c1
  end.
Proof.
  intros CA. pose proof (cache_pop_lookup (lower n) c) as P. unfold kth_last. rewrite nth_error_skipn, <- (CA n).
  assert (OTHER : forall m, same_name m n = false -> lower m <> lower n).
  { intros m S E. unfold same_name in S. change (map low m) with (lower m) in S. change (map low n) with (lower n) in S. rewrite E, beqb_refl in S. discriminate. }
  assert (SAME : forall m, same_name m n = true -> lower m = lower n) by (intros m S; apply beqb_eq in S; exact S).
  assert (FS : forall m, same_name m n = true -> filter (fun h => same_name (h_name h) m) hs = filter (fun h => same_name (h_name h) n) hs).
  { intros m S. apply filter_ext. intros h. unfold same_name. apply SAME in S. change (map low m) with (lower m). rewrite S. reflexivity. }
  assert (OS : forall m, same_name m n = true -> occurrences m before = occurrences n before).
  { intros m S. unfold occurrences. f_equal. apply filter_ext. intros h. unfold same_name. apply SAME in S. change (map low m) with (lower m). rewrite S. reflexivity. }
  destruct (cache_pop (lower n) c) as [[h c1]|].
  - destruct P as (p & A & B & D). rewrite A, rev_app_distr. cbn. split; auto. intros m. rewrite occurrences_snoc.
    destruct (same_name m n) eqn:S.
    + rewrite (SAME m S), (FS m S), (OS m S), Nat.add_1_r, skipn_S, <- (CA n), A, rev_app_distr, B. reflexivity.
    + rewrite D by auto. rewrite Nat.add_0_r. apply CA.
  - rewrite P. cbn. split; auto. intros m. rewrite occurrences_snoc. destruct (same_name m n) eqn:S.
    + rewrite (SAME m S), (FS m S), (OS m S), Nat.add_1_r, skipn_S, <- (CA n), P. reflexivity.
    + rewrite Nat.add_0_r. apply CA.
Qed.

Lemma hash_selection mode hs names : forall before c, cache_at hs before c ->
  forall d, hash_headers false mode names c = Ok d <->
    exists outs, Forall2 (canon_of false mode) (selection h_name hs before names) outs /\ d = with_crlf outs.
Proof.
  induction names as [|n names IH]; intros before c CA d; cbn [hash_headers selection].
  - split; [intros [= <-]; exists []; split; [constructor|reflexivity]|]. intros (outs & F & ->). inversion F. reflexivity.
  - unfold lower_str. cbn [andb obind]. pose proof (cache_step hs before c n CA) as P.
    destruct (cache_pop (lower n) c) as [[h c1]|].
    + destruct P as [-> CA1]. cbn [app]. destruct (FilterHeader false mode (h_text h)) as [x| | |] eqn:F; cbn [obind].
      * destruct (hash_headers false mode names c1) as [d1| | |] eqn:HH; cbn [obind].
        -- apply (IH _ _ CA1) in HH as (outs & FO & ->). split.
           ++ intros [= <-]. exists (x :: outs). split; [constructor; auto|reflexivity].
           ++ intros (outs2 & FO2 & ->). inversion FO2 as [|? y ? l FY FL]; subst. unfold canon_of in FY. rewrite F in FY. injection FY as <-.
              assert (OL : outs = l); [|rewrite OL; reflexivity].
              clear - FO FL. revert l FL. induction FO as [|a b la lb E FO IH]; intros l FL; inversion FL; subst; auto.
              unfold canon_of in *. f_equal; [congruence|auto].
        -- split; [discriminate|]. intros (outs2 & FO2 & ->). inversion FO2 as [|? y ? l FY FL]; subst.
           exfalso. assert (X : hash_headers false mode names c1 = Ok (with_crlf l)) by (apply (IH _ _ CA1); eauto). congruence.
        -- split; [discriminate|]. intros (outs2 & FO2 & ->). inversion FO2 as [|? y ? l FY FL]; subst.
           exfalso. assert (X : hash_headers false mode names c1 = Ok (with_crlf l)) by (apply (IH _ _ CA1); eauto). congruence.
        -- split; [discriminate|]. intros (outs2 & FO2 & ->). inversion FO2 as [|? y ? l FY FL]; subst.
           exfalso. assert (X : hash_headers false mode names c1 = Ok (with_crlf l)) by (apply (IH _ _ CA1); eauto). congruence.
      * split; [discriminate|]. intros (outs2 & FO2 & ->). inversion FO2 as [|? y ? l FY FL]; subst. unfold canon_of in FY. congruence.
      * split; [discriminate|]. intros (outs2 & FO2 & ->). inversion FO2 as [|? y ? l FY FL]; subst. unfold canon_of in FY. congruence.
      * split; [discriminate|]. intros (outs2 & FO2 & ->). inversion FO2 as [|? y ? l FY FL]; subst. unfold canon_of in FY. congruence.
    + destruct P as [-> CA1]. cbn [app]. apply IH. auto.
Qed.
Lemma cache_start hs c : build_cache false hs [] = Ok c -> cache_at hs [] c.
Proof.
  intros E n. destruct (build_cache_lookup hs []) as (c1 & E1 & X). rewrite E in E1. injection E1 as <-. rewrite X. reflexivity.
Qed.
Lemma hash_headers_strict strict mode names : forall c d, hash_headers strict mode names c = Ok d -> hash_headers false mode names c = Ok d.
Proof.
  destruct strict; auto. induction names as [|n names IH]; intros c d; cbn [hash_headers]; auto.
  unfold lower_str. cbn [andb]. destruct (existsb is_8bit n); cbn [obind]; [discriminate|].
  destruct (cache_pop (lower n) c) as [[h c1]|]; [|apply IH].
  destruct (FilterHeader true mode (h_text h)) as [x| | |] eqn:F; cbn [obind]; try discriminate. apply FilterHeader_strict in F. rewrite F. cbn [obind].
  destruct (hash_headers true mode names c1) as [y| | |] eqn:HH; cbn [obind]; try discriminate. rewrite (IH _ _ HH). auto.
Qed.

(** ** The selection itself *)
Lemma selection_In {A} (name : A -> bytes) hs names : forall before h, In h (selection name hs before names) -> In h hs.
Proof.
  induction names as [|n names IH]; intros before h; cbn [selection]; [intros []|]. intros I. apply in_app_or in I as [I|I]; eauto.
  destruct (kth_last name hs n _) as [x|] eqn:K; [|destruct I]. destruct I as [<-|[]]. apply nth_error_In in K. apply in_rev in K.
  apply filter_In in K. tauto.
Qed.
Lemma map_filter' {A B} (f : A -> B) p l : filter p (map f l) = map f (filter (fun x => p (f x)) l).
Proof. induction l as [|x l IH]; cbn; auto. destruct (p (f x)); cbn; rewrite IH; reflexivity. Qed.
Lemma selection_map {A B} (f : A -> B) (name : B -> bytes) hs names : forall before,
  selection name (map f hs) before names = map f (selection (fun x => name (f x)) hs before names).
Proof.
  induction names as [|n names IH]; intros before; cbn [selection]; [reflexivity|]. rewrite map_app, IH. f_equal.
  unfold kth_last. rewrite map_filter', <- map_rev, nth_error_map. destruct nth_error; reflexivity.
Qed.
(** No field is selected twice. *)
Lemma selection_NoDup {A} (name : A -> bytes) hs names : NoDup hs -> forall before, NoDup (selection name hs before names) /\
  forall h, In h (selection name hs before names) -> forall k, kth_last name hs (name h) k = Some h -> occurrences (name h) before <= k.
Proof.
  intros ND.
  assert (UNI : forall n k h, kth_last name hs n k = Some h -> kth_last name hs (name h) k = Some h /\ same_name (name h) n = true).
  { intros n k h K. assert (I : In h (filter (fun h => same_name (name h) n) hs)) by (apply in_rev; eapply nth_error_In; exact K).
    apply filter_In in I as [_ S]. split; auto. unfold kth_last in *. rewrite <- K. do 2 f_equal. apply filter_ext. intros x.
    unfold same_name in *. apply beqb_eq in S. rewrite S. reflexivity. }
  assert (INJ : forall n k k' h, kth_last name hs n k = Some h -> kth_last name hs n k' = Some h -> k = k').
  { intros n k k' h K K'. unfold kth_last in *. eapply (proj1 (NoDup_nth_error _)); [|eapply nth_error_Some; rewrite K; discriminate|congruence].
    apply NoDup_rev, NoDup_filter. auto. }
  assert (OCC : forall a b l, same_name a b = true -> occurrences a l = occurrences b l).
  { intros a b l S. unfold occurrences. f_equal. apply filter_ext. intros x. unfold same_name in *. apply beqb_eq in S. rewrite S. reflexivity. }
  induction names as [|n names IH]; intros before; cbn [selection].
  - split; [constructor|intros h []].
  - destruct (IH (before ++ [n])) as [N X]. destruct (kth_last name hs n (occurrences n before)) as [h|] eqn:K; cbn [app].
    + destruct (UNI _ _ _ K) as [K' S]. split.
      * constructor; auto. intros I. specialize (X h I _ K'). rewrite occurrences_snoc, S, (OCC _ _ before S) in X. lia.
      * intros h' [<-|I] k KK.
        -- rewrite (INJ _ _ _ _ KK K'). rewrite (OCC _ _ _ S). auto.
        -- specialize (X h' I k KK). rewrite occurrences_snoc in X. lia.
    + split; auto. intros h I k KK. specialize (X h I k KK). rewrite occurrences_snoc in X. lia.
Qed.
Lemma map_snd_numbered {A} (hs : list A) : map snd (numbered hs) = hs.
Proof.
  unfold numbered. generalize 0. induction hs as [|h hs IH]; intros k; cbn; auto. rewrite IH. reflexivity.
Qed.
Lemma numbered_NoDup {A} (hs : list A) : NoDup (numbered hs).
Proof.
  apply (NoDup_map_inv fst). replace (map fst (numbered hs)) with (seq 0 (length hs)); [apply seq_NoDup|].
  unfold numbered. generalize 0. induction hs as [|h hs IH]; intros k; cbn; auto. rewrite <- IH. reflexivity.
Qed.
Lemma selection_once hs names :
  NoDup (selection (fun p => h_name (snd p)) (numbered hs) [] names) /\
  map snd (selection (fun p => h_name (snd p)) (numbered hs) [] names) = selection h_name hs [] names.
Proof.
  split; [apply selection_NoDup, numbered_NoDup|]. rewrite <- selection_map, map_snd_numbered. reflexivity.
Qed.

(** What is hashed for the h= list. *)
Lemma hash_all strict mode hs names c d : build_cache strict hs [] = Ok c -> hash_headers strict mode names c = Ok d ->
  exists outs, Forall2 (canon_of false mode) (selection h_name hs [] names) outs /\ d = with_crlf outs.
Proof.
  intros B H. apply build_cache_strict in B. apply hash_headers_strict in H. apply (hash_selection _ _ _ [] c (cache_start _ _ B)). auto.
Qed.
Lemma hash_total mode hs names outs : Forall2 (canon_of false mode) (selection h_name hs [] names) outs ->
  exists c, build_cache false hs [] = Ok c /\ hash_headers false mode names c = Ok (with_crlf outs).
Proof.
  intros F. destruct (build_cache_lookup hs []) as (c & B & _). exists c. split; auto.
  apply (hash_selection _ _ _ [] c (cache_start _ _ B)). eauto.
Qed.

(** ** Oversigning *)
Lemma kth_last_None {A} (name : A -> bytes) hs n k : kth_last name hs n k = None <-> length (filter (fun h => same_name (name h) n) hs) <= k.
Proof. unfold kth_last. rewrite nth_error_None, rev_length. tauto. Qed.
Lemma selection_count {A} (name : A -> bytes) hs n names : forall before,
  length (filter (fun h => same_name (name h) n) (selection name hs before names)) +
    Nat.min (occurrences n before) (length (filter (fun h => same_name (name h) n) hs)) =
  Nat.min (occurrences n (before ++ names)) (length (filter (fun h => same_name (name h) n) hs)).
Proof.
  set (F := length (filter (fun h => same_name (name h) n) hs)).
  induction names as [|m names IH]; intros before; cbn [selection].
  - rewrite app_nil_r. reflexivity.
  - specialize (IH (before ++ [m])). rewrite <- app_assoc in IH. cbn [app] in IH. rewrite <- IH, occurrences_snoc, filter_app, app_length.
    assert (TR : same_name n m = true -> forall x, same_name x m = same_name x n).
    { intros S x. unfold same_name in *. apply beqb_eq in S. rewrite S. reflexivity. }
    assert (OCC : same_name n m = true -> occurrences m before = occurrences n before).
    { intros S. unfold occurrences. f_equal. apply filter_ext. intros x. unfold same_name in *. apply beqb_eq in S. rewrite S. reflexivity. }
    destruct (kth_last name hs m (occurrences m before)) as [h|] eqn:K.
    + assert (S : same_name (name h) m = true).
      { assert (I : In h (rev (filter (fun h => same_name (name h) m) hs))) by (eapply nth_error_In; exact K).
        apply in_rev, filter_In in I. tauto. }
      cbn [filter]. destruct (same_name n m) eqn:NM.
      * assert (same_name (name h) n = true) by (rewrite <- (TR eq_refl); auto). rewrite H. cbn [length].
        assert (occurrences n before < F); [|lia]. rewrite <- OCC by auto.
        assert (X : ~ F <= occurrences m before); [|lia]. intros L.
        assert (Y : kth_last name hs m (occurrences m before) = None); [|congruence].
        apply kth_last_None. replace (length _) with F; auto. subst F. f_equal. apply filter_ext. intros x. symmetry. apply TR. auto.
      * assert (same_name (name h) n = false).
        { destruct (same_name (name h) n) eqn:E; auto. unfold same_name in *. apply beqb_eq in E. apply beqb_eq in S.
          rewrite <- E, S, beqb_refl in NM. discriminate. }
        rewrite H. cbn [length]. lia.
    + cbn [filter length]. destruct (same_name n m) eqn:NM; [|lia].
      apply kth_last_None in K. rewrite OCC in K by auto.
      assert (F <= occurrences n before); [|lia]. subst F.
      replace (filter (fun h => same_name (name h) n) hs) with (filter (fun h => same_name (name h) m) hs); auto.
      apply filter_ext. intros x. apply TR. auto.
Qed.
Lemma oversigned {A} (name : A -> bytes) n names a b h :
  length (filter (fun h => same_name (name h) n) (a ++ b)) < occurrences n names -> same_name (name h) n = true ->
  length (filter (fun h => same_name (name h) n) (selection name (a ++ h :: b) [] names)) =
  S (length (filter (fun h => same_name (name h) n) (selection name (a ++ b) [] names))).
Proof.
  intros L S. pose proof (selection_count name (a ++ b) n names []) as X. pose proof (selection_count name (a ++ h :: b) n names []) as Y.
  cbn [app] in X, Y. change (occurrences n []) with 0 in *. rewrite !Nat.min_0_l, !Nat.add_0_r in *. rewrite X, Y.
  rewrite !filter_app in *. cbn [filter] in *. rewrite S in *. rewrite !app_length in *. cbn [length] in *. lia.
Qed.

(** ** The stream *)
Definition starts_wsp (t : bytes) : Prop := exists c r, t = c :: r /\ WSP c.
Lemma message_begins t m s : parse_all new_message (open_str t) = Ok (m, s) -> ~ starts_wsp t ->
  Forall (fun h => begins_field (h_text h)) (m_headers m).
Proof.
  intros P NW. destruct (message_texts _ _ _ P) as [_ TL].
  destruct (message_fields' t) as (ls & h & rest & m' & s' & HB & ET & P' & _ & gs & F2 & FL & SF & X).
  rewrite P in P'. injection P' as <- <-.
  destruct (m_headers m) as [|h0 hs]; constructor; auto.
  inversion F2 as [|? g ? gs' [E _] F2']; subst. rewrite E. inversion FL as [|? ? FG _]; subst. destruct g as [|l g]; [destruct FG|].
  assert (Y : l <> [] /\ exists r, h ++ rest = l ++ r).
  { destruct X as [[_ EC]|(_ & l' & [NL LL] & EC)]; cbn [concat app] in EC.
    - rewrite <- EC in HB. inversion HB as [|? e ls0 t0 A B D F]; subst. split; auto. rewrite <- app_assoc. eauto.
    - inversion HB as [|? e ls0 t0 A B D F]; subst.
      + cbn [app] in EC. unfold opt_line in EC. destruct l' as [|c l']; [discriminate|]. injection EC as -> _. split; [discriminate|].
        destruct LL as [->|[-> _]]; [exists [CR]; reflexivity|]. exists []. rewrite app_nil_r. reflexivity.
      + injection EC as -> _. split; auto. rewrite <- app_assoc. eauto. }
  destruct Y as (NE & r & EQ). destruct l as [|c l]; [congruence|].
  assert (~ WSP c) by (intros W; apply NW; exists c, (l ++ r); rewrite EQ; auto).
  destruct g as [|x g]; cbn [joined app]; eexists c, _; split; auto; reflexivity.
Qed.

Lemma canon_texts mode hs outs (F : Forall2 (canon_of false mode) hs outs) :
  Forall (fun h => lf_folds (h_text h) /\ cr_before (h_text h)) hs ->
  match mode with
  | RELAXED => Forall (fun x => ~ In LF x) outs
  | SIMPLE => Forall (fun h => begins_field (h_text h)) hs -> Forall (fun x => lf_folds x /\ begins_field x) outs
  end.
Proof.
  intros T. destruct mode.
  - intros B. revert T B. induction F as [|h o hs outs E F IH]; intros T B; constructor; inversion T; inversion B; subst; auto.
    unfold canon_of in E. cbn in E. injection E as <-. tauto.
  - revert T. induction F as [|h o hs outs E F IH]; intros T; constructor; inversion T; subst; auto.
    destruct H1 as [L C]. eapply FilterHeader_no_lf; eauto. apply lf_crlf_folds. auto.
Qed.
Lemma Forall_sel {A} (P : A -> Prop) (name : A -> bytes) hs names : Forall P hs -> Forall P (selection name hs [] names).
Proof. rewrite !Forall_forall. intros H x I. apply H. eapply selection_In; eauto. Qed.

Lemma stream_unique mode t1 m1 s1 t2 m2 s2 names1 names2 outs1 outs2 :
  parse_all new_message (open_str t1) = Ok (m1, s1) -> parse_all new_message (open_str t2) = Ok (m2, s2) ->
  (mode = SIMPLE -> ~ starts_wsp t1 /\ ~ starts_wsp t2) ->
  Forall2 (canon_of false mode) (selection h_name (m_headers m1) [] names1) outs1 ->
  Forall2 (canon_of false mode) (selection h_name (m_headers m2) [] names2) outs2 ->
  with_crlf outs1 = with_crlf outs2 -> outs1 = outs2.
Proof.
  intros P1 P2 SW F1 F2 E. destruct (message_texts _ _ _ P1) as [T1 _]. destruct (message_texts _ _ _ P2) as [T2 _].
  pose proof (canon_texts mode _ _ F1 (Forall_sel _ _ _ _ T1)) as C1. pose proof (canon_texts mode _ _ F2 (Forall_sel _ _ _ _ T2)) as C2.
  rewrite <- (app_nil_r (with_crlf outs1)), <- (app_nil_r (with_crlf outs2)) in E.
  destruct mode.
  - destruct (SW eq_refl) as [N1 N2].
    specialize (C1 (Forall_sel _ _ _ _ (message_begins _ _ _ P1 N1))). specialize (C2 (Forall_sel _ _ _ _ (message_begins _ _ _ P2 N2))).
    assert (L : lf_folds []) by (intros [|? ?] ? ?; discriminate).
    apply (stream_simple outs1 outs2 [] [] C1 C2 L L (or_introl eq_refl) (or_introl eq_refl) E).
  - apply (stream_no_lf outs1 outs2 [] [] C1 C2); auto.
Qed.
Lemma header_stream_unique strict mode t1 m1 s1 c1 d1 t2 m2 s2 c2 d2 names1 names2 :
  parse_all new_message (open_str t1) = Ok (m1, s1) -> parse_all new_message (open_str t2) = Ok (m2, s2) ->
  (mode = SIMPLE -> ~ starts_wsp t1 /\ ~ starts_wsp t2) ->
  build_cache strict (m_headers m1) [] = Ok c1 -> hash_headers strict mode names1 c1 = Ok d1 ->
  build_cache strict (m_headers m2) [] = Ok c2 -> hash_headers strict mode names2 c2 = Ok d2 ->
  d1 = d2 ->
  exists outs, Forall2 (canon_of false mode) (selection h_name (m_headers m1) [] names1) outs /\
    Forall2 (canon_of false mode) (selection h_name (m_headers m2) [] names2) outs.
Proof.
  intros P1 P2 SW B1 H1 B2 H2 E. destruct (hash_all _ _ _ _ _ _ B1 H1) as (o1 & F1 & ->). destruct (hash_all _ _ _ _ _ _ B2 H2) as (o2 & F2 & ->).
  exists o1. split; auto. rewrite (stream_unique mode t1 m1 s1 t2 m2 s2 names1 names2 o1 o2 P1 P2 SW F1 F2 E). auto.
Qed.
Lemma Forall2_length' {A B} (R : A -> B -> Prop) l l' : Forall2 R l l' -> length l = length l'.
Proof. induction 1; cbn; auto. Qed.
Lemma selection_length {A} (name : A -> bytes) n names a b h : 
  length (filter (fun h => same_name (name h) n) (a ++ b)) < occurrences n names -> same_name (name h) n = true ->
  length (selection name (a ++ h :: b) [] names) = S (length (selection name (a ++ b) [] names)).
Proof.
  intros L S. set (p := fun h => same_name (name h) n).
  assert (X : forall l : list A, length l = length (filter p l) + length (filter (fun h => negb (p h)) l)).
  { induction l as [|x l IH]; cbn [filter length]; auto. destruct (p x); cbn [negb length]; lia. }
  rewrite (X (selection name (a ++ h :: b) [] names)), (X (selection name (a ++ b) [] names)).
  pose proof (oversigned name n names a b h L S) as O. fold p in O. rewrite O.
  assert (Y : forall before, length (filter (fun h => negb (p h)) (selection name (a ++ h :: b) before names)) = length (filter (fun h => negb (p h)) (selection name (a ++ b) before names))).
  { clear - S. assert (PH : p h = true) by exact S. induction names as [|m names IH]; intros before; cbn [selection]; auto.
    rewrite !filter_app, !app_length, IH. f_equal. destruct (same_name n m) eqn:NM.
    - assert (Z : forall hs k, match kth_last name hs m k with Some x => negb (p x) = false | None => True end).
      { intros hs k. destruct (kth_last name hs m k) as [x|] eqn:K; auto.
        assert (I : In x (rev (filter (fun h => same_name (name h) m) hs))) by (eapply nth_error_In; exact K).
        apply in_rev, filter_In in I as [_ I]. unfold p, same_name in *. apply beqb_eq in NM. rewrite NM, I. reflexivity. }
      pose proof (Z (a ++ h :: b) (occurrences m before)) as Z1. pose proof (Z (a ++ b) (occurrences m before)) as Z2.
      destruct (kth_last name (a ++ h :: b) m _), (kth_last name (a ++ b) m _); cbn [filter]; rewrite ?Z1, ?Z2; reflexivity.
    - assert (NH : same_name (name h) m = false).
      { destruct (same_name (name h) m) eqn:E; auto. unfold p, same_name in *. apply beqb_eq in E. apply beqb_eq in PH.
        rewrite <- PH, E, beqb_refl in NM. discriminate. }
      assert (Z : kth_last name (a ++ h :: b) m (occurrences m before) = kth_last name (a ++ b) m (occurrences m before)).
      { unfold kth_last. rewrite !filter_app. cbn [filter]. rewrite NH. reflexivity. }
      rewrite Z. reflexivity. }
  rewrite Y. lia.
Qed.
Lemma oversign_stream strict mode t1 m1 s1 c1 d1 t2 m2 s2 c2 d2 names n a b h :
  parse_all new_message (open_str t1) = Ok (m1, s1) -> parse_all new_message (open_str t2) = Ok (m2, s2) ->
  (mode = SIMPLE -> ~ starts_wsp t1 /\ ~ starts_wsp t2) ->
  m_headers m1 = a ++ b -> m_headers m2 = a ++ h :: b -> same_name (h_name h) n = true ->
  length (filter (fun h => same_name (h_name h) n) (a ++ b)) < occurrences n names ->
  build_cache strict (m_headers m1) [] = Ok c1 -> hash_headers strict mode names c1 = Ok d1 ->
  build_cache strict (m_headers m2) [] = Ok c2 -> hash_headers strict mode names c2 = Ok d2 ->
  d1 <> d2.
Proof.
  intros P1 P2 SW E1 E2 S L B1 H1 B2 H2 E.
  destruct (header_stream_unique _ _ _ _ _ _ _ _ _ _ _ _ _ _ P1 P2 SW B1 H1 B2 H2 E) as (outs & F1 & F2).
  apply Forall2_length' in F1. apply Forall2_length' in F2. rewrite E1 in F1. rewrite E2, (selection_length h_name n names a b h L S) in F2. lia.
Qed.
Lemma signed_data_fields strict h g v d : signed_data strict h g v = Ok d ->
  exists outs x, Forall2 (canon_of false (sg_chead g)) (selection h_name (m_headers (v_msg v)) [] (sg_headers g)) outs /\
    d = with_crlf outs ++ x.
Proof.
  unfold signed_data. destruct (build_cache strict _ []) as [c| | |] eqn:B; cbn [obind]; try discriminate.
  destruct (hash_headers strict _ _ c) as [d1| | |] eqn:H; cbn [obind]; try discriminate.
  destruct (substr_from _ _) as [val| | |]; cbn [obind]; try discriminate.
  destruct (strip_b _ _) as [val1| | |]; cbn [obind]; try discriminate.
  destruct (FilterHeader _ _ _) as [x| | |]; cbn [obind]; try discriminate. intros [= <-].
  destruct (hash_all _ _ _ _ _ _ B H) as (outs & F & ->). eauto.
Qed.
Lemma leading_space_ambiguous : exists t1 m1 s1 c1 t2 m2 s2 c2 names1 names2 d,
  parse_all new_message (open_str t1) = Ok (m1, s1) /\ parse_all new_message (open_str t2) = Ok (m2, s2) /\
  build_cache true (m_headers m1) [] = Ok c1 /\ hash_headers true SIMPLE names1 c1 = Ok d /\
  build_cache true (m_headers m2) [] = Ok c2 /\ hash_headers true SIMPLE names2 c2 = Ok d /\
  map h_text (selection h_name (m_headers m1) [] names1) <> map h_text (selection h_name (m_headers m2) [] names2).
Proof.
  exists (esc "A: b\r\n x: y\r\n\r\n"). do 3 eexists. exists (esc " x: y\r\nA: b\r\n\r\n"). do 3 eexists.
  exists [esc "A"], [esc "A"; esc "x"]. eexists. repeat (split; [vm_compute; reflexivity|]). vm_compute. discriminate.
Qed.
