(** The signed message: the new fields in front, the fields a verifier picks, the body. *)
From Verif Require Import Bytes Outcome Stream Tokenizer QuotedPrintable Base64 TagList MailParser Canonicalization Util CStdlib Crypto
  Signature PublicKey SignatoryOptions Signatory Validatory BytesFacts StreamFacts SpecText SpecTags SpecMail SpecCanon SpecVerify SpecSig SpecOptions SpecSign QPFacts
  Base64Facts ListFacts MailFacts BodyFacts BodyProps HeaderFacts HeaderProps SelectFacts TagListFacts SigFacts SigProps TagPosition VerifyFacts VerifyProps
  SignNumbers SignText SignFacts.

(** ** Fields in front of a message *)
Lemma add_field_line m c l : is_wsp c = false ->
  add_line m (c :: l) = mkMessage (Some (header_of (c :: l))) (m_offset m) (all_headers m) (m_done m).
Proof. intros W. unfold add_line. rewrite W, header_new. reflexivity. Qed.
Lemma add_more_lines g : Forall continuation g -> forall m l, l <> [] -> m_tmp m = Some (header_of l) ->
  exists off dn, fold_left add_line g m = mkMessage (Some (header_of (joined (l :: g)))) off (m_headers m) dn.
Proof.
  induction 1 as [|x g (c & r & -> & W) F IH]; intros m l NL E.
  - cbn [fold_left joined]. exists (m_offset m), (m_done m). destruct m; cbn in *. congruence.
  - cbn [fold_left]. set (x := c :: r) in *. assert (E2 : add_line m x = mkMessage (Some (header_of (l ++ CRLF ++ x))) (m_offset m) (m_headers m) (m_done m)).
    { unfold add_line, x. rewrite (proj2 (is_wsp_WSP c) W), E, header_more by auto. reflexivity. }
    destruct (IH (add_line m x) (l ++ CRLF ++ x)) as (off & dn & K); [destruct l; discriminate|rewrite E2; reflexivity|].
    rewrite K, E2. exists off, dn. cbn [m_headers]. f_equal. f_equal. f_equal. rewrite joined_cons2, app_assoc, joined_head, <- app_assoc. reflexivity.
Qed.
Lemma add_group m l g : l <> [] -> ~ continuation l -> Forall continuation g ->
  all_headers (fold_left add_line (l :: g) m) = all_headers m ++ [header_of (joined (l :: g))].
Proof.
  intros NL NC F. destruct l as [|c l]; [congruence|]. cbn [fold_left].
  assert (W : is_wsp c = false). { destruct (is_wsp c) eqn:W; auto. exfalso. apply NC. exists c, l. split; auto. apply is_wsp_WSP; auto. }
  destruct (add_more_lines g F (add_line m (c :: l)) (c :: l)) as (off & dn & E); [discriminate|rewrite add_field_line by auto; reflexivity|].
  rewrite E, add_field_line by auto. reflexivity.
Qed.

(** The lines of a field text. *)
Definition begins_own (t : bytes) : Prop := exists c r, t = c :: r /\ ~ WSP c /\ c <> CR.
Definition own_lines (g : list bytes) : Prop :=
  exists l r, g = l :: r /\ ~ continuation l /\ Forall continuation r /\ Forall (fun l => l <> [] /\ ~ In LF l) g.
Lemma folded_own t : folded_text t -> begins_own t -> exists g, t = joined g /\ own_lines g.
Proof.
  intros (l & g & E & NL & F) (c & r & E2 & NW & NC). exists (l :: g). split; auto. exists l, g. split; auto.
  assert (F1 : Forall continuation g) by (eapply Forall_impl; [|exact F]; intros x [[u ->] _]; exists HT, u; split; auto; right; auto).
  destruct l as [|c1 l].
  { exfalso. destruct g; cbn [joined] in E; [congruence|]. rewrite E in E2. injection E2 as <- _. congruence. }
  assert (c1 = c) as ->. { rewrite E2 in E. change (c1 :: l) with ([c1] ++ l) in E. rewrite joined_head in E. injection E as <- _. reflexivity. }
  split; [|split; auto].
  - intros (c2 & r2 & E3 & W). injection E3 as <- _. auto.
  - constructor; [split; [discriminate|auto]|]. eapply Forall_impl; [|exact F]. intros x [(r2 & ->) X]. split; [discriminate|auto].
Qed.
Lemma own_all Hs : Forall (fun t => folded_text t /\ begins_own t) Hs -> exists gs, Hs = map joined gs /\ Forall own_lines gs.
Proof.
  induction 1 as [|t Hs [A B] F (gs & E & G)]; [exists []; auto|]. destruct (folded_own t A B) as (g & -> & O).
  exists (g :: gs). subst. auto.
Qed.
Lemma with_crlf_groups gs : Forall own_lines gs -> with_crlf (map joined gs) = with_crlf (concat gs).
Proof.
  induction 1 as [|g gs (l & r & -> & _) F IH]; [reflexivity|]. cbn [map concat]. rewrite with_crlf_app, with_crlf_cons, IH, app_assoc, joined_crlf by discriminate.
  reflexivity.
Qed.
Lemma own_lines_block gs : Forall own_lines gs -> Forall (fun l => l <> [] /\ ~ In LF l) (concat gs).
Proof. induction 1 as [|g gs (l & r & -> & _ & _ & F) G IH]; [constructor|]. cbn [concat]. apply Forall_app. auto. Qed.
Lemma add_own gs : Forall own_lines gs -> forall m,
  all_headers (fold_left add_line (concat gs) m) = all_headers m ++ map (fun g => header_of (joined g)) gs.
Proof.
  induction 1 as [|g gs (l & r & -> & NC & FC & F) G IH]; intros m; [cbn; rewrite app_nil_r; reflexivity|].
  cbn [concat map]. rewrite fold_left_app, IH. inversion F as [|? ? [NL _] _]; subst. rewrite add_group by auto. rewrite <- app_assoc. reflexivity.
Qed.
Lemma fold_shift P ls : forall m m', m_headers m = P ++ m_headers m' -> m_tmp m = m_tmp m' ->
  all_headers (fold_left add_line ls m) = P ++ all_headers (fold_left add_line ls m').
Proof.
  induction ls as [|l ls IH]; intros m m' A B; cbn [fold_left].
  - unfold all_headers. rewrite A, B, app_assoc. reflexivity.
  - apply IH; destruct l as [|c l]; cbn [add_line]; auto; destruct (is_wsp c); cbn [m_headers m_tmp]; auto.
    + rewrite A, B, <- app_assoc. reflexivity.
    + rewrite B. reflexivity.
Qed.
Lemma fold_start ls m : match ls with [] => True | l :: _ => l <> [] /\ ~ continuation l end ->
  all_headers (fold_left add_line ls m) = all_headers m ++ all_headers (fold_left add_line ls new_message).
Proof.
  destruct ls as [|[|c l] ls]; [cbn; rewrite app_nil_r; reflexivity|intros [X _]; congruence|]. intros [_ NC].
  assert (W : is_wsp c = false). { destruct (is_wsp c) eqn:W; auto. exfalso. apply NC. exists c, l. split; auto. apply is_wsp_WSP; auto. }
  cbn [fold_left]. rewrite !add_field_line by auto. apply fold_shift; cbn [m_headers m_tmp]; auto. unfold all_headers at 2. cbn. rewrite app_nil_r. reflexivity.
Qed.
Lemma header_block_app ls h ls' h' : header_block ls h -> header_block ls' h' -> header_block (ls ++ ls') (h ++ h').
Proof. induction 1 as [|l e ls t A B C D IH]; intros X; auto. rewrite <- !app_assoc. cbn [app]. constructor; auto. Qed.

Lemma prefix_parse Hs t m s : Forall (fun t => folded_text t /\ begins_own t) Hs -> ~ starts_wsp t ->
  parse_all new_message (open_str t) = Ok (m, s) ->
  exists m' s', parse_all new_message (open_str (with_crlf Hs ++ t)) = Ok (m', s') /\ m_headers m' = map header_of Hs ++ m_headers m.
Proof.
  intros F NW PA. destruct (own_all Hs F) as (gs & -> & O). rewrite with_crlf_groups by auto. rewrite map_map.
  destruct (message_shape (S (length t)) t) as (ls & h & rest & HB & -> & R); [lia|].
  assert (HB2 : header_block (concat gs ++ ls) (with_crlf (concat gs) ++ h)).
  { apply header_block_app; auto. apply header_block_crlf, own_lines_block. auto. }
  assert (K : forall ls', (match ls' with [] => True | l :: _ => l <> [] /\ ~ continuation l end) ->
    all_headers (fold_left add_line (concat gs ++ ls') new_message) = map (fun g => header_of (joined g)) gs ++ all_headers (fold_left add_line ls' new_message)).
  { intros ls' H. rewrite fold_left_app, fold_start, add_own by auto. reflexivity. }
  assert (FL : match ls with [] => True | l :: _ => l <> [] /\ ~ continuation l end).
  { destruct ls as [|l ls]; auto. inversion HB as [|l0 e ls0 t0 A B C D]; subst. split; auto. intros (c & r & -> & W). apply NW. exists c. cbn. eauto. }
  destruct R as [(e & body & LE & ->)|NL].
  - destruct (parse_blank _ _ e body HB LE) as (m1 & s1 & P1 & _ & H1 & _). rewrite P1 in PA. injection PA as -> ->.
    destruct (parse_blank _ _ e body HB2 LE) as (m2 & s2 & P2 & _ & H2 & _). exists m2, s2. rewrite <- app_assoc in P2. split; auto.
    rewrite H2, H1. apply K. auto.
  - destruct (parse_unended _ _ rest HB NL) as (m1 & s1 & P1 & _ & _ & H1). rewrite P1 in PA. injection PA as -> ->.
    destruct (parse_unended _ _ rest HB2 NL) as (m2 & s2 & P2 & _ & _ & H2). exists m2, s2. rewrite <- app_assoc in P2. split; auto.
    rewrite H2, H1, <- app_assoc. apply K. destruct ls as [|l ls]; [|auto]. inversion HB; subst. cbn [app] in *.
    destruct (chop_cr rest) as [|c r] eqn:CH; auto. split; [discriminate|]. intros (c2 & r2 & E & W). injection E as <- <-. apply NW.
    unfold chop_cr in CH. destruct (rev rest) as [|d u] eqn:RV; [exists c, r; auto|]. exists c. apply (f_equal (@rev _)) in RV. rewrite rev_involutive in RV.
    destruct (d =?c CR); [|subst; eauto]. cbn [rev] in RV. rewrite CH in RV. rewrite RV. cbn. eauto.
Qed.
Lemma prefix_body Hs t b : Forall (fun t => folded_text t /\ begins_own t) Hs -> message_body t b -> message_body (with_crlf Hs ++ t) b.
Proof.
  intros F MB. destruct (own_all Hs F) as (gs & -> & O). rewrite with_crlf_groups by auto.
  assert (HB : header_block (concat gs) (with_crlf (concat gs))) by (apply header_block_crlf, own_lines_block; auto).
  inversion MB as [ls h e b0 A B|ls h tail A B]; subst; rewrite app_assoc.
  - eapply mb_blank; [|exact B]. eapply header_block_app; eauto.
  - eapply mb_none; [|exact B]. eapply header_block_app; eauto.
Qed.

(** ** The fields signed *)
Definition picked (toSign : list bytes) (h : header) : bool :=
  match lower (h_name h) with
  | [] => false
  | n => match toSign with [] => true | _ => memb n toSign end
  end.
Definition lname (h : header) : bytes := lower (h_name h).
Definition plain_name (strict : bool) (n : bytes) : Prop := strict && existsb is_8bit n = false.
Lemma lower_str_Ok strict n x : lower_str strict n = Ok x -> x = lower n /\ plain_name strict n.
Proof. unfold lower_str, plain_name. destruct (strict && existsb is_8bit n); [discriminate|]. intros [= <-]. auto. Qed.
Lemma sign_headers_spec strict mode toSign hs : forall d names, sign_headers strict mode toSign hs = Ok (d, names) ->
  names = map lname (filter (picked toSign) hs) /\ Forall (fun h => plain_name strict (h_name h)) hs /\
  exists outs, Forall2 (canon_of strict mode) (filter (picked toSign) hs) outs /\ d = with_crlf outs.
Proof.
  induction hs as [|h hs IH]; intros d names; cbn [sign_headers].
  - intros [= <- <-]. split; auto. split; auto. exists []. split; [constructor|reflexivity].
  - destruct (lower_str strict (h_name h)) as [n| | |] eqn:L; cbn [obind]; try discriminate. apply lower_str_Ok in L as [-> PL].
    assert (SKIP : picked toSign h = false -> sign_headers strict mode toSign hs = Ok (d, names) ->
      names = map lname (filter (picked toSign) (h :: hs)) /\ Forall (fun h => plain_name strict (h_name h)) (h :: hs) /\
      exists outs, Forall2 (canon_of strict mode) (filter (picked toSign) (h :: hs)) outs /\ d = with_crlf outs).
    { intros P E. cbn [filter]. rewrite P. destruct (IH _ _ E) as (A & B & D). auto. }
    destruct (lower (h_name h)) as [|c n] eqn:LN; [apply SKIP; unfold picked; rewrite LN; reflexivity|].
    destruct (negb match toSign with [] => true | _ => false end && negb (memb (c :: n) toSign)) eqn:Q.
    { apply SKIP. unfold picked. rewrite LN. apply andb_true_iff in Q as [Q1 Q2]. apply negb_true_iff in Q2. destruct toSign; [discriminate|auto]. }
    assert (P : picked toSign h = true).
    { unfold picked. rewrite LN. destruct toSign; auto. cbn [negb andb] in Q. apply negb_false_iff in Q. exact Q. }
    destruct (FilterHeader strict mode (h_text h)) as [x| | |] eqn:F; cbn [obind]; try discriminate.
    destruct (sign_headers strict mode toSign hs) as [[d1 n1]| | |]; cbn [obind]; try discriminate. intros [= <- <-].
    destruct (IH _ _ eq_refl) as (A & B & outs & D & EE). cbn [filter]. rewrite P. split; [cbn [map]; unfold lname at 1; rewrite LN, A; reflexivity|].
    split; auto. exists (x :: outs). split; [constructor; auto|]. rewrite with_crlf_cons, app_assoc, EE. reflexivity.
Qed.
Lemma omap_lower strict l : forall r, omap (lower_str strict) l = Ok r -> r = map lower l /\ Forall (plain_name strict) l.
Proof.
  induction l as [|x l IH]; intros r; cbn [omap]; [intros [= <-]; auto|].
  destruct (lower_str strict x) as [n| | |] eqn:L; cbn [obind]; try discriminate. apply lower_str_Ok in L as [-> PL].
  destruct (omap (lower_str strict) l) as [r1| | |]; cbn [obind]; try discriminate. intros [= <-]. destruct (IH _ eq_refl) as [-> B]. auto.
Qed.
Lemma same_lower a b : same_name a b = true <-> lower a = lower b.
Proof. unfold same_name. rewrite !map_low. apply beqb_eq. Qed.
Lemma lower_nil n : lower n = [] <-> n = []. Proof. destruct n; split; cbn; congruence. Qed.
Lemma picked_chosen o h : picked (map lower (o_headers o)) h = true <-> chosen o (h_name h).
Proof.
  unfold picked, chosen. rewrite <- lower_nil. destruct (lower (h_name h)) as [|c n] eqn:L.
  - split; [discriminate|]. intros [X _]. congruence.
  - rewrite <- L. split.
    + intros H. split; [rewrite L; discriminate|]. destruct (o_headers o) as [|w ws]; auto. right. cbn [map] in H.
      change (lower w :: map lower ws) with (map lower (w :: ws)) in H. apply memb_In, in_map_iff in H as (x & E & I). exists x. split; auto.
      apply same_lower. auto.
    + intros [_ [->|(w & I & S)]]; [reflexivity|]. destruct (o_headers o) as [|w0 ws] eqn:OH; [destruct I|]. rewrite <- OH in *. rewrite OH at 1. cbn [map].
      apply memb_In. apply same_lower in S. rewrite S. apply in_map. auto.
Qed.
Lemma picked_same l a b : same_name (h_name a) (h_name b) = true -> picked l a = picked l b.
Proof. intros S. apply same_lower in S. unfold picked. rewrite S. reflexivity. Qed.

(** ** The fields a verifier picks *)
Lemma selection_app {A} (name : A -> bytes) hs a : forall before b,
  selection name hs before (a ++ b) = selection name hs before a ++ selection name hs (before ++ a) b.
Proof.
  induction a as [|n a IH]; intros before b; cbn [app selection]; [rewrite app_nil_r; reflexivity|].
  rewrite IH, <- app_assoc, <- app_assoc. reflexivity.
Qed.
Lemma filter_filter_sub {A} (p q : A -> bool) l : (forall x, In x l -> p x = true -> q x = true) -> filter p (filter q l) = filter p l.
Proof.
  induction l as [|x l IH]; intros H; cbn [filter]; auto. destruct (q x) eqn:Q; cbn [filter].
  - rewrite IH by (intros; apply H; auto; right; auto). reflexivity.
  - rewrite IH by (intros; apply H; auto; right; auto). destruct (p x) eqn:P; auto. rewrite (H x) in Q; [discriminate|left; auto|auto].
Qed.
Lemma filter_rev {A} (p : A -> bool) l : filter p (rev l) = rev (filter p l).
Proof. induction l as [|x l IH]; auto. cbn [rev filter]. rewrite filter_app, IH. cbn [filter]. destruct (p x); cbn [rev]; [reflexivity|apply app_nil_r]. Qed.
Lemma filter_nil' {A} (p : A -> bool) l : Forall (fun x => p x = false) l -> filter p l = [].
Proof. induction 1 as [|x l E F IH]; cbn; auto. rewrite E. auto. Qed.
Lemma occurrences_lname n L : occurrences n (map lname L) = length (filter (fun h => same_name (h_name h) n) L).
Proof.
  unfold occurrences. induction L as [|h L IH]; auto. cbn [map filter].
  assert (E : same_name n (lname h) = same_name (h_name h) n).
  { rewrite same_name_sym. unfold same_name, lname. rewrite !map_low, lower_idem. reflexivity. }
  rewrite E. destruct (same_name (h_name h) n); cbn [length]; rewrite IH; reflexivity.
Qed.
Lemma selection_own (P : header -> bool) new hs : (forall a b, same_name (h_name a) (h_name b) = true -> P a = P b) ->
  forall L2 L1, filter P (rev hs) = L1 ++ L2 -> selection h_name (new ++ hs) (map lname L1) (map lname L2) = L2.
Proof.
  intros PS. induction L2 as [|h L2 IH]; intros L1 E; [reflexivity|]. cbn [map selection].
  specialize (IH (L1 ++ [h])). rewrite <- app_assoc in IH. specialize (IH E). rewrite map_app in IH. cbn [map] in IH. rewrite IH.
  assert (Ph : P h = true). { assert (I : In h (filter P (rev hs))) by (rewrite E; apply in_or_app; right; left; auto). apply filter_In in I. tauto. }
  assert (K : kth_last h_name (new ++ hs) (lname h) (occurrences (lname h) (map lname L1)) = Some h); [|rewrite K; reflexivity].
  unfold kth_last. rewrite filter_app, rev_app_distr, <- (filter_rev _ hs).
  rewrite <- (filter_filter_sub (fun x => same_name (h_name x) (lname h)) P).
  2: { intros x _ S. rewrite (PS x h); auto. unfold same_name, lname in *. rewrite !map_low, lower_idem in S. rewrite !map_low. exact S. }
  rewrite E, filter_app, occurrences_lname. cbn [filter].
  assert (S : same_name (h_name h) (lname h) = true) by (apply same_lower; unfold lname; rewrite lower_idem; reflexivity).
  rewrite S, <- app_assoc, nth_error_app2, Nat.sub_diag by lia. reflexivity.
Qed.
Lemma selection_over (P : header -> bool) new hs over : 
  (forall n, In n over -> Forall (fun h => same_name (h_name h) n = false) new /\ forall h, In h hs -> same_name (h_name h) n = true -> P h = true) ->
  forall before, selection h_name (new ++ hs) (map lname (filter P (rev hs)) ++ before) over = [].
Proof.
  induction over as [|n over IH]; intros H before; [reflexivity|]. cbn [selection]. rewrite <- app_assoc, IH by (intros; apply H; right; auto).
  destruct (H n (or_introl eq_refl)) as [H1 H2]. rewrite app_nil_r.
  assert (K : kth_last h_name (new ++ hs) n (occurrences n (map lname (filter P (rev hs)) ++ before)) = None); [|rewrite K; reflexivity].
  apply kth_last_None. rewrite filter_app, (filter_nil' _ new H1). cbn [app]. unfold occurrences at 1. rewrite filter_app, app_length.
  fold (occurrences n (map lname (filter P (rev hs)))). rewrite occurrences_lname, filter_filter_sub.
  - rewrite filter_rev, rev_length. lia.
  - intros x I. apply in_rev in I. auto.
Qed.
Lemma selection_signed (P : header -> bool) new hs over : (forall a b, same_name (h_name a) (h_name b) = true -> P a = P b) ->
  (forall n, In n over -> Forall (fun h => same_name (h_name h) n = false) new /\ forall h, In h hs -> same_name (h_name h) n = true -> P h = true) ->
  selection h_name (new ++ hs) [] (map lname (filter P (rev hs)) ++ over) = filter P (rev hs).
Proof.
  intros PS H. rewrite selection_app. cbn [app]. pose proof (selection_own P new hs PS (filter P (rev hs)) [] eq_refl) as SO. cbn [map] in SO. rewrite SO.
  rewrite <- (app_nil_r (map lname _)) at 1. rewrite (selection_over P new hs over H). apply app_nil_r.
Qed.

Lemma hash_ok strict mode hs names : Forall (plain_name strict) names -> forall before c outs, cache_at hs before c ->
  Forall2 (canon_of strict mode) (selection h_name hs before names) outs -> hash_headers strict mode names c = Ok (with_crlf outs).
Proof.
  induction 1 as [|n names PN F IH]; intros before c outs CA FO; cbn [hash_headers selection] in *.
  - inversion FO. reflexivity.
  - rewrite (lower_ok _ _ PN). cbn [obind]. pose proof (cache_step hs before c n CA) as K. destruct (cache_pop (lower n) c) as [[h c1]|].
    + destruct K as [K CA1]. rewrite K in FO. cbn [app] in FO. inversion FO as [|? x ? l FX FL]; subst. unfold canon_of in FX. rewrite FX. cbn [obind].
      rewrite (IH _ _ _ CA1 FL). cbn [obind]. rewrite with_crlf_cons, app_assoc. reflexivity.
    + destruct K as [K CA1]. rewrite K in FO. exact (IH _ _ _ CA1 FO).
Qed.
Lemma build_cache_ok strict hs : Forall (fun h => plain_name strict (h_name h)) hs -> exists c, build_cache strict hs [] = Ok c /\ cache_at hs [] c.
Proof.
  intros F. destruct (build_cache_lookup hs []) as (c & E & _). exists c. split; [|apply cache_start; auto]. rewrite <- E. generalize (@nil (bytes * list header)).
  clear - F. induction F as [|h hs P F IH]; intros c; auto. cbn [build_cache]. rewrite (lower_ok _ _ P), (lower_ok false) by reflexivity. apply IH.
Qed.

(** ** All signatures *)
Lemma one_signature_begins C strict o now hashed names bh s H : one_signature C strict o now hashed names bh s = Ok H -> begins_own H.
Proof.
  unfold one_signature. destruct (sig_template o s now names bh) as [T| | |] eqn:ET; cbn [obind]; try discriminate.
  destruct (FilterHeader strict (o_chead o) T) as [c| | |]; cbn [obind]; try discriminate.
  destruct (make_signature C o s _) as [x| | |]; cbn [obind]; try discriminate. cbv zeta. intros E. apply Ok_inj in E. subst H.
  destruct (template_text o s now names bh T ET) as (_ & t & _ & TT). specialize (TT [] t eq_refl). rewrite TT. unfold field_name.
  assert (W : forall c, forallb (fun x => negb (c =?c x)) [SP; HT; CR] = true -> ~ WSP c /\ c <> CR).
  { intros k F. cbn [forallb] in F. apply andb_true_iff in F as [A F]. apply andb_true_iff in F as [B F]. apply andb_true_iff in F as [D _].
    apply negb_true_iff in A, B, D. split; [intros [->| ->]|intros ->]; rewrite ceqb_refl in *; discriminate. }
  destruct (o_arc o =? 0)%N; [exists "D"%char|exists "A"%char]; (eexists; split; [reflexivity|apply W; vm_compute; reflexivity]).
Qed.
Lemma all_sigs_spec C strict o clock hashed names bh sigs : forall n acc A H, acc = joined A -> Forall (fun l => l <> []) A ->
  all_sigs C strict o clock n hashed names bh sigs acc = Ok H ->
  exists Hs, H = joined (A ++ Hs) /\
    Forall2 (fun p x => one_signature C strict o (clock (fst p)) hashed names bh (snd p) = Ok x) (combine (seq n (length sigs)) sigs) Hs.
Proof.
  induction sigs as [|s sigs IH]; intros n acc A H EA FA; cbn [all_sigs].
  - intros [= <-]. exists []. rewrite app_nil_r. split; auto. constructor.
  - destruct (one_signature C strict o (clock n) hashed names bh s) as [h| | |] eqn:O; cbn [obind]; try discriminate. intros E.
    assert (Nh : h <> []). { destruct (one_signature_begins _ _ _ _ _ _ _ _ _ O) as (c & r & -> & _). discriminate. }
    destruct (IH (S n) (match acc with [] => h | _ => acc ++ CRLF ++ h end) (A ++ [h]) H) as (Hs & EH & F2); auto.
    + destruct A as [|a A]; [subst; reflexivity|]. rewrite joined_snoc by discriminate. rewrite <- EA.
      destruct acc; [|reflexivity]. exfalso. symmetry in EA. revert EA. apply joined_nonempty; [auto|discriminate].
    + apply Forall_app. auto.
    + exists (h :: Hs). rewrite <- app_assoc in EH. split; auto. cbn [length seq combine]. constructor; auto.
Qed.
