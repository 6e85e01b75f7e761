(** The relaxed form for all texts: proofs. *)
From Verif Require Import Bytes Outcome Stream Tokenizer MailParser Canonicalization BytesFacts StreamFacts TokenizerFacts
  SpecText SpecMail SpecCanon SpecOutcome SpecRelaxed QPFacts ListFacts MailFacts HeaderFacts HeaderProps AddressClean ListExact ListWide LoneFacts.

Lemma break_fws r : breaks_line r -> l_fws r = Some ([], r).
Proof. intros (u & z & -> & U & N). apply l_fws_stray; auto. Qed.
Lemma break_lone r : breaks_line r -> exists c t, r = c :: t /\ (WSP c \/ c = CR) /\ lone (c :: t) = lone t.
Proof.
  intros (u & z & -> & U & N). destruct u as [|c u].
  - exists CR, (LF :: z). split; [reflexivity|]. split; [auto|reflexivity].
  - exists c, (u ++ CRLF ++ z). split; [reflexivity|]. inversion U; subst. split; [auto|]. cbn [app]. rewrite lone_cons.
    rewrite ceqb_false; [reflexivity|]. intros ->. destruct H1; discriminate.
Qed.
(** A run in front of what stops it. *)
Definition ends_run (w r : bytes) : Prop := stops r \/ (w = [] \/ In CR w) /\ breaks_line r /\ no_wsp r.
Lemma no_wsp_stop r : no_wsp r -> match r with [] => True | c :: _ => is_wsp c = false end.
Proof. destruct r as [|c r]; [auto|]. apply not_WSP_b. Qed.
Lemma run_read w r : ws w -> w <> [] -> ends_run w r ->
  exists w1 w2, w = w1 ++ w2 /\ w1 <> [] /\ ws w2 /\ ends_run w2 r /\ l_fws (w ++ r) = Some (w1, w2 ++ r).
Proof.
  intros W N [S|([K|K] & B & NW)]; [|congruence|].
  - destruct (l_fws_ws w r W N S) as (w1 & w2 & E & N1 & W2 & L). exists w1, w2. unfold ends_run. auto 8.
  - assert (X : exists u c w2, w = u ++ CRLF ++ c :: w2 /\ Forall WSP u /\ WSP c /\ ws w2).
    { clear N. induction W as [|c w WC W IH|c w WC W IH]; [destruct K| |].
      - destruct K as [K|K]; [subst c; destruct WC; discriminate|]. destruct (IH K) as (u & d & w2 & -> & U & D & W2). exists (c :: u), d, w2. auto.
      - exists [], c, w. auto. }
    destruct X as (u & c & w2 & -> & U & WC & W2).
    assert (Y : exists a b, w2 = a ++ b /\ Forall WSP a /\ ws b /\ (b = [] \/ exists b', b = CR :: b')).
    { clear K N W. induction W2 as [|d w2 WD W2 IH|d w2 WD W2 IH].
      - exists [], []. split; [reflexivity|]. split; [constructor|]. split; [apply ws_nil|auto].
      - destruct IH as (a & b & -> & A & WB & E). exists (d :: a), b. auto.
      - exists [], (CR :: LF :: d :: w2). split; [reflexivity|]. split; [constructor|]. split; [apply ws_fold; auto|]. right. eexists. reflexivity. }
    destruct Y as (a & b & -> & A & WB & EB). exists (u ++ CRLF ++ c :: a), b. split; [rewrite <- !app_assoc; reflexivity|].
    split; [destruct u; discriminate|]. split; auto.
    split; [right; split; [destruct EB as [->|(b' & ->)]; [auto|right; left; auto]|auto]|].
    rewrite <- !app_assoc. unfold l_fws. rewrite (span_wsps u (CRLF ++ _) U (CR_no_wsp _)).
    change (CRLF ++ ?x) with (CR :: LF :: x). cbv iota beta. rewrite !ceqb_refl. cbn [app].
    assert (NB : no_wsp (b ++ r)) by (destruct EB as [->|(b' & ->)]; [exact NW|apply CR_no_wsp]).
    pose proof (span_wsps (c :: a) (b ++ r) (Forall_cons _ WC A) NB) as SP2. cbn [app] in SP2. rewrite <- app_assoc. rewrite SP2.
    reflexivity.
Qed.
Lemma run_done r : ends_run [] r -> l_fws r = Some ([], r).
Proof. intros [S|(_ & B & _)]; [apply l_fws_stops; auto|apply break_fws; auto]. Qed.
Lemma run_skip f : forall s p w r, St s p (w ++ r) -> ws w -> ends_run w r -> length (w ++ r) < f ->
  exists s', skip_fws f s = Ok s' /\ St s' (rev w ++ p) r.
Proof.
  induction f as [|f IH]; intros s p w r H W E L; [lia|]. cbn [skip_fws]. pose proof (read_fws_St _ _ _ H) as R.
  destruct w as [|c w].
  - cbn [app] in R. rewrite run_done in R by auto. destruct R as (s1 & -> & H1). cbn [obind]. eauto.
  - destruct (run_read (c :: w) r W ltac:(discriminate) E) as (w1 & w2 & EW & N1 & W2 & E2 & L1). rewrite L1 in R.
    destruct R as (s1 & -> & H1). cbn [obind]. destruct w1 as [|x w1]; [congruence|].
    destruct (IH s1 _ w2 r H1 W2 E2) as (s2 & -> & H2).
    { rewrite EW in L. rewrite !app_length in *. cbn [length] in L. lia. }
    exists s2. split; auto. rewrite EW, rev_app_distr, <- app_assoc. exact H2.
Qed.
Lemma run_found s p w r : St s p (w ++ r) -> ws w -> ends_run w r ->
  exists s1, fws_found s = Ok (match w with [] => false | _ => true end, s1) /\ St s1 (rev w ++ p) r.
Proof.
  intros H W E. unfold fws_found. pose proof (read_fws_St _ _ _ H) as R. destruct w as [|c w].
  - cbn [app] in R. rewrite run_done in R by auto. destruct R as (s1 & -> & H1). cbn [obind]. eauto.
  - destruct (run_read (c :: w) r W ltac:(discriminate) E) as (w1 & w2 & EW & N1 & W2 & E2 & L1). rewrite L1 in R.
    destruct R as (s1 & -> & H1). cbn [obind]. destruct w1 as [|x w1]; [congruence|].
    destruct (run_skip (fuel_of s1) s1 _ w2 r H1 W2 E2) as (s2 & -> & H2). { rewrite (St_fuel _ _ _ H1). lia. }
    cbn [obind]. exists s2. split; auto. rewrite EW, rev_app_distr, <- app_assoc. exact H2.
Qed.

(** ** From the grammar to the result *)
Lemma break_cons c t : breaks_line (c :: t) -> WSP c -> breaks_line t.
Proof.
  intros (u & z & E & U & N) W. destruct u as [|d u]; cbn [app] in E; injection E as -> E; [destruct W; discriminate|].
  exists u, z. inversion U; subst. auto.
Qed.
Lemma unfolds_head c t u : ~ WSP c -> (c <> CR \/ breaks_line (c :: t)) -> unfolds (c :: t) u -> exists u2, u = c :: u2 /\ unfolds t u2.
Proof.
  intros NW NC U. assert (NF : forall w x, FWSs w -> w ++ x = c :: t -> w <> [] -> False).
  { intros w x F E N. apply FWSs_ws in F. destruct F as [|d w D F|d w D F]; [congruence| |].
    - injection E as -> _. contradiction.
    - injection E as <- E. destruct NC as [NC|(u0 & z & E0 & U0 & NZ)]; [congruence|].
      destruct u0 as [|e u0]; cbn [app] in E0; [injection E0 as E2|injection E0 as E1 E2; rewrite <- E1 in U0; inversion U0 as [|? ? K _]; subst; destruct K; discriminate].
      rewrite <- E in E2. injection E2 as <-. cbn in NZ. contradiction. }
  inversion U as [w F|d t0 u0 A B D|d t0 u0 A D|w d t0 u0 N F A B D E]; subst.
  - exfalso. apply (NF (c :: t) [] F); [apply app_nil_r|discriminate].
  - eauto.
  - eauto.
  - exfalso. exact (NF w (d :: t0) F E N).
Qed.
Lemma fh_unfolds t u : unfolds t u -> forall f s p x, St s p t -> length t < f -> fh_loop f s x = Ok (x ++ u).
Proof.
  intros U. remember (length t) as n eqn:LN. revert t u U LN. induction n as [n IH] using lt_wf_ind. intros t u U -> f s p x H L.
  destruct f as [|f]; [lia|]. rewrite fh_step. fold (fws_found s).
  assert (ONE : forall w c t' u', ws w -> ends_run w (c :: t') -> unfolds t' u' -> t = w ++ c :: t' ->
    obind (fws_found s)
    (fun '(found, s2) =>
      let '(o, s3) := peek s2 in
      match o with
      | None => Ok x
      | Some _ => let '(g, s4) := get s3 in fh_loop f s4 (x ++ (if found then [SP] else []) ++ [as_char g])
      end) = Ok (x ++ (match w with [] => [] | _ => [SP] end) ++ c :: u')).
  { intros w c t' u' W E U' ->. destruct (run_found s p w (c :: t') H W E) as (s2 & P & H2).
    rewrite P. cbn [obind]. peek_at H2. get_at H2. cbn [as_char]. rewrite app_length in L. cbn [length] in L.
    rewrite (IH (length t') ltac:(rewrite app_length; cbn [length]; lia) t' u' U' eq_refl f s0 _ _ H0) by lia.
    rewrite <- !app_assoc. destruct w; reflexivity. }
  assert (RUN : ends_run [] t -> forall c t' u', t = c :: t' -> unfolds t' u' ->
    obind (fws_found s)
    (fun '(found, s2) =>
      let '(o, s3) := peek s2 in
      match o with
      | None => Ok x
      | Some _ => let '(g, s4) := get s3 in fh_loop f s4 (x ++ (if found then [SP] else []) ++ [as_char g])
      end) = Ok (x ++ c :: u')).
  { intros E c t' u' -> U'. exact (ONE [] c t' u' ws_nil E U' eq_refl). }
  inversion U as [w W|c t' u' NW NC U'|c t' u' B U'|w c t' u' N W NW NC U']; subst.
  - assert (H' : St s p (t ++ [])) by (rewrite app_nil_r; auto).
    destruct (run_found s p t [] H' (FWSs_ws _ W) (or_introl I)) as (s2 & P & H2).
    rewrite P. cbn [obind]. peek_at H2. rewrite app_nil_r. reflexivity.
  - apply (RUN (or_introl (stops_char _ _ NW NC)) c t' u' eq_refl U').
  - (* a line break: the reader finds nothing *)
    pose proof (read_fws_St _ _ _ H) as R. rewrite break_fws in R by auto. destruct R as (s1 & R & H1). unfold fws_found. rewrite R. cbn [obind].
    cbn [rev app] in H1. peek_at H1. get_at H1. cbn [as_char]. cbn [length] in L.
    rewrite (IH (length t') ltac:(cbn [length]; lia) t' u' U' eq_refl f s0 _ _ ltac:(eassumption)) by lia.
    rewrite <- !app_assoc. reflexivity.
  - destruct (unfolds_head c t' u' NW ltac:(tauto) U') as (u2 & -> & U2).
    assert (E : ends_run w (c :: t')).
    { destruct NC as [NC|[K B]]; [left; apply stops_char; auto|right]. split; [auto|]. split; [auto|exact NW]. }
    rewrite (ONE w c t' u2 (FWSs_ws _ W) E U2 eq_refl). destruct w; [congruence|]. reflexivity.
Qed.

(** ** From the result to the grammar *)
Lemma fold_ws u c b : Forall WSP u -> WSP c -> Forall WSP b -> ws (u ++ CRLF ++ c :: b).
Proof. intros U C B. apply ws_app; [apply ws_wsps; auto|]. apply ws_fold; auto. apply ws_wsps. auto. Qed.
Lemma fold_CR u (c : ascii) b : In CR (u ++ CRLF ++ c :: b).
Proof. apply in_or_app. right. left. reflexivity. Qed.
Lemma skip_any f : forall s p r, St s p r -> no_wsp r -> lone r = false -> length r < f ->
  exists w r' s', r = w ++ r' /\ ws w /\ (w = [] \/ In CR w) /\ no_wsp r' /\ (stops r' \/ breaks_line r') /\
    skip_fws f s = Ok s' /\ St s' (rev w ++ p) r' /\ lone r' = false.
Proof.
  induction f as [|f IH]; intros s p r H NW LO L; [lia|]. cbn [skip_fws].
  pose proof (read_fws_St _ _ _ H) as R. pose proof (l_fws_cases r) as CS. pose proof (l_fws_lone r) as LL.
  destruct (l_fws r) as [[w r1]|]; [|congruence]. destruct R as (s1 & -> & H1). cbn [obind]. destruct w as [|c w].
  - destruct CS as [-> CS]. exists [], r, s1. split; [reflexivity|]. split; [apply ws_nil|]. split; [auto|]. split; [auto|].
    split; [|auto]. destruct CS as [S0|(u & z & E & U & N)]; [auto|]. right. exists u, z. auto.
  - destruct CS as (E & N1 & [[F _]|(u & d & b & EW & U & D & B)]).
    + exfalso. rewrite E in NW. inversion F; subst. contradiction.
    + assert (W : ws (c :: w)) by (rewrite EW; apply fold_ws; auto). destruct LL as [LL _].
      destruct (IH s1 _ r1 H1 N1 ltac:(congruence)) as (w2 & r2 & s2 & E2 & W2 & C2 & N2 & B2 & P & H2 & L2).
      { rewrite E, app_length in L. cbn [length] in L. lia. }
      exists ((c :: w) ++ w2), r2, s2. rewrite E, E2, <- app_assoc, rev_app_distr, <- app_assoc. split; [reflexivity|]. split; [apply ws_app; auto|].
      split; [right; apply in_or_app; left; rewrite EW; apply fold_CR|]. rewrite P. auto 8.
Qed.
Lemma found_any s p t : St s p t -> lone t = false ->
  (breaks_line t /\ exists s1, fws_found s = Ok (false, s1) /\ St s1 p t) \/
  exists w r s1, t = w ++ r /\ ws w /\ (stops r \/ In CR w /\ no_wsp r /\ breaks_line r) /\
    fws_found s = Ok (match w with [] => false | _ => true end, s1) /\ St s1 (rev w ++ p) r /\ lone r = false.
Proof.
  intros H LO. unfold fws_found. pose proof (read_fws_St _ _ _ H) as R. pose proof (l_fws_cases t) as CS. pose proof (l_fws_lone t) as LL.
  destruct (l_fws t) as [[w r1]|]; [|congruence]. destruct R as (s1 & -> & H1). cbn [obind]. destruct LL as [LL _]. destruct w as [|c w].
  - destruct CS as [-> CS]. cbn [obind]. destruct CS as [S0|(u & z & E & U & N)].
    + right. exists [], t, s1. split; [reflexivity|]. split; [apply ws_nil|]. auto.
    + left. split; [exists u, z; auto|]. eauto.
  - destruct CS as (E & N1 & CS). right.
    destruct (skip_any (fuel_of s1) s1 _ r1 H1 N1 ltac:(congruence)) as (w2 & r2 & s2 & E2 & W2 & C2 & N2 & B2 & P & H2 & L2).
    { rewrite (St_fuel _ _ _ H1). lia. }
    rewrite P. cbn [obind]. exists ((c :: w) ++ w2), r2, s2. rewrite E, E2, <- app_assoc, rev_app_distr, <- app_assoc. split; [reflexivity|].
    destruct CS as [[F S1]|(u & d & b & EW & U & D & B)].
    + assert (w2 = [] /\ r2 = r1) as [-> ->].
      { destruct w2 as [|x w2]; [auto|]. exfalso. rewrite E2 in S1. inversion W2 as [|y w3 Y W3|y w3 Y W3]; subst; cbn in S1.
        - destruct S1 as [S1 _]. rewrite WSP_b in S1 by auto. discriminate.
        - destruct S1 as [_ S1]. congruence. }
      rewrite app_nil_r. split; [apply ws_wsps; auto|]. auto.
    + split; [apply ws_app; auto; rewrite EW; apply fold_ws; auto|]. split; [|auto].
      destruct B2 as [B2|B2]; [auto|]. right. split; [apply in_or_app; left; rewrite EW; apply fold_CR|auto].
Qed.
Lemma fh_any f : forall s p t x, St s p t -> lone t = false -> length t < f -> exists u, unfolds t u /\ fh_loop f s x = Ok (x ++ u).
Proof.
  induction f as [|f IH]; intros s p t x H LO L; [lia|]. rewrite fh_step. fold (fws_found s).
  destruct (found_any s p t H LO) as [(B & s1 & P & H1)|(w & r & s1 & E & W & E1 & P & H1 & L1)]; rewrite P; cbn [obind].
  - destruct (break_lone t B) as (c & t' & -> & _ & LC). rewrite LC in LO. peek_at H1. get_at H1. cbn [as_char]. cbn [length] in L.
    match goal with |- exists u, _ /\ fh_loop f ?s0 ?y = _ => destruct (IH s0 _ t' y ltac:(eassumption) LO ltac:(lia)) as (u & U & Q) end.
    exists (c :: u). split; [apply ul_break; auto|]. rewrite Q. rewrite <- !app_assoc. reflexivity.
  - subst t. destruct r as [|c r].
    + exists []. rewrite app_nil_r. split; [apply ul_end, ws_FWSs; auto|]. peek_at H1. rewrite app_nil_r. reflexivity.
    + assert (NW : ~ WSP c).
      { destruct E1 as [[N1 _]|(_ & N1 & _)]; [|exact N1]. intros K. rewrite WSP_b in N1; auto; discriminate. }
      assert (X : c <> CR \/ In CR w /\ breaks_line (c :: r)) by (destruct E1 as [[_ N2]|(K & _ & B)]; auto).
      assert (LR : lone r = false) by (rewrite lone_cons in L1; apply orb_false_iff in L1; tauto).
      peek_at H1. get_at H1. cbn [as_char]. rewrite app_length in L. cbn [length] in L.
      match goal with |- exists u, _ /\ fh_loop f ?s0 ?y = _ => destruct (IH s0 _ r y ltac:(eassumption) LR ltac:(lia)) as (u & U & Q) end.
      assert (UC : unfolds (c :: r) (c :: u)) by (destruct X as [X|[_ X]]; [apply ul_char|apply ul_break]; auto).
      rewrite Q. destruct w as [|d w].
      * exists (c :: u). split; [exact UC|]. cbn [app]. rewrite <- !app_assoc. reflexivity.
      * exists (SP :: c :: u). split; [apply ul_run; auto; [discriminate|apply ws_FWSs; auto]|]. rewrite <- !app_assoc. reflexivity.
Qed.

(** ** The whole function *)
Lemma ws_lone w r : ws w -> lone (w ++ r) = lone r.
Proof.
  induction 1 as [|d w W F IH|d w W F IH]; [reflexivity| |]; rewrite <- IH.
  - apply (lone_wsps [d] (w ++ r)). cbn. rewrite WSP_b by auto. reflexivity.
  - change (lone (CRLF ++ [d] ++ w ++ r) = lone (w ++ r)). rewrite lone_crlf. apply (lone_wsps [d]). cbn. rewrite WSP_b by auto. reflexivity.
Qed.
Lemma unfolds_lone t u : unfolds t u -> lone t = false.
Proof.
  induction 1 as [w F|c t u NW NC U IH|c t u B U IH|w c t u N F NW NC U IH].
  - rewrite <- (app_nil_r w), ws_lone by (apply FWSs_ws; auto). reflexivity.
  - rewrite lone_cons, ceqb_false by auto. exact IH.
  - destruct (break_lone _ B) as (c' & t' & E & _ & L). injection E as <- <-. congruence.
  - rewrite ws_lone by (apply FWSs_ws; auto). exact IH.
Qed.
Lemma unfolds_fun t u u' : unfolds t u -> unfolds t u' -> u = u'.
Proof.
  intros U U'. pose proof (fh_unfolds _ _ U (S (length t)) _ _ [] (St_open t) ltac:(lia)) as E.
  rewrite (fh_unfolds _ _ U' (S (length t)) _ _ [] (St_open t) ltac:(lia)) in E. injection E. auto.
Qed.
(** No space at the end. *)
Lemma break_last r : breaks_line r -> exists a z, r = a ++ LF :: z.
Proof. intros (u & z & -> & _). exists (u ++ [CR]), z. rewrite <- app_assoc. reflexivity. Qed.
Lemma unfolds_end t u : unfolds t u -> last_ok (fun c => c <> SP) u.
Proof.
  assert (LC : forall c (u : bytes), (u = [] -> c <> SP) -> last_ok (fun c => c <> SP) u -> last_ok (fun c => c <> SP) (c :: u)).
  { intros c [|d v] A B; [apply (A eq_refl)|]. unfold last_ok in *. change (rev (c :: d :: v)) with (rev (d :: v) ++ [c]).
    destruct (rev (d :: v)) as [|e y] eqn:E; [cbn [rev] in E; apply app_eq_nil in E as [_ E]; discriminate E|]. exact B. }
  induction 1 as [w F|c t u NW NC U IH|c t u B U IH|w c t u N F NW NC U IH].
  - exact I.
  - apply LC; auto. intros _ ->. apply NW. left. auto.
  - apply LC; auto. intros -> ->. inversion U as [w F| | |]; subst. apply break_cons in B; [|left; auto].
    destruct B as (x & z & E & X & NZ). apply FWSs_ws in F. revert x E X. induction F as [|d w W F IHF|d w W F IHF]; intros x E X.
    + destruct x; discriminate.
    + destruct x as [|y x]; cbn [app] in E; injection E as -> E; [destruct W; discriminate|]. inversion X; subst. eauto using ul_end, ws_FWSs.
    + destruct x as [|y x]; cbn [app] in E; [injection E as <-; cbn in NZ; contradiction|]. injection E as <- _. inversion X as [|? ? K _]; subst. destruct K; discriminate.
  - apply LC; auto. intros ->. inversion U as [w0 F0| | |]; subst. exfalso. apply FWSs_ws in F0. inversion F0 as [|d w1 W1 F1|d w1 W1 F1]; subst; [contradiction|].
    destruct NC as [NC|[_ (x & z & E & X & NZ)]]; [congruence|]. destruct x as [|y x]; cbn [app] in E; [injection E as <-; cbn in NZ; contradiction|].
    injection E as <- _. inversion X as [|? ? K _]; subst. destruct K; discriminate.
Qed.
(** The colon stays. *)
Lemma unfolds_colon t u : unfolds t u -> In COLON t -> In COLON u.
Proof.
  intros U K. destruct (fh_lone (S (length t)) (open_str t) _ t [] (St_open t) ltac:(lia)) as [[_ L]|(y & E & _ & I1)].
  - rewrite (unfolds_lone _ _ U) in L. discriminate.
  - rewrite (fh_unfolds _ _ U _ _ _ [] (St_open t)) in E by lia. injection E as E. cbn in E. subst u. auto.
Qed.
Lemma repeat_sp k : forallb is_sp (repeat SP k) = true.
Proof. induction k; cbn; auto. Qed.
Lemma sp_repeat l : forallb is_sp l = true -> l = repeat SP (length l).
Proof. induction l as [|c l IH]; cbn [forallb length repeat]; [auto|]. intros E. apply andb_true_iff in E as [A B]. apply is_sp_SP in A. subst c. f_equal. auto. Qed.
Lemma sp_front l : exists k r, l = repeat SP k ++ r /\ first_ok (fun c => c <> SP) r.
Proof.
  induction l as [|c l (k & r & -> & F)]; [exists 0, []; split; [reflexivity|exact I]|]. destruct (is_sp c) eqn:E.
  - apply is_sp_SP in E. subst c. exists (S k), r. auto.
  - exists 0, (c :: repeat SP k ++ r). split; [reflexivity|]. cbn. intros ->. discriminate.
Qed.
Lemma sp_back l : exists y', trimmed_name l y'.
Proof.
  destruct (sp_front (rev l)) as (k & r & E & F). assert (EL : l = rev r ++ repeat SP k).
  { rewrite <- (rev_involutive l), E, rev_app_distr. f_equal. clear. induction k; cbn [repeat rev]; [reflexivity|]. rewrite IHk.
    clear. induction k; cbn [repeat app]; [reflexivity|]. f_equal. exact IHk. }
  rewrite EL. destruct r as [|c r].
  - exists (repeat SP k). apply tn_blank.
  - exists (rev (c :: r)). apply tn_some; [|unfold last_ok; rewrite rev_involutive; exact F]. cbn [rev]. destruct (rev r); discriminate.
Qed.
(** The two erasures. *)
Lemma cut_colon y y' k z : trimmed_name y y' -> first_ok (fun c => c <> SP) z -> (z = [] -> k = 0) ->
  (let x := y ++ COLON :: repeat SP k ++ z in
   let x1 := match find_first_not is_sp (skipn (S (length y)) x) with Some j => erase_at x (S (length y)) j | None => x end in
   match find_last_not is_sp (firstn (length y) x1) with
   | Some cb => if Nat.eqb (S cb) (length y) then Ok x1 else Ok (erase_at x1 (S cb) (length y - S cb))
   | None => Ok x1
   end) = Ok (y' ++ COLON :: z).
Proof.
  intros TN FZ KZ. cbv zeta.
  assert (X1 : (match find_first_not is_sp (skipn (S (length y)) (y ++ COLON :: repeat SP k ++ z)) with
     | Some j => erase_at (y ++ COLON :: repeat SP k ++ z) (S (length y)) j | None => y ++ COLON :: repeat SP k ++ z end) = y ++ COLON :: z).
  { assert (EB : forall t, y ++ COLON :: t = (y ++ [COLON]) ++ t) by (intros; rewrite <- app_assoc; reflexivity).
    assert (LB : S (length y) = length (y ++ [COLON])) by (rewrite app_length; cbn [length]; lia).
    rewrite (EB (_ ++ z)), (EB z), LB, skipn_app_exact. destruct z as [|c z].
    - rewrite KZ by auto. reflexivity.
    - rewrite find_first_not_app; [rewrite erase_at_app; reflexivity|apply repeat_sp|].
      destruct (is_sp c) eqn:E; [apply is_sp_SP in E; cbn in FZ; congruence|auto]. }
  rewrite X1, firstn_app_exact. destruct TN as [y j NE LO|j].
  - destruct (exists_last NE) as (a & c & ->). apply last_ok_snoc in LO.
    assert (SC : is_sp c = false) by (destruct (is_sp c) eqn:E; [apply is_sp_SP in E; congruence|auto]).
    rewrite <- app_assoc. cbn [app]. rewrite find_last_not_app by (auto using repeat_sp). rewrite !app_length. cbn [length]. rewrite repeat_length.
    destruct (Nat.eqb_spec (S (length a)) (length a + S j)) as [E|E].
    + assert (j = 0) by lia. subst j. cbn [repeat app]. rewrite <- app_assoc. reflexivity.
    + replace (length a + S j - S (length a)) with (length (repeat SP j)) by (rewrite repeat_length; lia).
      replace (S (length a)) with (length (a ++ [c])) by (rewrite app_length; cbn [length]; lia).
      replace ((a ++ c :: repeat SP j) ++ COLON :: z) with ((a ++ [c]) ++ repeat SP j ++ COLON :: z) by (rewrite <- !app_assoc; reflexivity).
      rewrite erase_at_app. reflexivity.
  - replace (find_last_not is_sp (repeat SP j)) with (@None nat); [reflexivity|]. symmetry. apply find_last_not_None, repeat_sp.
Qed.
Lemma last_colon y k : last_ok (fun c : ascii => c <> SP) (y ++ COLON :: repeat SP k ++ []) -> k = 0.
Proof.
  intros L. destruct k as [|k]; [auto|exfalso]. rewrite app_nil_r in L.
  assert (E : y ++ COLON :: repeat SP (S k) = (y ++ COLON :: repeat SP k) ++ [SP]).
  { rewrite <- app_assoc. cbn [app]. do 2 f_equal. clear. induction k; cbn [repeat app]; [reflexivity|]. f_equal. exact IHk. }
  rewrite E in L. apply last_ok_snoc in L. congruence.
Qed.
Lemma filter_text t out : FilterHeader false RELAXED t = Ok out <-> relaxed_text t out.
Proof.
  assert (FWD : forall t out, relaxed_text t out -> FilterHeader false RELAXED t = Ok out).
  { clear. intros t out [n v y y' k z NC NY U FZ TN]. unfold FilterHeader, lower_str. rewrite find_char_app by auto.
    rewrite firstn_app_exact, skipn_app_exact. cbn [andb obind]. change (lower n) with (map low n). rewrite (St_fuel _ _ _ (St_open _)).
    rewrite (fh_unfolds _ _ U _ _ _ [] (St_open _)) by lia. cbn [obind app]. rewrite find_char_app by auto.
    apply cut_colon; auto. intros ->. apply last_colon with (y := y). eapply unfolds_end; eauto. }
  split; [|apply FWD]. intros E.
  assert (X : exists o2, relaxed_text t o2).
  { destruct (FilterHeader_exact t) as [[P _]|(_ & LO & IC)]; [rewrite P in E; discriminate E|].
    destruct (find_char COLON t) as [i|] eqn:FC; [|apply find_char_None in FC; contradiction]. apply find_char_Some in FC as (n & v & -> & _ & NC).
    rewrite <- lone_lower in LO.
    destruct (fh_any (S (length (lower n ++ COLON :: v))) (open_str (lower n ++ COLON :: v)) _ _ [] (St_open _) LO ltac:(lia)) as (u & U & _).
    assert (IU : In COLON u) by (eapply unfolds_colon; eauto; apply in_or_app; right; left; reflexivity).
    destruct (find_char COLON u) as [j|] eqn:FU; [|apply find_char_None in FU; contradiction]. apply find_char_Some in FU as (y & z0 & -> & _ & NY).
    destruct (sp_front z0) as (k & z & -> & FZ). destruct (sp_back y) as (y' & TN). exists (y' ++ COLON :: z). apply (rt_intro n v y y' k z); auto. }
  destruct X as (o2 & R). rewrite (FWD _ _ R) in E. injection E as <-. exact R.
Qed.
Lemma form_text mode t out : FilterHeader false mode t = Ok out <-> text_form (match mode with RELAXED => true | SIMPLE => false end) t out.
Proof. destruct mode; cbn [text_form]; [|apply filter_text]. rewrite FilterHeader_simple. split; congruence. Qed.
(** Every text with a colon and without a lone CR has one relaxed form. *)
Lemma relaxed_text_one t : (exists out, relaxed_text t out /\ forall x, relaxed_text t x -> x = out) <-> In COLON t /\ ~ has_lone_CR t.
Proof.
  destruct (header_exact t) as [H _]. rewrite <- H. split.
  - intros (out & R & _). exists out. apply filter_text. auto.
  - intros (out & E). exists out. split; [apply filter_text; auto|]. intros x R. apply filter_text in R. congruence.
Qed.
(** With tolower undefined for negative chars. *)
Lemma strict_text strict t out : FilterHeader strict RELAXED t = Ok out <->
  relaxed_text t out /\ (strict = true -> forall n v, t = n ++ COLON :: v -> ~ In COLON n -> Forall (fun c => (code c < 128)%N) n).
Proof.
  rewrite <- filter_text. destruct strict; [|split; [intros H; split; auto; discriminate|intros [H _]; auto]].
  unfold FilterHeader, lower_str. cbn [andb]. destruct (find_char COLON t) as [k|] eqn:FC; [|split; [discriminate|intros [H _]; discriminate H]].
  apply find_char_Some in FC as (pre & post & -> & <- & NC). cbn [obind]. rewrite firstn_app_exact.
  destruct (existsb is_8bit pre) eqn:X.
  - split; [discriminate|]. intros [_ H]. specialize (H eq_refl pre post eq_refl NC). apply existsb_exists in X as (c & I & Y).
    rewrite Forall_forall in H. apply H in I. unfold is_8bit in Y. apply N.leb_le in Y. lia.
  - split; [|intros [H _]; exact H]. intros H. split; [exact H|]. intros _ n v E NN.
    assert (n = pre) as ->.
    { clear - E NC NN. revert n E NN. induction pre as [|a pre IH]; intros [|b n] E NN; cbn in E; try reflexivity.
      - injection E as <- _. destruct NN. left. reflexivity.
      - injection E as -> _. destruct NC. left. reflexivity.
      - injection E as -> E. f_equal. apply IH; auto. intros K; apply NC; right; auto. intros K; apply NN; right; auto. }
    apply Forall_forall. intros c I. destruct (N.ltb_spec (code c) 128); auto. exfalso.
    assert (existsb is_8bit pre = true) by (apply existsb_exists; exists c; split; auto; unfold is_8bit; apply N.leb_le; auto). congruence.
Qed.
