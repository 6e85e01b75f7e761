(** Lists that differ in whitespace only, and where folds are in a signed field: proofs. *)
From Verif Require Import Bytes Outcome Tokenizer TagList MailParser Canonicalization BytesFacts SpecText SpecTags SpecMail SpecCanon SpecVerify
  SpecSig QPFacts ListFacts MailFacts TagListFacts TagPosition HeaderFacts HeaderProps AddressClean FieldForm.

(** Every CR starts a fold. *)
Definition cr_folds (t : bytes) : Prop := forall a b, t = a ++ CR :: b -> exists c r, b = LF :: c :: r /\ WSP c.
Lemma cr_folds_app a b : cr_folds (a ++ b) -> cr_folds b.
Proof. intros H x y ->. apply (H (a ++ x) y). rewrite <- app_assoc. reflexivity. Qed.
Lemma unfolded_cr t u : unfolded t u -> cr_folds t.
Proof.
  assert (K : forall w, ws w -> forall t, (match t with [] => True | c :: _ => True end) -> cr_folds t -> cr_folds (w ++ t)).
  { intros w W t0 _ F. induction W as [|c w WC W IH|c w WC W IH]; auto.
    - intros a b E. destruct a as [|x a]; [injection E as -> _; destruct WC; discriminate|]. injection E as _ E. eapply IH; eauto.
    - intros a b E. destruct a as [|x [|y [|z a]]].
      + injection E as <-. exists c, (w ++ t0). auto.
      + injection E as _ X _. discriminate.
      + injection E as _ _ X _. destruct WC; subst; discriminate.
      + injection E as _ _ _ E. eapply IH; eauto. }
  induction 1 as [w W|c t u NW NC U IH|w c t u N W NW NC U IH].
  - rewrite <- (app_nil_r w). apply K; auto; [apply FWSs_ws; auto|]. intros [|? ?] b E; discriminate.
  - intros [|x a] b E; [injection E as -> _; congruence|]. injection E as _ E. eapply IH; eauto.
  - apply K; auto. apply FWSs_ws; auto.
Qed.
Lemma ws_of w r : Forall LWSP w -> cr_folds (w ++ r) -> cr_before (w ++ r) -> first_ok (fun c => is_lwsp c = false) r -> ws w.
Proof.
  intros W CF CB FO. remember (length w) as n eqn:EN. revert w W CF CB EN. induction n as [n IH] using lt_wf_ind. intros w W CF CB EN.
  destruct W as [|c w LC W]; [constructor|]. cbn [app] in *. destruct LC as [->|[->|[->| ->]]].
  - apply ws_wsp; [left; auto|]. apply (IH (length w)); auto; [cbn [length] in EN; lia|exact (cr_folds_app [SP] _ CF)|].
    apply cr_before_tail in CB; [tauto|discriminate].
  - apply ws_wsp; [right; auto|]. apply (IH (length w)); auto; [cbn [length] in EN; lia|exact (cr_folds_app [HT] _ CF)|].
    apply cr_before_tail in CB; [tauto|discriminate].
  - destruct (CF [] (w ++ r) eq_refl) as (c & q & E & WC).
    assert (LL : forall x, LWSP x -> is_lwsp x = true) by (intros x; apply LWSP_is).
    destruct w as [|x [|y w]].
    + cbn in E. subst r. cbn in FO. discriminate.
    + injection E as -> E. subst r. cbn in FO. rewrite LL in FO; [discriminate|]. destruct WC as [->| ->]; [left|right; left]; auto.
    + injection E as -> -> E. apply ws_fold; auto. cbn [length] in EN. apply (IH (length w)); auto; [lia|inversion W as [|? ? _ W2]; inversion W2; auto|..].
      * exact (cr_folds_app [CR; LF; c] _ CF).
      * apply (cr_before_app [CR; LF] c); auto. destruct WC as [->| ->]; discriminate.
  - exfalso. destruct (CB [] (w ++ r) eq_refl) as (a' & E). destruct a'; discriminate.
Qed.
Lemma nrm_prefix u : forall b b' n r, n <> [] -> Forall (fun c => is_lwsp c = false) n -> nrm b u = sp_if b' ++ n ++ r ->
  exists w u', u = w ++ n ++ u' /\ Forall LWSP w /\ nrm false u' = r.
Proof.
  assert (W : forall n u r, Forall (fun c => is_lwsp c = false) n -> n <> [] -> first_ok (fun c => is_lwsp c = false) u -> nrm false u = n ++ r ->
    exists u', u = n ++ u' /\ nrm false u' = r).
  { clear u. induction n as [|c n IH]; intros u r F NE FU E; [congruence|]. inversion F as [|? ? LC F']; subst. destruct u as [|x u]; [discriminate|].
    cbn in FU. rewrite nrm_first in E by auto. cbn [app] in E. injection E as -> E. destruct n as [|d n]; [exists u; auto|].
    assert (FD : first_ok (fun c => is_lwsp c = false) u).
    { destruct u as [|y u]; [exact I|]. cbn. destruct (is_lwsp y) eqn:LY; auto. exfalso. destruct (strip_split u) as (w & W & EU).
      cbn [nrm] in E. rewrite LY in E. destruct (strip u) as [|z q] eqn:S.
      - rewrite EU, nrm_ws in E by auto. discriminate.
      - pose proof (strip_starts u) as FZ. rewrite S in FZ. cbn in FZ. rewrite EU, nrm_ws in E by auto.
        replace (match w with [] => true | _ => true end) with true in E by (destruct w; auto). cbn [nrm] in E. rewrite FZ in E. injection E as E _.
        inversion F' as [|? ? LD _]; subst. discriminate. }
    destruct (IH u r F' ltac:(discriminate) FD E) as (u' & -> & E'). exists u'. auto. }
  intros b b' n r NE F E. destruct (strip_split u) as (w & WL & EU). pose proof (strip_starts u) as FS.
  assert (E2 : nrm false (strip u) = n ++ r).
  { rewrite EU, nrm_ws in E by auto. destruct (strip u) as [|c q] eqn:S.
    - exfalso. destruct b', n; try discriminate; congruence.
    - cbn in FS. rewrite nrm_first by auto. cbn [nrm] in E. rewrite FS in E. inversion F as [|c0 n0 LC F']; subst; [congruence|].
      destruct (match w with [] => b | _ => true end), b'; cbn [sp_if app] in E.
      + injection E as -> E. rewrite E. reflexivity.
      + injection E as <- _. discriminate.
      + injection E as -> _. discriminate.
      + exact E. }
  destruct (W n (strip u) r F NE FS E2) as (u' & E3 & E4). exists w, u'. rewrite EU, E3. auto.
Qed.
Lemma nrm_nothing u b : nrm b u = [] -> Forall LWSP u.
Proof.
  revert b. induction u as [|c u IH]; intros b E; [constructor|]. cbn [nrm] in E. destruct (is_lwsp c) eqn:L; [|destruct b; discriminate].
  constructor; [apply LWSP_is; auto|eauto].
Qed.

Definition word (n : bytes) : Prop := n <> [] /\ Forall (fun c => is_lwsp c = false /\ c <> COLON) n.
Lemma word_item n : word n -> list_item n.
Proof.
  intros [NE F]. rewrite Forall_forall in F. assert (NW : forall c, In c n -> ~ WSP c).
  { intros c I W. apply F in I as [L _]. assert (Y : LWSP c) by (destruct W; [left|right; left]; auto). apply LWSP_is in Y. congruence. }
  split; auto. split; [|split].
  - intros I. apply F in I. tauto.
  - intros I. apply F in I as [L _]. discriminate.
  - split.
    + destruct n; [exact I|]. cbn. apply NW. left. auto.
    + unfold last_ok. destruct (rev n) as [|c q] eqn:R; [exact I|]. cbn. apply NW. apply in_rev. rewrite R. left. auto.
Qed.
Lemma word_plain n : word n -> Forall (fun c => is_lwsp c = false) n.
Proof. intros [_ F]. revert F. apply Forall_impl. tauto. Qed.
Lemma item_step n u b b' r : word n -> cr_folds u -> cr_before u -> nrm b u = sp_if b' ++ n ++ r ->
  exists w u', u = w ++ n ++ u' /\ FWSs w /\ cr_folds u' /\ cr_before u' /\ nrm false u' = r.
Proof.
  intros W CF CB E. pose proof (word_plain n W) as P. destruct W as [NE F]. destruct (nrm_prefix u b b' n r NE P E) as (w & u' & -> & WL & EU).
  exists w, u'. split; auto. split.
  - apply ws_FWSs. apply (ws_of w (n ++ u')); auto. destruct n as [|c n]; [congruence|]. inversion P; auto.
  - split; [|split; auto].
    + apply cr_folds_app in CF. apply cr_folds_app in CF. exact CF.
    + destruct (exists_last NE) as (k & z & ->). apply (cr_before_app (w ++ k) z).
      * rewrite <- !app_assoc in *. exact CB.
      * intros ->. apply Forall_app in P as [_ P]. inversion P. discriminate.
Qed.
Lemma colon_step u b b' r : cr_folds u -> cr_before u -> nrm b u = sp_if b' ++ COLON :: r ->
  exists w u', u = w ++ COLON :: u' /\ FWSs w /\ cr_folds u' /\ cr_before u' /\ nrm false u' = r.
Proof.
  intros CF CB E. assert (P : Forall (fun c => is_lwsp c = false) [COLON]) by (repeat constructor).
  destruct (nrm_prefix u b b' [COLON] r ltac:(discriminate) P E) as (w & u' & -> & WL & EU).
  exists w, u'. split; auto. split; [|split; [|split; auto]].
  - apply ws_FWSs. apply (ws_of w (COLON :: u')); auto. reflexivity.
  - apply cr_folds_app in CF. exact (cr_folds_app [COLON] _ CF).
  - apply (cr_before_app w COLON); auto. discriminate.
Qed.
Lemma rendered_again names hv : rendered_list names hv -> Forall word names -> forall u b b', cr_folds u -> cr_before u -> nrm b u = nrm b' hv ->
  rendered_list names u.
Proof.
  intros R. induction R as [w W|w1 v w2 W1 LI W2|w1 v w2 vs t W1 LI W2 NV R IH]; intros FW u b b' CF CB E.
  - rewrite <- (app_nil_r w), nrm_ws in E by (apply FWSs_LWSP; auto). cbn [nrm] in E. apply nrm_nothing in E. constructor. apply ws_FWSs.
    apply (ws_of u []); rewrite ?app_nil_r; auto. exact I.
  - inversion FW as [|? ? WV _]; subst. rewrite nrm_ws in E by (apply FWSs_LWSP; auto). rewrite nrm_word in E by (apply WV || apply word_plain; auto).
    destruct (item_step v u b _ _ WV CF CB E) as (w & u' & -> & FWw & CF' & CB' & E').
    rewrite <- (app_nil_r w2), nrm_ws in E' by (apply FWSs_LWSP; auto). cbn [nrm] in E'. apply nrm_nothing in E'.
    apply rl_last; auto. apply ws_FWSs. apply (ws_of u' []); rewrite ?app_nil_r; auto. exact I.
  - inversion FW as [|? ? WV FW']; subst. rewrite nrm_ws in E by (apply FWSs_LWSP; auto). rewrite nrm_word in E by (apply WV || apply word_plain; auto).
    destruct (item_step v u b _ _ WV CF CB E) as (w & u' & -> & FWw & CF' & CB' & E').
    rewrite nrm_ws in E' by (apply FWSs_LWSP; auto). cbn [nrm] in E'. change (is_lwsp COLON) with false in E'. cbv iota in E'.
    destruct (colon_step u' false _ _ CF' CB' E') as (w3 & u2 & -> & FW3 & CF2 & CB2 & E2).
    apply rl_more; auto. eapply IH; eauto.
Qed.

(** A tag value within the text of the field. *)
Lemma tag_within l t n v : rendered_tags l t -> In (n, v) l -> exists p q, t = p ++ EQUALS :: q /\ exists w r, q = w ++ v ++ r /\ Forall LWSP w.
Proof.
  induction 1 as [w W|w1 m w2 w3 u w4 W1 N W2 W3 V W4|w1 m w2 w3 u w4 l t W1 N W2 W3 V W4 R IH]; intros I.
  - destruct I.
  - destruct I as [I|[]]. pose proof (f_equal fst I) as E1. pose proof (f_equal snd I) as E2. cbn [fst snd] in E1, E2. subst.
    exists (w1 ++ n ++ w2), (w3 ++ v ++ w4). rewrite <- !app_assoc. split; auto. exists w3, w4. auto.
  - destruct I as [I|I].
    + pose proof (f_equal fst I) as E1. pose proof (f_equal snd I) as E2. cbn [fst snd] in E1, E2. subst.
      exists (w1 ++ n ++ w2), (w3 ++ v ++ w4 ++ SEMI :: t). rewrite <- !app_assoc. split; auto. exists w3, (w4 ++ SEMI :: t). auto.
    + destruct (IH I) as (p & q & -> & w & r & -> & W). exists (w1 ++ m ++ w2 ++ EQUALS :: w3 ++ u ++ w4 ++ SEMI :: p), (w ++ v ++ r).
      rewrite <- ?app_assoc. cbn [app]. rewrite <- ?app_assoc. cbn [app]. rewrite <- ?app_assoc. split; auto. exists w, r. auto.
Qed.
Lemma value_folds l t n v : rendered_tags l t -> In (n, v) l -> tag_value v -> cr_folds t -> cr_before t -> cr_folds v /\ cr_before v.
Proof.
  intros R I TV CF CB. destruct (tag_within _ _ _ _ R I) as (p & q & -> & w & r & -> & W).
  apply cr_folds_app in CF. apply (cr_folds_app [EQUALS]), cr_folds_app in CF. apply cr_before_app in CB; [|discriminate].
  destruct (value_ends v TV) as [FV LV]. split.
  - intros a b ->. destruct (CF a (b ++ r)) as (c & z & E & WC); [rewrite <- app_assoc; reflexivity|].
    destruct b as [|x [|y b]].
    + exfalso. unfold last_ok in LV. rewrite rev_app_distr in LV. cbn in LV. discriminate.
    + exfalso. injection E as -> _. unfold last_ok in LV. rewrite rev_app_distr in LV. cbn in LV. discriminate.
    + injection E as -> -> _. eauto.
  - intros a b ->. destruct (CB (w ++ a) (b ++ r)) as (a' & E); [rewrite <- !app_assoc; reflexivity|].
    destruct a as [|z a] using rev_ind.
    + exfalso. cbn in FV. discriminate.
    + rewrite app_assoc in E. apply app_inj_tail in E as [_ ->]. eauto.
Qed.
