(** C93: what is said of quoted-printable texts. *)
From Verif Require Import Bytes Outcome Stream Tokenizer QuotedPrintable ErrorText SpecText SpecTags SpecSig SpecError
  BytesFacts StreamFacts TokenizerFacts QPFacts ListFacts ListWide HeaderFacts ErrorFacts ShownFacts ErrorList.

Lemma fold_parts r w c : l_fws (c :: r) = Some ([], w) -> is_wsp c = true \/ c = CR -> exists u z, c :: r = u ++ CRLF ++ z /\ Forall WSP u /\ no_wsp z /\ w = c :: r.
Proof.
  intros E F. unfold l_fws in E. destruct (span is_wsp (c :: r)) as [u r1] eqn:E1.
  pose proof (span_app _ _ _ _ E1) as A1. pose proof (span_all _ _ _ _ E1) as W1. apply forallb_WSP in W1.
  destruct r1 as [|k r2].
  { injection E as -> <-. discriminate A1. }
  destruct (k =?c CR) eqn:K.
  - apply ceqb_eq in K. subst k. destruct r2 as [|d r3]; [discriminate|]. destruct (d =?c LF) eqn:D; [|discriminate].
    apply ceqb_eq in D. subst d. destruct (span is_wsp r3) as [w2 r4] eqn:E2. destruct w2 as [|x w2]; [|destruct u; discriminate].
    exists u, r3. split; [exact A1|]. split; [exact W1|]. split; [|congruence].
    destruct r3 as [|y r3]; [exact I|]. cbn in E2. unfold no_wsp, first_ok. intros V. apply is_wsp_WSP in V. rewrite V in E2.
    destruct (span is_wsp r3). discriminate.
  - injection E as -> <-. apply ceqb_neq in K. cbn [app] in A1. injection A1 as <- <-. destruct F as [F|F]; [|congruence].
    cbn in E1. rewrite F in E1. destruct (span is_wsp r). discriminate.
Qed.

(** Good texts do not end in the middle. *)
Lemma qe_last us q d : qe us q d -> last_ok (fun x => x <> CR /\ x <> LF) q.
Proof.
  assert (W : forall c, WSP c -> c <> CR /\ c <> LF) by (intros c [->| ->]; split; discriminate).
  assert (P : forall c, printable c -> c <> CR /\ c <> LF) by (intros c [A B]; split; intros ->; vm_compute in A; apply A; reflexivity).
  assert (K : forall (c : ascii) s, c <> CR /\ c <> LF -> last_ok (fun x => x <> CR /\ x <> LF) s -> last_ok (fun x => x <> CR /\ x <> LF) (c :: s)).
  { intros c s C L. destruct s as [|x s]; [exact C|]. apply (last_ok_app _ [c]); [discriminate|exact L]. }
  assert (H2 : forall h v, hex_digit h v -> h <> CR /\ h <> LF).
  { intros h v H. inversion H as [c [A B]|c [A B]]; subst; split; intros ->; vm_compute in A; apply A; reflexivity. }
  induction 1 as [|s d U Q IH|c s d C1 C2 C3 C4 Q IH|h1 h2 a b s d D1 D2 Q IH|c s d C Q IH|c s d C Q IH]; [exact I|..].
  - apply K; [split; discriminate|exact IH].
  - apply K; auto.
  - apply (last_ok_app _ [EQUALS; h1]); [discriminate|]. apply K; [eapply H2; eauto|exact IH].
  - apply K; auto.
  - apply (last_ok_app _ CRLF); [discriminate|]. apply K; auto.
Qed.
Lemma snoc_cons {A} (x : list A) e c s : x ++ [e] = c :: s -> (x = [] /\ e = c /\ s = []) \/ exists x', x = c :: x' /\ x' ++ [e] = s.
Proof. destruct x as [|y x]; cbn; intros E; injection E as -> E; [left; auto|right; eauto]. Qed.
Lemma snoc2_cons {A} (x : list A) e f c s : x ++ [e; f] = c :: s -> (x = [] /\ e = c /\ s = [f]) \/ exists x', x = c :: x' /\ x' ++ [e; f] = s.
Proof. destruct x as [|y x]; cbn; intros E; injection E as -> E; [left; auto|right; eauto]. Qed.
Lemma hex_not_equals h v : hex_digit h v -> h <> EQUALS.
Proof. intros H ->. apply hex_digit_uhex in H as [H _]. discriminate H. Qed.
Lemma in_hex_cons c s : c <> EQUALS -> in_hex (c :: s) -> in_hex s.
Proof.
  intros N [x [E|(h & v & H & E)]]; symmetry in E.
  - apply snoc_cons in E as [(_ & E & _)|(x' & _ & <-)]; [congruence|]. exists x'. auto.
  - apply snoc2_cons in E as [(_ & E & _)|(x' & _ & <-)]; [congruence|]. exists x'. right. eauto.
Qed.
Lemma qe_no_hex us q d : qe us q d -> ~ in_hex q.
Proof.
  induction 1 as [|s d U Q IH|c s d C1 C2 C3 C4 Q IH|h1 h2 a b s d D1 D2 Q IH|c s d C Q IH|c s d C Q IH].
  - intros [x [E|(h & v & _ & E)]]; destruct x; discriminate E.
  - intros K. apply IH. revert K. apply in_hex_cons. discriminate.
  - intros K. apply IH. revert K. apply in_hex_cons. exact C3.
  - intros [x [E|(h & v & H & E)]]; symmetry in E.
    + apply snoc_cons in E as [(_ & _ & E)|(x' & _ & E)]; [discriminate|]. apply IH. apply (in_hex_cons h2); [eapply hex_not_equals; eauto|].
      apply (in_hex_cons h1); [eapply hex_not_equals; eauto|]. exists x'. auto.
    + apply snoc2_cons in E as [(_ & _ & E)|(x' & _ & E)]; [discriminate|]. apply IH. apply (in_hex_cons h2); [eapply hex_not_equals; eauto|].
      apply (in_hex_cons h1); [eapply hex_not_equals; eauto|]. exists x'. right. eauto.
  - intros K. apply IH. revert K. apply in_hex_cons. destruct C as [->| ->]; discriminate.
  - intros K. apply IH. apply (in_hex_cons c); [destruct C as [->| ->]; discriminate|]. apply (in_hex_cons LF); [discriminate|]. apply (in_hex_cons CR); [discriminate|]. exact K.
Qed.

(** What is in front of the reader: no blank, or all of them and no line end, or a fold. *)
Definition calm_at (q r : bytes) : Prop :=
  last_ok (fun x => ~ WSP x) q \/ (no_wsp r /\ (first_ok (fun x => x <> CR) r \/ exists q0 b, q = q0 ++ CRLF ++ b /\ Forall WSP b)).
Lemma calm_byte q a x r : ~ WSP x -> calm_at (q ++ a ++ [x]) r.
Proof. intros N. left. rewrite app_assoc. apply last_ok_snoc. exact N. Qed.

Lemma qp_says_spec us f : forall s p r out q d0, St s p r -> length r < f -> qe us q d0 -> p = rev q -> calm_at q r ->
  match qp_loop_says f us s out with Fine _ => True | Says m => qp_say us (q ++ r) m | Endless => False end.
Proof.
  induction f as [|f IH]; intros s p r out q d0 H L Q EP CA; [lia|]. cbn [qp_loop_says].
  assert (LP : length p = length q) by (subst p; apply rev_length).
  (* going on behind [a] *)
  assert (NEXT : forall a d r' s' out', St s' (rev a ++ p) r' -> qe us a d -> r = a ++ r' -> length r' < f -> calm_at (q ++ a) r' ->
    match qp_loop_says f us s' out' with Fine _ => True | Says m => qp_say us (q ++ r) m | Endless => False end).
  { intros a d r' s' out' H' A E L' CA'. rewrite E, app_assoc. apply (IH _ _ _ _ _ (d0 ++ d) H' L' (qe_app us q d0 Q _ _ A)); [|exact CA'].
    rewrite rev_app_distr, EP. reflexivity. }
  destruct r as [|c r]; peek_at H; [exact I|]. cbn [length] in L.
  destruct (us && (c =?c USCORE)) eqn:U.
  { apply andb_true_iff in U as [U1 U2]. apply ceqb_eq in U2. subst c. get_at H.
    apply (NEXT [USCORE] [SP] r); auto; [|lia|apply (calm_byte q []); intros [X|X]; discriminate]. apply qe_under; [exact U1|constructor]. }
  destruct (c =?c EQUALS) eqn:EQ.
  { apply ceqb_eq in EQ. subst c. get_at H. destruct r as [|h1 r].
    { peek_at H0. unfold expecting_hex. rewrite (byte_place_end _ _ _ _ H1 G). apply qs_end; [|exists q; auto|reflexivity].
      apply (unfinished_iff us q d0 [EQUALS] Q (hex_go_on us)). intros d D. destruct (qe_equals _ _ _ D) as (? & ? & ? & ? & ? & X & _). discriminate X. }
    peek_at H0. destruct (is_uhex h1) eqn:X1.
    2:{ apply (qs_hex us _ _ (q ++ [EQUALS]) h1 r); [rewrite <- app_assoc; reflexivity| |exists q; auto|].
        - apply (breaks_iff us q d0 [EQUALS] h1 Q (hex_go_on us)). intros [y [d D]]. cbn [app] in D.
          destruct (qe_equals _ _ _ D) as (? & ? & ? & ? & ? & X & Y & _). injection X as <- ->. exact (not_uhex _ _ X1 Y).
        - replace (length (q ++ [EQUALS])) with (length (EQUALS :: p)) by (rewrite app_length; cbn [length]; lia).
          apply (byte_place_at _ _ _ _ _ _ H0). }
    apply is_uhex_spec in X1. get_at H0. destruct r as [|h2 r].
    { peek_at H1. unfold expecting_hex. rewrite (byte_place_end _ _ _ _ H2 G). apply qs_end; [|exists q; right; eauto|reflexivity].
      apply (unfinished_iff us q d0 [EQUALS; h1] Q (hex_go_on2 us _ _ X1)). intros d D. destruct (qe_equals _ _ _ D) as (? & ? & ? & ? & ? & X & _). discriminate X. }
    peek_at H1. destruct (is_uhex h2) eqn:X2.
    2:{ apply (qs_hex us _ _ (q ++ [EQUALS; h1]) h2 r); [rewrite <- app_assoc; reflexivity| |exists q; right; eauto|].
        - apply (breaks_iff us q d0 [EQUALS; h1] h2 Q (hex_go_on2 us _ _ X1)). intros [y [d D]]. cbn [app] in D.
          destruct (qe_equals _ _ _ D) as (? & ? & ? & ? & ? & X & _ & Y). injection X as <- <- ->. exact (not_uhex _ _ X2 Y).
        - replace (length (q ++ [EQUALS; h1])) with (length (h1 :: EQUALS :: p)) by (rewrite app_length; cbn [length]; lia).
          apply (byte_place_at _ _ _ _ _ _ H1). }
    apply is_uhex_spec in X2. get_at H1. cbn [length] in L.
    apply (NEXT [EQUALS; h1; h2] [chr (16 * uhex_val h1 + uhex_val h2)] r); auto; [|lia|].
    - apply qe_hex; auto. constructor.
    - apply (calm_byte q [EQUALS; h1]). intros W. inversion X2 as [c [A B]|c [A B]]; subst; destruct W as [->| ->]; vm_compute in A; apply A; reflexivity. }
  apply ceqb_neq in EQ. destruct (qp_safe c) eqn:QS.
  { apply qp_safe_spec in QS. destruct QS as (P1 & P2 & P3).
    assert (PU : us = true -> c <> chr 95) by (intros -> ->; discriminate).
    get_at H. apply (NEXT [c] [c] r); auto; [|lia|apply (calm_byte q []); intros W; eapply WSP_not_print; eauto]. apply qe_char; auto. constructor. }
  assert (NP : ~ (printable c /\ c <> SEMI /\ c <> EQUALS)) by (rewrite <- qp_safe_spec; congruence).
  destruct (l_fws (c :: r)) as [[w r']|] eqn:LF1.
  - destruct (fws_Fine _ _ _ _ _ H LF1) as (s2 & RF & H2). rewrite RF. cbn [sbind]. destruct w as [|x w].
    + cbn [rev app] in H2. destruct (is_wsp c || (c =?c CR)) eqn:WC.
      * assert (WC' : is_wsp c = true \/ c = CR) by (apply orb_true_iff in WC; rewrite ceqb_eq in WC; exact WC).
        destruct (fold_parts _ _ _ LF1 WC') as (u & z & EA & Wu & NZ & ->).
        assert (HD : exists t, u ++ CRLF = c :: t).
        { destruct u as [|x u]; cbn in EA |- *; injection EA as -> E; eexists; reflexivity. }
        apply (qs_fold us _ _ q u z c); [rewrite EA; reflexivity|exact Wu|exact NZ|apply qp_ok_qe; eauto| | |exact HD|].
        -- destruct CA as [CA|[NW CA]]; [left; exact CA|right]. destruct u as [|x u].
           ++ split; [reflexivity|]. destruct CA as [CA|CA]; [|exact CA]. rewrite EA in CA. destruct (CA eq_refl).
           ++ exfalso. rewrite EA in NW. inversion Wu; subst. exact (NW ltac:(assumption)).
        -- destruct z as [|y z].
           ++ rewrite EA, app_nil_r. apply (unfinished_iff us q d0 (u ++ CRLF) Q (wsps_crlf_go_on us _ Wu)).
              apply wsps_cr_no; [exact Wu|]. intros ? ? E. discriminate E.
           ++ apply (breaks_iff us q d0 (u ++ CRLF) y Q (wsps_crlf_go_on us _ Wu)). intros [e [d D]].
              rewrite <- !app_assoc in D. cbn [app] in D. revert D. apply wsps_cr_no; [exact Wu|]. intros ? ? E. injection E as <- <-. exact NZ.
        -- rewrite <- LP. apply (byte_place_at _ _ _ _ _ _ H2).
      * apply orb_false_iff in WC as [W1 W2]. apply ceqb_neq in W2. rewrite (l_fws_none c r W1 W2) in LF1. injection LF1 as <-.
        apply (qs_unsafe us _ _ q c r); [reflexivity| |eapply qe_no_hex; eauto|eapply qe_last; eauto|rewrite <- LP; apply (byte_place_at _ _ _ _ _ _ H2)].
        replace q with (q ++ []) by apply app_nil_r. apply (breaks_iff us q d0 [] c Q).
        { exists []. exists []. constructor. }
        intros [y [d D]]. cbn [app] in D. inversion D; subst; try congruence; auto.
        -- vm_compute in U. discriminate.
        -- match goal with X : WSP c |- _ => apply is_wsp_WSP in X; congruence end.
    + pose proof (l_fws_app _ _ _ LF1) as EA. pose proof (l_fws_FWS _ _ _ LF1 ltac:(discriminate)) as FW.
      pose proof (l_fws_length _ _ _ LF1) as EL. cbn [length] in EL.
      pose proof (l_fws_cases (c :: r)) as LC. rewrite LF1 in LC. destruct LC as (_ & NW & LC).
      apply (NEXT (x :: w) [] r'); auto; [|lia|].
      * rewrite <- (app_nil_r (x :: w)). apply qe_FWS; [exact FW|constructor].
      * right. split; [exact NW|]. destruct LC as [[_ ST]|(u & e & b & -> & _ & We & Wb)].
        -- left. destruct r' as [|y r']; [exact I|]. apply ST.
        -- right. exists (q ++ u), (e :: b). split; [rewrite <- !app_assoc; reflexivity|constructor; auto].
  - destruct (fws_Says _ _ _ H LF1) as (m & w & -> & Ww & K). cbn [sbind]. apply qs_cr.
    destruct K as [(E & ->)|(e & u & E & NL & B)]; rewrite E.
    + apply (cs_end _ _ _ (q ++ w)); [rewrite <- app_assoc; reflexivity| |reflexivity].
      apply (unfinished_iff us q d0 (w ++ [CR]) Q (wsps_cr_go_on us _ Ww)). apply wsps_cr_no; [exact Ww|]. intros ? ? X. discriminate X.
    + apply (cs_byte _ _ _ (q ++ w) e u); [rewrite <- app_assoc; reflexivity|exact NL| |].
      * rewrite <- app_assoc. apply (breaks_iff us q d0 (w ++ [CR]) e Q (wsps_cr_go_on us _ Ww)). intros [y [d D]].
        rewrite <- !app_assoc in D. cbn [app] in D. revert D. apply wsps_cr_no; [exact Ww|]. intros ? ? X. injection X as -> _. congruence.
      * rewrite app_length, <- LP. replace (S (length p + length w)) with (length p + length w + 1) by lia. exact B.
Qed.
Lemma qp_says us t m : qp_decode_says t us = Says m -> qp_say us t m.
Proof.
  intros E. unfold qp_decode_says in E. rewrite (St_fuel _ _ _ (St_open t)) in E.
  pose proof (qp_says_spec us (S (length t)) _ _ _ [] [] [] (St_open t) ltac:(lia) (qe_end us) eq_refl (or_introl I)) as R. rewrite E in R. exact R.
Qed.

(** ** One thing is said *)
Lemma hex_end p h v x : in_hex p -> p = x ++ [h] -> h = EQUALS \/ hex_digit h v \/ exists v, hex_digit h v.
Proof.
  intros [y [E|(h' & v' & H & E)]] E'; rewrite E' in E.
  - apply app_inj_tail in E as [_ ->]. auto.
  - change [EQUALS; h'] with ([EQUALS] ++ [h']) in E. rewrite app_assoc in E. apply app_inj_tail in E as [_ ->]. eauto.
Qed.
Lemma hex_last p : in_hex p -> last_ok (fun x => x <> CR /\ x <> LF) p.
Proof.
  intros [y [E|(h & v & H & E)]]; subst p; [apply last_ok_snoc; split; discriminate|]. change [EQUALS; h] with ([EQUALS] ++ [h]). rewrite app_assoc.
  apply last_ok_snoc. inversion H as [c [A B]|c [A B]]; subst; split; intros ->; vm_compute in A; apply A; reflexivity.
Qed.
Lemma fold_parts_fun us p w p' w' : Forall WSP w -> Forall WSP w' -> qp_ok us p -> qp_ok us p' ->
  last_ok (fun x => ~ WSP x) p \/ (w = [] /\ exists p0 b, p = p0 ++ CRLF ++ b /\ Forall WSP b) ->
  last_ok (fun x => ~ WSP x) p' \/ (w' = [] /\ exists p0 b, p' = p0 ++ CRLF ++ b /\ Forall WSP b) ->
  p ++ w = p' ++ w' -> p = p'.
Proof.
  assert (MAX : forall p w p' w', Forall WSP w -> Forall WSP w' -> last_ok (fun x => ~ WSP x) p -> last_ok (fun x => ~ WSP x) p' -> p ++ w = p' ++ w' -> p = p').
  { clear. intros p w p' w' W W' L L' E. assert (K : forall (p p' w w' k : bytes), p = p' ++ k -> w' = k ++ w -> Forall WSP w' -> last_ok (fun x => ~ WSP x) p -> p = p').
    { clear. intros p p' w w' k -> -> W' L. destruct k as [|x k]; [apply app_nil_r|exfalso]. assert (NE : x :: k <> []) by discriminate. destruct (exists_last NE) as (k' & z & EK).
      rewrite EK in *. rewrite app_assoc in L. apply last_ok_snoc in L. apply L. apply Forall_app in W' as [W' _]. apply Forall_app in W' as [_ W']. inversion W'; auto. }
    apply app_eq_app in E as (k & [[E1 E2]|[E1 E2]]); [eapply (K p p' w w'); eauto|symmetry; eapply (K p' p w' w); eauto]. }
  assert (MIX : forall p p' w', Forall WSP w' -> (exists p0 b, p = p0 ++ CRLF ++ b /\ Forall WSP b) -> qp_ok us p -> qp_ok us p' -> last_ok (fun x => ~ WSP x) p' -> p = p' ++ w' -> p = p').
  { intros p1 p2 w2 W2 (p0 & b & E & B) O1 O2 L2 E2. destruct w2 as [|x w2]; [rewrite E2; apply app_nil_r|exfalso].
    rewrite E2 in E. rewrite app_assoc in E.
    assert (X : p2 = p0 ++ CRLF). { apply (MAX p2 (x :: w2) (p0 ++ CRLF) b); auto. change CRLF with ([CR] ++ [LF]). rewrite app_assoc. apply last_ok_snoc. intros [K|K]; discriminate. }
    rewrite X in O2. apply qp_ok_qe in O2 as [d D]. apply qe_last in D. change CRLF with ([CR] ++ [LF]) in D. rewrite app_assoc in D. apply last_ok_snoc in D. destruct D. congruence. }
  intros W W' O O' [L|[-> F]] [L'|[-> F']] E; rewrite ?app_nil_r in E.
  - eapply (MAX p w p' w'); eauto.
  - symmetry. eapply (MIX p' p w); eauto.
  - eapply (MIX p p' w'); eauto.
  - exact E.
Qed.
(** What is said, by the text in front of the place. *)
Definition before_end (us : bool) (p : bytes) (m : bytes) : Prop :=
  exists x w c r, p = x ++ w ++ CRLF /\ Forall WSP w /\ qp_ok us x /\
    (last_ok (fun x => ~ WSP x) x \/ (w = [] /\ exists p0 b, x = p0 ++ CRLF ++ b /\ Forall WSP b)) /\ w ++ CRLF = c :: r /\
    byte_at "Quoted-printable decoding failed; unsafe character 0x" " at position " m c (length x).
Inductive kind (us : bool) (p : bytes) (c : ascii) (m : bytes) : Prop :=
| k_hex : in_hex p -> byte_at "Quoted-printable decoding failed; unexpected 0x" ", expecting HEX at position " m c (length p) -> kind us p c m
| k_unsafe : ~ in_hex p -> last_ok (fun x => x <> CR /\ x <> LF) p ->
    byte_at "Quoted-printable decoding failed; unsafe character 0x" " at position " m c (length p) -> kind us p c m
| k_cr x : p = x ++ [CR] -> byte_at "CR without matching LF, 0x" " at position " m c (S (length x)) -> kind us p c m
| k_fold : before_end us p m -> kind us p c m.
Inductive kind_end (us : bool) (p : bytes) (m : bytes) : Prop :=
| e_hex : in_hex p -> m = str "Quoted-printable decoding failed; unexpected 0xff, expecting HEX at position -1" -> kind_end us p m
| e_cr x : p = x ++ [CR] -> m = str "CR without matching LF, at the END" -> kind_end us p m
| e_fold : before_end us p m -> kind_end us p m.
Lemma qp_say_kind us t m : qp_say us t m -> (exists p c u, t = p ++ c :: u /\ breaks (qp_ok us) p c /\ kind us p c m) \/ (unfinished (qp_ok us) t /\ kind_end us t m).
Proof.
  intros [p c u E B H M|p c u E B H L M|[p c u E N B M|p E U M]|p w z c E W NZ O L Z (r & HD) M|U H M].
  - left. exists p, c, u. split; [exact E|]. split; [exact B|]. apply k_hex; auto.
  - left. exists p, c, u. split; [exact E|]. split; [exact B|]. apply k_unsafe; auto.
  - left. exists (p ++ [CR]), c, u. split; [rewrite <- app_assoc; exact E|]. split; [exact B|]. eapply k_cr; eauto.
  - right. split; [exact U|]. eapply e_cr; eauto.
  - destruct z as [|d z].
    + right. split; [exact Z|]. apply e_fold. rewrite app_nil_r in E. exists p, w, c, r. auto 10.
    + left. exists (p ++ w ++ CRLF), d, z. split; [rewrite E, <- !app_assoc; reflexivity|]. split; [exact Z|]. apply k_fold. exists p, w, c, r. auto 10.
  - right. split; [exact U|]. apply e_hex; auto.
Qed.
Lemma before_fun us p m m' : before_end us p m -> before_end us p m' -> m = m'.
Proof.
  intros (x & w & c & r & -> & W & O & L & HD & M) (x' & w' & c' & r' & E & W' & O' & L' & HD' & M').
  rewrite !app_assoc in E. apply app_inv_tail in E. assert (x = x') as <- by (eapply (fold_parts_fun us x w x' w'); eauto).
  apply app_inv_head in E as <-. rewrite HD in HD'. injection HD' as <- <-. eapply byte_at_fun; eauto.
Qed.
Lemma before_lf us p m : before_end us p m -> ~ last_ok (fun x => x <> CR /\ x <> LF) p /\ forall x, p <> x ++ [CR].
Proof.
  intros (x & w & c & r & -> & _). change CRLF with ([CR] ++ [LF]). rewrite !app_assoc. split.
  - rewrite last_ok_snoc. tauto.
  - intros y E. apply app_inj_tail in E as [_ E]. discriminate.
Qed.
Lemma cr_last (x : bytes) : ~ last_ok (fun x => x <> CR /\ x <> LF) (x ++ [CR]).
Proof. rewrite last_ok_snoc. tauto. Qed.
Lemma qp_say_fun us t m m' : qp_say us t m -> qp_say us t m' -> m = m'.
Proof.
  intros A B. apply qp_say_kind in A as [(p & c & u & E & BR & K)|[U K]]; apply qp_say_kind in B as [(p' & c' & u' & E' & BR' & K')|[U' K']].
  - destruct (breaks_place _ _ _ _ _ _ _ _ E E' BR BR') as (-> & -> & _).
    destruct K as [H M|H L M|x X M|F]; destruct K' as [H' M'|H' L' M'|x' X' M'|F'];
      try contradiction; try (eapply byte_at_fun; eauto; fail);
      repeat match goal with
        | H : in_hex _ |- _ => apply hex_last in H
        | H : before_end _ _ _ |- _ => let H1 := fresh in let H2 := fresh in pose proof (before_lf _ _ _ H) as [H1 H2]; revert H end;
      intros; subst; try (exfalso; match goal with H : last_ok _ (_ ++ [CR]) |- _ => exact (cr_last _ H) end); try contradiction;
      try (exfalso; match goal with H : forall x, _ <> _ |- _ => eapply H; reflexivity end).
    + match goal with H : _ ++ [CR] = _ ++ [CR] |- _ => apply app_inj_tail in H as [-> _] end. eapply byte_at_fun; eauto.
    + eapply before_fun; eauto.
  - exfalso. apply (breaks_no _ _ _ _ _ E BR). apply U'.
  - exfalso. apply (breaks_no _ _ _ _ _ E' BR'). apply U.
  - destruct K as [H M|x X M|F]; destruct K' as [H' M'|x' X' M'|F']; try congruence;
      repeat match goal with
        | H : in_hex _ |- _ => apply hex_last in H
        | H : before_end _ _ _ |- _ => let H1 := fresh in let H2 := fresh in pose proof (before_lf _ _ _ H) as [H1 H2]; revert H end;
      intros; subst; try (exfalso; match goal with H : last_ok _ (_ ++ [CR]) |- _ => exact (cr_last _ H) end); try contradiction;
      try (exfalso; match goal with H : forall x, _ <> _ |- _ => eapply H; reflexivity end).
    eapply before_fun; eauto.
Qed.
Lemma qp_say_bad us t m : qp_say us t m -> ~ qp_ok us t.
Proof. intros A. apply qp_say_kind in A as [(p & c & u & E & BR & K)|[U K]]; [eapply breaks_bad; eauto|apply U]. Qed.
