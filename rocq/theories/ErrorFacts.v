(** C93: the texts of the exceptions; numbers, the same outcome, quoted-printable texts. *)
From Verif Require Import Bytes Outcome Stream Tokenizer QuotedPrintable TagList CStdlib ErrorText SpecText SpecTags SpecSig SpecError
  BytesFacts StreamFacts TokenizerFacts QPFacts ListFacts TagListFacts SignNumbers.

(** ** Numbers *)
Lemma fmt_lu_lead n : fmt_lu n = str "0" \/ first_ok (fun c => c <> chr 48) (fmt_lu n).
Proof.
  unfold fmt_lu. destruct (to_uint_shape n) as [->|(u & -> & N & Z)]; [left; reflexivity|right].
  destruct u; cbn [uint_bytes first_ok]; try discriminate; try congruence.
Qed.
Lemma ld_shown k : dec_shown (fmt_ld (Z.of_nat k)) k.
Proof.
  unfold fmt_ld. replace (Z.of_nat k <? 0)%Z with false by (symmetry; apply Z.ltb_ge; lia).
  split; [apply fmt_lu_digits|]. split; [rewrite fmt_lu_value; lia|apply fmt_lu_lead].
Qed.
Lemma hex_low_spec v : (v < 16)%N -> low_hex (hex_low v) v.
Proof.
  intros H. unfold low_hex.
  assert (E : v = N.of_nat (N.to_nat v)) by lia. assert (L : N.to_nat v < 16) by lia. revert E L.
  generalize (N.to_nat v). intros k -> L.
  do 16 (destruct k as [|k]; [vm_compute; intuition (try discriminate; try reflexivity)|]). lia.
Qed.
Lemma x_shown c : hex_shown (fmt_x (Some c)) c.
Proof.
  unfold hex_shown, fmt_x. cbn [as_char]. pose proof (code_bound c) as B.
  destruct (N.ltb_spec (code c) 16) as [L|L].
  - left. split; [exact L|]. eexists. split; [reflexivity|]. apply hex_low_spec; auto.
  - right. split; [lia|]. eexists _, _. split; [reflexivity|]. split; apply hex_low_spec; [|apply N.mod_lt; lia].
    apply N.div_lt_upper_bound; lia.
Qed.
Lemma byte_place_at a b s p c r : St s p (c :: r) -> byte_at a b (byte_place a s b) c (length p).
Proof.
  intros H. unfold byte_place. rewrite (peek_cons _ _ _ _ H), (tellg_cons _ _ _ _ H). cbn [fst].
  eexists _, _. split; [reflexivity|]. split; [apply x_shown|apply ld_shown].
Qed.
Lemma place_at a s p c r : St s p (c :: r) -> at_place a (place a s) (length p).
Proof.
  intros H. unfold place. rewrite (tellg_cons _ _ _ _ H). cbn [fst]. eexists. split; [reflexivity|]. apply ld_shown.
Qed.
Lemma byte_place_end a b s p : St s p [] -> good s = false -> byte_place a s b = str a ++ str "ff" ++ str b ++ str "-1".
Proof.
  intros H G. unfold byte_place, peek, tellg. rewrite G. reflexivity.
Qed.

(** ** The same outcome *)
Definition calm {A} (m : outcome A) : Prop := match m with Ok _ | Diverge => True | _ => False end.
Lemma silent_quiet A (m : outcome A) : calm m -> silent (quiet m) = m.
Proof. destruct m; cbn; tauto. Qed.
Lemma silent_bind A B (m : says A) (k : A -> says B) (k' : A -> outcome B) : (forall a, silent (k a) = k' a) ->
  silent (sbind m k) = obind (silent m) k'.
Proof. intros H. destruct m; cbn; auto. Qed.
Lemma silent_qbind A B (m : outcome A) (k : A -> says B) (k' : A -> outcome B) : calm m -> (forall a, silent (k a) = k' a) ->
  silent (sbind (quiet m) k) = obind m k'.
Proof. intros C H. destruct m; cbn in *; auto; destruct C. Qed.
Lemma read_wsps_calm f : forall s acc, calm (read_wsps f s acc).
Proof. induction f as [|f IH]; intros s acc; cbn; auto. destruct (read_wsp s) as [[|c t] s1]; cbn; auto. Qed.
Lemma skip_loose_calm f : forall s, calm (skip_loose f s).
Proof. induction f as [|f IH]; intros s; cbn; auto. destruct (read_wsp_loose s) as [[|c t] s1]; cbn; auto. Qed.
Lemma tl_name_rest_calm f : forall s n, calm (tl_name_rest f s n).
Proof.
  induction f as [|f IH]; intros s n; cbn; auto. destruct (peek s) as [[c|] s1]; cbn; auto.
  destruct (is_namechar c); cbn; auto. destruct (get s1). apply IH.
Qed.
Lemma tl_name_calm s : calm (tl_name s).
Proof.
  unfold tl_name. destruct (peek s) as [[c|] s1]; [|apply tl_name_rest_calm].
  destruct (is_alnum c); [destruct (get s1)|]; apply tl_name_rest_calm.
Qed.
Lemma crlf_same s : silent (read_crlf_says s) = read_crlf s.
Proof.
  unfold read_crlf_says, read_crlf. destruct (peek s) as [[c|] s1]; auto. destruct (c =?c CR); auto.
  destruct (get s1) as [g s2]. destruct (peek s2) as [[d|] s3]; auto. destruct (d =?c LF); auto. destruct (get s3); auto.
Qed.
Lemma fws_same s : silent (read_fws_says s) = read_fws s.
Proof.
  unfold read_fws_says, read_fws. apply silent_qbind; [apply read_wsps_calm|]. intros [w s1]. rewrite <- crlf_same. apply silent_bind. intros [[|x t] s2]; [reflexivity|].
  destruct (read_wsp s2) as [[|y t2] s3]; [reflexivity|]. apply silent_quiet, read_wsps_calm.
Qed.
Lemma skip_fws_same f : forall s, silent (skip_fws_says f s) = skip_fws f s.
Proof.
  induction f as [|f IH]; intros s; [reflexivity|]. cbn [skip_fws_says skip_fws]. rewrite <- fws_same.
  apply silent_bind. intros [[|x w] s1]; [reflexivity|apply IH].
Qed.
Lemma vl_value_same f : forall s v b, silent (vl_value_says f s v b) = vl_value f s v b.
Proof.
  induction f as [|f IH]; intros s v b; [reflexivity|]. cbn [vl_value_says vl_value]. rewrite <- fws_same.
  apply silent_bind. intros [[|x w] s1]; [|apply IH]. destruct (peek s1) as [[c|] s2]; [|reflexivity].
  destruct (c =?c COLON); [reflexivity|]. destruct (get s2). apply IH.
Qed.
Lemma vl_loop_same f : forall s l, silent (vl_loop_says f s l) = vl_loop f s l.
Proof.
  induction f as [|f IH]; intros s l; [reflexivity|]. cbn [vl_loop_says vl_loop]. rewrite <- skip_fws_same.
  apply silent_bind. intros s1. destruct (peek s1) as [[c|] s2]; [|reflexivity]. rewrite <- vl_value_same.
  apply silent_bind. intros [[|x v] s3]; [reflexivity|]. destruct (get s3) as [[g|] s4]; [apply IH|reflexivity].
Qed.
Lemma list_same t : silent (ValueList_says t) = ValueList t.
Proof. apply vl_loop_same. Qed.
Lemma qp_loop_same us f : forall s out, silent (qp_loop_says f us s out) = qp_loop f us s out.
Proof.
  induction f as [|f IH]; intros s out; [reflexivity|]. cbn [qp_loop_says qp_loop]. destruct (peek s) as [[c|] s1]; [|reflexivity].
  destruct (us && (c =?c USCORE)); [destruct (get s1); apply IH|].
  destruct (c =?c EQUALS).
  { destruct (get s1) as [g s2]. destruct (peek s2) as [[h1|] s3]; [|reflexivity]. destruct (is_uhex h1); [|reflexivity].
    destruct (get s3) as [g3 s4]. destruct (peek s4) as [[h2|] s5]; [|reflexivity]. destruct (is_uhex h2); [|reflexivity].
    destruct (get s5). apply IH. }
  destruct (qp_safe c); [destruct (get s1); apply IH|]. rewrite <- fws_same. apply silent_bind.
  intros [[|x w] s2]; [reflexivity|apply IH].
Qed.
Lemma qp_same us t : silent (qp_decode_says t us) = qp_decode t us.
Proof. apply qp_loop_same. Qed.
Lemma tl_value_same f : forall s v b, silent (tl_value_says f s v b) = tl_value f s v b.
Proof.
  induction f as [|f IH]; intros s v b; [reflexivity|]. cbn [tl_value_says tl_value]. destruct (peek s) as [[c|] s1]; [|reflexivity].
  destruct (c =?c SEMI); [reflexivity|]. destruct (is_valchar c); [destruct (get s1); apply IH|].
  destruct (read_wsp_loose s1) as [[|x w] s2]; [reflexivity|apply IH].
Qed.
Definition tags_agree (x : says taglist) (y : taglist * outcome unit) : Prop :=
  match x with Fine l => y = (l, Ok tt) | Says _ => snd y = perm | Endless => snd y = Diverge end.
Lemma quiet_cases A (m : outcome A) : calm m -> (exists a, m = Ok a) \/ m = Diverge.
Proof. destruct m; cbn; try tauto; eauto. Qed.
Lemma tl_loop_same f : forall s l, tags_agree (tl_loop_says f s l) (tl_loop f s l).
Proof.
  induction f as [|f IH]; intros s l; [reflexivity|]. cbn [tl_loop_says tl_loop].
  destruct (quiet_cases _ _ (skip_loose_calm (fuel_of s) s)) as [(s1 & ->)| ->]; [|reflexivity]. cbn [quiet sbind].
  destruct (peek s1) as [[c|] s2]; [|reflexivity].
  destruct (quiet_cases _ _ (tl_name_calm s2)) as [([n s3] & ->)| ->]; [|reflexivity]. cbn [quiet sbind obind].
  destruct n as [|n0 n]; [reflexivity|]. destruct (GetTag (n0 :: n) l); [reflexivity|].
  destruct (quiet_cases _ _ (skip_loose_calm (fuel_of s3) s3)) as [(s4 & ->)| ->]; [|reflexivity]. cbn [quiet sbind obind].
  destruct (peek s4) as [[e|] s5]; [|reflexivity]. destruct (e =?c EQUALS); [|reflexivity]. destruct (get s5) as [g s6].
  destruct (quiet_cases _ _ (skip_loose_calm (fuel_of s6) s6)) as [(s7 & ->)| ->]; [|reflexivity]. cbn [quiet sbind obind].
  destruct (tellg s7) as [off s8]. rewrite <- tl_value_same. destruct (tl_value_says (fuel_of s8) s8 [] []) as [[v s9]|m|]; try reflexivity.
  cbn [sbind silent obind]. destruct (get s9) as [[x|] s10]; [apply IH|reflexivity].
Qed.
Lemma tags_same l t : tags_agree (TagList_says l t) (TagList_Parse l t).
Proof. apply tl_loop_same. Qed.

(** ** White space *)
Lemma fws_Fine s p r w r' : St s p r -> l_fws r = Some (w, r') -> exists s', read_fws_says s = Fine (w, s') /\ St s' (rev w ++ p) r'.
Proof.
  intros H E. pose proof (read_fws_St _ _ _ H) as R. rewrite E in R. destruct R as (s' & R & H').
  exists s'. split; [|exact H']. rewrite <- fws_same in R. destruct (read_fws_says s); cbn in R; [injection R as ->; reflexivity|discriminate|discriminate].
Qed.
Lemma fws_Says s p r : St s p r -> l_fws r = None -> exists m w, read_fws_says s = Says m /\ Forall WSP w /\
  ((r = w ++ [CR] /\ m = str "CR without matching LF, at the END") \/
   exists c u, r = w ++ CR :: c :: u /\ c <> LF /\ byte_at "CR without matching LF, 0x" " at position " m c (length p + length w + 1)).
Proof.
  intros H E. unfold read_fws_says. rewrite (St_fuel _ _ _ H). unfold l_fws in E.
  destruct (span is_wsp r) as [w r1] eqn:E1.
  destruct (read_wsps_St (S (length r)) s p r [] w r1 H E1 ltac:(lia)) as (s1 & R1 & H1). rewrite R1. cbn [quiet sbind app].
  pose proof (span_app _ _ _ _ E1) as A1. pose proof (span_all _ _ _ _ E1) as W1. apply forallb_WSP in W1.
  destruct r1 as [|c r2]; [discriminate|]. destruct (c =?c CR) eqn:C; [|discriminate]. apply ceqb_eq in C. subst c.
  unfold read_crlf_says. peek_at H1. rewrite ceqb_refl. get_at H1. destruct r2 as [|d r3].
  - peek_at H0. cbn [sbind]. eexists _, w. split; [reflexivity|]. split; [exact W1|]. left. split; [exact A1|reflexivity].
  - peek_at H0. destruct (d =?c LF) eqn:D.
    { destruct (span is_wsp r3) as [[|x w2] r4]; discriminate. }
    apply ceqb_neq in D. cbn [sbind]. eexists _, w. split; [reflexivity|]. split; [exact W1|]. right. exists d, r3.
    split; [exact A1|]. split; [exact D|]. replace (length p + length w + 1) with (length (CR :: rev w ++ p)).
    { apply (byte_place_at _ _ _ _ _ _ H0). }
    cbn [length]. rewrite app_length, rev_length. lia.
Qed.

(** ** Quoted-printable texts *)
Lemma qe_cancel us p d0 : qe us p d0 -> forall x d, qe us (p ++ x) d -> exists d', qe us x d'.
Proof.
  induction 1; intros x d' Q; cbn [app] in Q.
  - eauto.
  - inversion Q; subst; try discriminate; eauto;
      try (exfalso; match goal with H : _ = true -> _ <> _ |- _ => apply H; auto end; fail);
      try (match goal with H : WSP _ |- _ => destruct H; discriminate end).
  - inversion Q; subst; try congruence; eauto;
      try (exfalso; match goal with H : _ = true -> _ <> _ |- _ => apply H; auto end; fail);
      try (exfalso; eapply WSP_not_print; eauto; fail); try (exfalso; eapply CR_not_print; eauto; fail).
  - inversion Q; subst; try congruence; eauto;
      try (match goal with H : WSP EQUALS |- _ => destruct H; discriminate end).
  - apply qe_wsp_inv in Q; eauto.
  - apply qe_CR_inv in Q. destruct Q as (c' & s' & E & _ & Q). injection E as <- <-. eauto.
Qed.
Lemma qe_app us a d : qe us a d -> forall b e, qe us b e -> qe us (a ++ b) (d ++ e).
Proof. induction 1; intros y e Y; cbn [app]; try (econstructor; eauto; fail). exact Y. Qed.
Lemma qp_ok_qe us t : qp_ok us t <-> exists d, qe us t d.
Proof. unfold qp_ok. split; intros [d D]; exists d; apply qp_qe; exact D. Qed.
Lemma go_on_iff us p d0 x : qe us p d0 -> can_go_on (qp_ok us) (p ++ x) <-> can_go_on (fun y => exists d, qe us y d) x.
Proof.
  intros Q. unfold can_go_on. split; intros [y Y]; exists y.
  - apply qp_ok_qe in Y as [d D]. rewrite <- app_assoc in D. exact (qe_cancel us p d0 Q _ _ D).
  - destruct Y as [d D]. apply qp_ok_qe. rewrite <- app_assoc. eexists. exact (qe_app us p d0 Q _ _ D).
Qed.
Lemma breaks_iff us p d0 x c : qe us p d0 -> can_go_on (fun y => exists d, qe us y d) x -> ~ can_go_on (fun y => exists d, qe us y d) (x ++ [c]) ->
  breaks (qp_ok us) (p ++ x) c.
Proof.
  intros Q G B. split; [apply (go_on_iff us p d0); auto|]. rewrite <- app_assoc. rewrite (go_on_iff us p d0); auto.
Qed.
Lemma unfinished_iff us p d0 x : qe us p d0 -> can_go_on (fun y => exists d, qe us y d) x -> (forall d, ~ qe us x d) -> unfinished (qp_ok us) (p ++ x).
Proof.
  intros Q G B. split; [|apply (go_on_iff us p d0); auto]. rewrite qp_ok_qe. intros [d D]. destruct (qe_cancel us p d0 Q _ _ D) as [e E].
  exact (B e E).
Qed.
(** Hexadecimal digits behind "=". *)
Lemma qe_equals us y d : qe us (EQUALS :: y) d -> exists h1 h2 a b s', y = h1 :: h2 :: s' /\ hex_digit h1 a /\ hex_digit h2 b.
Proof.
  intros Q. inversion Q; subst; try congruence; try discriminate; eauto 10.
  match goal with H : WSP EQUALS |- _ => destruct H; discriminate end.
Qed.
Lemma some_hex : hex_digit (chr 48) 0.
Proof. apply (hex_09 (chr 48)). split; vm_compute; discriminate. Qed.
Lemma hex_go_on us : can_go_on (fun y => exists d, qe us y d) [EQUALS].
Proof. exists [chr 48; chr 48]. eexists. apply (qe_hex us _ _ 0 0); auto using some_hex, qe_end. Qed.
Lemma hex_go_on2 us h v : hex_digit h v -> can_go_on (fun y => exists d, qe us y d) [EQUALS; h].
Proof. intros H. exists [chr 48]. eexists. apply (qe_hex us _ _ v 0); auto using some_hex, qe_end. Qed.
Lemma not_uhex h v : is_uhex h = false -> ~ hex_digit h v.
Proof. intros E H. apply hex_digit_uhex in H. destruct H; congruence. Qed.
Lemma wsps_cr_go_on us w : Forall WSP w -> can_go_on (fun y => exists d, qe us y d) (w ++ [CR]).
Proof. intros W. exists [LF; SP]. exists []. rewrite <- app_assoc. apply qe_wsps; auto. apply qe_fold; [left; reflexivity|constructor]. Qed.
Lemma wsps_crlf_go_on us w : Forall WSP w -> can_go_on (fun y => exists d, qe us y d) (w ++ CRLF).
Proof. intros W. exists [SP]. exists []. rewrite <- app_assoc. apply qe_wsps; auto. apply qe_fold; [left; reflexivity|constructor]. Qed.
Lemma wsps_cr_no us w x : Forall WSP w -> (forall c s', x = LF :: c :: s' -> ~ WSP c) -> forall d, ~ qe us (w ++ CR :: x) d.
Proof.
  intros W N d D. apply qe_wsps_inv in D; auto. apply qe_CR_inv in D. destruct D as (c & s' & E & V & _). exact (N _ _ E V).
Qed.
