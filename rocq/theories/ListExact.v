(** What ValueList takes, exactly (for C06). *)
From Verif Require Import Bytes Outcome Stream Tokenizer MailParser BytesFacts StreamFacts TokenizerFacts SpecText SpecMail QPFacts ListFacts MailFacts AddressClean.

Lemma item_nonempty v : item_text v -> v <> [].
Proof. intros []; discriminate. Qed.
Lemma ws_item x v : ws x -> item_text v -> item_text (x ++ v).
Proof. induction 1; intros I; cbn [app]; auto; [apply it_wsp|apply it_fold]; auto. Qed.
Lemma item_byte_stops c r : item_byte c -> stops (c :: r).
Proof. intros (A & B & _). split; auto. apply not_WSP_b. auto. Qed.
Lemma item_split v : item_text v -> exists x c v2, v = x ++ c :: v2 /\ ws x /\ item_byte c /\ (v2 = [] \/ item_text v2).
Proof.
  induction 1 as [c B|c v B I IH|c v W I IH|c v W I IH].
  - exists [], c, []. split; auto. split; [constructor|auto].
  - exists [], c, v. split; auto. split; [constructor|auto].
  - destruct IH as (x & d & v2 & -> & WX & B & R). exists (c :: x), d, v2. split; auto. split; [constructor; auto|auto].
  - destruct IH as (x & d & v2 & -> & WX & B & R). exists (CR :: LF :: c :: x), d, v2. split; auto. split; [apply ws_fold; auto|auto].
Qed.

Lemma value_item f : forall s p v w t value vbuf,
  St s p (v ++ w ++ t) -> item_text v -> ws w -> match t with [] => True | c :: _ => c = COLON end -> length (v ++ w) < f ->
  exists s', vl_value f s value vbuf = Ok (value ++ vbuf ++ v, s') /\ St s' (rev (v ++ w) ++ p) t.
Proof.
  induction f as [|f IH]; intros s p v w t value vbuf H I W T L; [lia|]. cbn [vl_value].
  destruct (item_split v I) as (x & c & v2 & -> & WX & B & R2).
  pose proof (read_fws_St _ _ _ H) as R. rewrite <- !app_assoc in R, H. cbn [app] in R, H.
  assert (SC : stops (c :: v2 ++ w ++ t)) by (apply item_byte_stops; auto).
  destruct x as [|y x].
  - cbn [app] in *. rewrite (l_fws_stops _ SC) in R. destruct R as (s' & R & H').
    rewrite R. cbn [obind]. cbn [rev app] in H'. peek_at H'. destruct B as (B1 & B2 & B3).
    assert (CO := B3). apply ceqb_neq in CO. rewrite CO. get_at H'. cbn [as_char]. cbn [length] in L.
    destruct R2 as [->|I2].
    + destruct (vl_value_tail f s0 _ w t (value ++ vbuf ++ [c]) [] H0 W T ltac:(cbn [app] in L; lia)) as (s2 & E2 & H2).
      exists s2. split; auto. cbn [app rev] in *. rewrite <- app_assoc. exact H2.
    + destruct (IH s0 _ v2 w t (value ++ vbuf ++ [c]) [] H0 I2 W T ltac:(lia)) as (s2 & E2 & H2).
      exists s2. split.
      * rewrite E2. f_equal. f_equal. rewrite <- !app_assoc. reflexivity.
      * cbn [rev app] in *. rewrite <- !app_assoc in *. exact H2.
  - destruct (l_fws_ws (y :: x) (c :: v2 ++ w ++ t) WX ltac:(discriminate) SC) as (w1 & w2 & E & N & W2 & LF).
    rewrite LF in R. destruct R as (s' & R & H'). rewrite R. cbn [obind]. destruct w1 as [|z w1]; [congruence|].
    assert (I2 : item_text (w2 ++ c :: v2)).
    { apply ws_item; auto. destruct R2 as [->|I2]; [apply it_last|apply it_byte]; auto. }
    assert (ES : w2 ++ c :: v2 ++ w ++ t = (w2 ++ c :: v2) ++ w ++ t) by (rewrite <- app_assoc; reflexivity). rewrite ES in H'.
    rewrite E in L |- *.
    destruct (IH s' _ _ w t value (vbuf ++ z :: w1) H' I2 W T) as (s2 & E2 & H2).
    { repeat rewrite ?app_length in *; cbn [length] in *; repeat rewrite ?app_length in *; cbn [length] in *; lia. }
    exists s2. split.
    + rewrite E2. f_equal. f_equal. rewrite <- !app_assoc. reflexivity.
    + rewrite <- !app_assoc. rewrite rev_app_distr, <- app_assoc. rewrite <- !app_assoc in H2. exact H2.
Qed.

Lemma folded_stops v r : folded_item v -> stops (v ++ r).
Proof. intros [I F]. destruct v as [|c v]; [apply item_nonempty in I; congruence|]. cbn [app]. apply item_byte_stops. exact F. Qed.

Lemma loop_text vs t : list_text vs t ->
  forall f s p acc, St s p t -> length t < f -> vl_loop f s acc = Ok (acc ++ vs).
Proof.
  induction 1 as [w W|w1 v w2 W1 I W2|w1 v w2 vs t W1 I W2 R IH]; intros f s p acc H L;
    (destruct f as [|f]; [lia|]); cbn [vl_loop]; rewrite (St_fuel _ _ _ H).
  - rewrite <- (app_nil_r w) in H. apply FWSs_ws in W.
    destruct (skip_fws_ws (S (length w)) s p w [] H W Logic.I ltac:(lia)) as (s1 & R1 & H1).
    rewrite R1. cbn [obind]. peek_at H1. rewrite app_nil_r. reflexivity.
  - apply FWSs_ws in W1, W2.
    destruct (skip_fws_ws (S (length (w1 ++ v ++ w2))) s p w1 (v ++ w2) H W1) as (s1 & R1 & H1).
    { apply folded_stops; auto. } { rewrite app_length. lia. }
    rewrite R1. cbn [obind]. destruct I as [IT F].
    destruct v as [|c v]; [apply item_nonempty in IT; congruence|]. cbn [app] in H1. peek_at H1. rewrite (St_fuel _ _ _ H1).
    rewrite <- (app_nil_r w2), app_comm_cons in H1.
    destruct (value_item (S (length (c :: v ++ w2))) s1 _ (c :: v) w2 [] [] [] H1) as (s2 & R2 & H2); auto.
    rewrite R2. cbn [obind app]. get_at H2. reflexivity.
  - apply FWSs_ws in W1, W2.
    destruct (skip_fws_ws (S (length (w1 ++ v ++ w2 ++ COLON :: t))) s p w1 (v ++ w2 ++ COLON :: t) H W1) as (s1 & R1 & H1).
    { apply folded_stops; auto. } { rewrite app_length. lia. }
    rewrite R1. cbn [obind]. destruct I as [IT F].
    destruct v as [|c v]; [apply item_nonempty in IT; congruence|]. cbn [app] in H1. peek_at H1. rewrite (St_fuel _ _ _ H1).
    rewrite app_comm_cons in H1.
    destruct (value_item (S (length (c :: v ++ w2 ++ COLON :: t))) s1 _ (c :: v) w2 (COLON :: t) [] [] H1) as (s2 & R2 & H2); auto.
    { cbn [length app]. rewrite !app_length. cbn [length]. lia. }
    rewrite R2. cbn [obind app]. get_at H2.
    erewrite IH; [|exact H0|].
    + rewrite <- app_assoc. reflexivity.
    + rewrite !app_length in L. cbn [length] in L. lia.
Qed.

(** ** The other direction *)
Lemma fws_start r : folds_only r -> l_fws r = Some ([], r) -> match r with [] => True | c :: _ => c = COLON \/ item_byte c end.
Proof.
  intros F E. pose proof (fws_none_start _ F E) as NW. destruct r as [|c r]; [exact I|]. cbn in NW.
  destruct (c =?c COLON) eqn:NC; [apply ceqb_eq in NC; auto|]. apply ceqb_neq in NC. right. split; auto. split; auto. intros ->.
  unfold l_fws in E. cbn [span] in E. change (is_wsp CR) with false in E. cbv iota in E. rewrite ceqb_refl in E.
  destruct r as [|d r]; [discriminate|]. destruct (d =?c LF) eqn:D; [|discriminate]. apply ceqb_eq in D. subst d.
  specialize (F [] r eq_refl). destruct r as [|x r]; [exact F|]. cbn [span] in E. rewrite (WSP_b x F) in E. destruct (span is_wsp r). discriminate.
Qed.

Lemma item_snoc v w c : item_text v -> ws w -> item_byte c -> item_text (v ++ w ++ [c]).
Proof.
  intros I W B. induction I as [d Bd|d v Bd I IH|d v Wd I IH|d v Wd I IH]; cbn [app].
  - apply it_byte; auto. apply ws_item; auto. apply it_last. auto.
  - apply it_byte; auto.
  - apply it_wsp; auto.
  - apply it_fold; auto.
Qed.
(** The value read so far: nothing, or an item; whitespace is held back. *)
Definition so_far (value vbuf : bytes) : Prop := (value = [] /\ vbuf = []) \/ (folded_item value /\ ws vbuf).
Lemma value_text f : forall s p r value vbuf, St s p r -> length r < f -> folds_only r -> so_far value vbuf ->
  (value = [] -> l_fws r = Some ([], r)) ->
  vl_value f s value vbuf = perm \/
  exists v w s' p' r', vl_value f s value vbuf = Ok (v, s') /\ St s' p' r' /\ value ++ vbuf ++ r = v ++ w ++ r' /\
    match r' with [] => True | c :: _ => c = COLON end /\ (v = [] /\ w = [] \/ folded_item v /\ ws w).
Proof.
  induction f as [|f IH]; intros s p r value vbuf H L FO SF NS; [lia|]. cbn [vl_value].
  pose proof (read_fws_St _ _ _ H) as R.
  destruct (l_fws r) as [[w r']|] eqn:E.
  2:{ left. rewrite R. reflexivity. }
  destruct R as (s' & R & H'). rewrite R. cbn [obind].
  pose proof (l_fws_app _ _ _ E) as EA.
  destruct w as [|c w].
  - cbn [app rev] in *. subst r'. pose proof (fws_start _ FO E) as ST. destruct r as [|c r]; peek_at H'.
    + right. exists value, vbuf, s0, p, []. split; [reflexivity|]. split; [eassumption|]. split; [reflexivity|]. split; auto.
    + destruct (c =?c COLON) eqn:C.
      * apply ceqb_eq in C. right. exists value, vbuf. do 3 eexists. split; [reflexivity|].
        split; [eassumption|]. split; [reflexivity|]. split; auto.
      * apply ceqb_neq in C. get_at H'. cbn [as_char]. cbn [length] in L. destruct ST as [ST|ST]; [congruence|].
        assert (FV : folded_item (value ++ vbuf ++ [c])).
        { destruct SF as [[-> ->]|[[IV FV] WB]]; [split; [apply it_last; auto|exact ST]|]. split; [apply item_snoc; auto|].
          apply first_ok_app; auto. apply item_nonempty. auto. }
        destruct (IH s0 _ r (value ++ vbuf ++ [c]) [] H0 ltac:(lia))
          as [P|(v & w & s2 & p2 & r2 & P & H2 & EQ & T & Q)]; [| | |left; auto|right].
        -- apply (folds_only_app [c]). exact FO.
        -- right. split; auto. constructor.
        -- intros X. apply app_eq_nil in X as [_ X]. apply app_eq_nil in X as [_ X]. discriminate.
        -- exists v, w, s2, p2, r2. split; auto. split; auto. split; auto.
           rewrite <- EQ. rewrite <- !app_assoc. reflexivity.
  - assert (length r = length (c :: w) + length r') by (rewrite EA; apply app_length). cbn [length] in *.
    pose proof (l_fws_FWS _ _ _ E ltac:(discriminate)) as FW.
    destruct SF as [[-> ->]|[FV WB]]; [specialize (NS eq_refl); discriminate|].
    destruct (IH _ _ _ value (vbuf ++ c :: w) H' ltac:(lia)) as [P|(v & w' & s2 & p2 & r2 & P & H2 & EQ & T & Q)]; [| | |left; auto|right].
    + apply (folds_only_app (c :: w)). rewrite <- EA. exact FO.
    + right. split; auto. apply ws_app; auto. apply FWS_ws. auto.
    + intros ->. destruct FV as [FV _]. apply item_nonempty in FV. congruence.
    + exists v, w', s2, p2, r2. split; auto. split; auto. split; auto.
      rewrite EA, <- EQ. rewrite <- !app_assoc. reflexivity.
Qed.

Lemma skip_ws f : forall s p r, St s p r -> length r < f ->
  skip_fws f s = perm \/
  exists s' p' a r', skip_fws f s = Ok s' /\ St s' p' r' /\ r = a ++ r' /\ ws a /\ l_fws r' = Some ([], r').
Proof.
  induction f as [|f IH]; intros s p r H L; [lia|]. cbn [skip_fws].
  pose proof (read_fws_St _ _ _ H) as R.
  destruct (l_fws r) as [[w r']|] eqn:E.
  - destruct R as (s' & R & H'). rewrite R. cbn [obind].
    pose proof (l_fws_app _ _ _ E) as EA.
    destruct w as [|c w].
    + right. cbn in EA. subst r'. exists s', p, [], r. split; auto. split; auto. split; auto. split; auto. constructor.
    + assert (length r = length (c :: w) + length r') by (rewrite EA; apply app_length). cbn [length] in *.
      destruct (IH _ _ _ H' ltac:(lia)) as [P|(s2 & p2 & a & r2 & P & H2 & EQ & W & F)]; [left; auto|right].
      exists s2, p2, ((c :: w) ++ a), r2. split; auto. split; auto. subst. rewrite <- app_assoc. split; auto. split; auto.
      apply ws_app; auto. apply FWS_ws. apply (l_fws_FWS _ _ _ E). discriminate.
  - left. rewrite R. reflexivity.
Qed.

Lemma loop_exact f : forall s p r values, St s p r -> length r < f -> folds_only r ->
  vl_loop f s values = perm \/ exists vs, vl_loop f s values = Ok (values ++ vs) /\ list_text vs r.
Proof.
  induction f as [|f IH]; intros s p r values H L FO; [lia|]. cbn [vl_loop]. rewrite (St_fuel _ _ _ H).
  destruct (skip_ws (S (length r)) s p r H ltac:(lia)) as [P|(s1 & p1 & a & r1 & P & H1 & EQ & W & F)]; rewrite P; [left; auto|].
  cbn [obind]. apply ws_FWSs in W. destruct r1 as [|c r1].
  - peek_at H1. right. exists []. rewrite app_nil_r. split; auto. subst r. rewrite app_nil_r. apply lt_none. auto.
  - peek_at H1. rewrite (St_fuel _ _ _ H1).
    assert (FO1 : folds_only (c :: r1)) by (rewrite EQ in FO; apply folds_only_app in FO; auto).
    destruct (value_text (S (length (c :: r1))) s1 p1 (c :: r1) [] [] H1 ltac:(lia) FO1 ltac:(left; auto) (fun _ => F))
      as [P2|(v & w & s2 & p2 & r2 & P2 & H2 & EQ2 & T & Q)]; rewrite P2; [left; auto|]. cbn [obind]. cbn [app] in EQ2.
    destruct v as [|x v]; [left; auto|]. destruct Q as [[Q _]|[FV WW]]; [discriminate|]. apply ws_FWSs in WW.
    destruct r2 as [|d r2].
    + get_at H2. right. exists [x :: v]. split; auto. subst r. rewrite EQ2, app_nil_r. apply lt_last; auto.
    + get_at H2. subst d.
      assert (LL : length r2 < length r).
      { rewrite EQ, EQ2, !app_length. cbn [length]. lia. }
      assert (FO2 : folds_only r2).
      { rewrite EQ2 in FO1. apply folds_only_app in FO1. apply folds_only_app in FO1. apply (folds_only_app [COLON]) in FO1. auto. }
      destruct (IH s0 _ r2 (values ++ [x :: v]) H0 ltac:(lia) FO2) as [P3|(vs & P3 & FA)]; [left; exact P3|].
      right. exists ((x :: v) :: vs). split. { etransitivity; [exact P3|]. rewrite <- app_assoc. reflexivity. }
      rewrite EQ, EQ2. apply lt_more; auto.
Qed.

Lemma ValueList_text vs t : list_text vs t -> ValueList t = Ok vs.
Proof.
  intros R. unfold ValueList. rewrite (St_fuel _ _ _ (St_open t)).
  apply (loop_text vs t R _ _ _ [] (St_open t)). lia.
Qed.
Lemma ValueList_exact t vs : folds_only t -> ValueList t = Ok vs <-> list_text vs t.
Proof.
  intros FO. split; [|apply ValueList_text]. unfold ValueList. rewrite (St_fuel _ _ _ (St_open t)). intros E.
  destruct (loop_exact (S (length t)) _ _ _ [] (St_open t) ltac:(lia) FO) as [P|(vs' & P & T)]; rewrite P in E; [discriminate|].
  cbn [app] in E. injection E as <-. exact T.
Qed.

Lemma list_case : list_text [str "a"] (str "a:") /\ ValueList (str "a:") = Ok [str "a"] /\ folds_only (str "a:") /\ ValueList (str "a::b") = perm.
Proof.
  split; [|split; [vm_compute; reflexivity|split; [|vm_compute; reflexivity]]].
  - assert (B : item_byte (chr 97)) by (split; [intros [X|X]; discriminate|split; discriminate]).
    apply (lt_more [] (str "a") [] [] []); [constructor| |constructor|constructor; constructor]. split; [apply it_last; exact B|exact B].
  - intros a b E. assert (I : In CR (str "a:")) by (rewrite E; apply in_or_app; right; left; reflexivity).
    destruct I as [I|[I|[]]]; discriminate.
Qed.

(** ** The fields of a parsed message are folded properly *)
Lemma app_lf_split l a b r : ~ In LF l -> l ++ CRLF ++ r = a ++ CRLF ++ b ->
  (exists a', a = l ++ CRLF ++ a' /\ r = a' ++ CRLF ++ b) \/ (a = l /\ r = b).
Proof.
  revert a. induction l as [|x l IH]; intros a NL E.
  - cbn [app] in E. destruct a as [|y a]; [right; split; auto; unfold CRLF in E; cbn [app] in E; injection E as E; exact E|].
    destruct a as [|z a].
    + unfold CRLF in E. cbn [app] in E. injection E as _ E _. discriminate.
    + left. exists a. unfold CRLF in *. cbn [app] in *. injection E as -> -> E. auto.
  - destruct a as [|y a].
    + unfold CRLF in E. cbn [app] in E. injection E as -> E. exfalso. apply NL. destruct l as [|z l]; cbn [app] in E.
      * discriminate.
      * injection E as -> _. right. left. reflexivity.
    + cbn [app] in E. injection E as -> E. destruct (IH a) as [(a' & -> & Q)|[-> Q]]; auto.
      * intros I. apply NL. right. exact I.
      * left. exists a'. auto.
Qed.
Lemma joined_folds g : field_lines g -> Forall (fun l => ~ In LF l) g -> folds_only (joined g).
Proof.
  destruct g as [|l g]; [intros []|]. cbn [field_lines]. revert l. induction g as [|k g IH]; intros l C F a b E.
  - inversion F as [|? ? Nl _]; subst. exfalso. apply Nl. cbn [joined] in *. rewrite E. apply in_or_app. right. right. left. reflexivity.
  - inversion F as [|? ? Nl F']; subst. inversion C as [|? ? Ck C']; subst.
    change (joined (l :: k :: g)) with (l ++ CRLF ++ joined (k :: g)) in E.
    apply app_lf_split in E as [(a' & -> & Q)|[-> Q]]; auto; [apply (IH k C' F' a' b Q)|].
    destruct Ck as (c & r & -> & W). destruct b as [|d b].
    + destruct g; discriminate.
    + destruct g; cbn [joined app] in Q; injection Q as -> _; exact W.
Qed.
Lemma block_no_lf ls h : header_block ls h -> Forall (fun l => ~ In LF l) ls.
Proof. induction 1; constructor; auto. Qed.
Lemma message_folds t m s' h : parse_all new_message (open_str t) = Ok (m, s') -> In h (m_headers m) -> folds_only (h_text h).
Proof.
  intros P I. destruct (message_fields' t) as (ls & hd & rest & m' & s2 & HB & ET & P' & _ & gs & F2 & FL & _ & G).
  rewrite P in P'. apply Ok_inj in P'. injection P' as <- _.
  assert (NL : Forall (fun l => ~ In LF l) (concat gs)).
  { apply block_no_lf in HB. destruct G as [[_ ->]|(_ & l & [N [->|[-> _]]] & ->)]; auto; apply Forall_app; (split; [exact HB|]);
      destruct l as [|c l]; constructor; auto. intros X. apply N. apply in_or_app. left. exact X. }
  clear - I F2 FL NL. revert I. induction F2 as [|f g fs gs [E _] F2 IH]; intros I; [destruct I|].
  inversion FL; subst. cbn [concat] in NL. apply Forall_app in NL as [N1 N2]. destruct I as [<-|I]; auto.
  rewrite E. apply joined_folds; auto.
Qed.
