(** ParseAddressList where plain char is unsigned: exactly the texts that are read for ever (for C08). *)
From Verif Require Import Bytes Outcome Stream Tokenizer BytesFacts StreamFacts TokenizerFacts SpecText SpecAddress SpecAddressAll
  QPFacts ListFacts AddressFacts AddressParse AddressClean ListExact ListWide AddressWide Examples.

(** An outcome that is Diverge exactly when [P]; else it is a value or PermanentError. *)
Definition runs {A} (P : Prop) (x : outcome A) : Prop := P /\ x = Diverge \/ ~ P /\ (x = perm \/ exists a, x = Ok a).
Lemma runs_iff {A} P Q (x : outcome A) : (P <-> Q) -> runs P x -> runs Q x.
Proof. unfold runs. tauto. Qed.
Lemma runs_diverge {A} P (x : outcome A) : runs P x -> (x = Diverge <-> P).
Proof.
  intros [[p ->]|[n [->|(a & ->)]]]; split; auto; try discriminate; contradiction.
Qed.

Lemma quoted_unsigned f : forall s p r token, St s p r -> length r < f -> runs (exists v, quoted false r v) (quoted_loop false f s token).
Proof.
  induction f as [|f IH]; intros s p r token H L; [lia|].
  destruct r as [|c r].
  { left. split; [exists []; constructor|]. exact (quoted_loop_forever _ _ _ _ H). }
  cbn [quoted_loop]. get_at H. cbn [as_char andb length] in *.
  destruct (c =?c BSLASH) eqn:B.
  - apply ceqb_eq in B. subst c. destruct r as [|d r]; peek_at H0.
    + right. split; auto. intros (v & Q). inversion Q; subst; contradiction.
    + get_at H0. cbn [length as_char] in *. eapply runs_iff; [|exact (IH s1 _ r (token ++ [d]) H1 ltac:(lia))].
      split; intros (v & Q); [exists (d :: v); constructor; auto|]. inversion Q; subst; [contradiction|eauto].
  - destruct (c =?c DQUOTE) eqn:D.
    + apply ceqb_eq in D. subst c. right. split; [|eauto]. intros (v & Q). inversion Q; subst. contradiction.
    + eapply runs_iff; [|exact (IH s0 _ r (token ++ [c]) H0 ltac:(lia))].
      split; intros (v & Q); [exists (c :: v); constructor; auto; try discriminate; intros ->; discriminate|].
      inversion Q; subst; [eauto|discriminate B].
Qed.
Lemma word_ends cs f : forall s p r x token, St s p r -> length r < f -> next_tok cs f s (x :: token) = perm \/ exists a, next_tok cs f s (x :: token) = Ok a.
Proof.
  induction f as [|f IH]; intros s p r x token H L; [lia|]. rewrite next_tok_S.
  destruct r as [|c r]; peek_at H; [right; unfold finish_tok; eauto|].
  pose proof (read_fws_St _ _ _ H) as R. destruct (l_fws (c :: r)) as [[w r1]|] eqn:W; [|left; rewrite R; reflexivity].
  destruct R as (s1 & R & H1). rewrite R. cbn [obind]. apply fws_gap in W.
  destruct w as [|y w]; [|right; unfold finish_tok; eauto].
  pose proof (gap_app _ _ _ W) as A. cbn in A. subst r1.
  destruct (special_dec c) as [X|X].
  - rewrite (special_end cs f s1 _ c r x token H1 X). eauto.
  - destruct (plain_next cs f s1 _ c r (x :: token) H1 X) as (s2 & EN & H2). rewrite EN. cbn [app length] in *. eapply IH; eauto. lia.
Qed.

(** The text begins with a quoted string that is not closed. *)
Definition unclosed (r : bytes) : Prop := exists w q v, gap r w (DQ :: q) /\ quoted false q v.
Lemma next_unsigned s p r : St s p r -> runs (unclosed r) (NextAddressListToken false s).
Proof.
  intros H. unfold NextAddressListToken. rewrite (St_fuel _ _ _ H).
  destruct (l_fws r) as [[w r1]|] eqn:W.
  2:{ right. split; [intros (w & q & v & G & _); apply gap_fws in G; congruence|]. left.
      destruct r as [|c r]; [discriminate W|]. rewrite next_tok_S. peek_at H. pose proof (read_fws_St _ _ _ H) as R. rewrite W in R. rewrite R. reflexivity. }
  pose proof (fws_gap _ _ _ W) as G. destruct (next_start false (length r) s p r w r1 H G) as (s1 & p1 & -> & H1).
  pose proof (gap_shorter _ _ _ G) as LE. unfold tok_body.
  assert (U : unclosed r <-> exists q, r1 = DQ :: q /\ exists v, quoted false q v).
  { split.
    - intros (w2 & q & v & G2 & Q). apply gap_fws in G2. rewrite W in G2. injection G2 as _ ->. eauto.
    - intros (q & -> & v & Q). exists w, q, v. auto. }
  destruct r1 as [|c r1]; peek_at H1.
  { right. split; [rewrite U; intros (q & X & _); discriminate X|]. unfold finish_tok. eauto. }
  cbn [length] in LE.
  destruct (c =?c DQUOTE) eqn:C1.
  { apply ceqb_eq in C1. subst c. get_at H1. rewrite (St_fuel _ _ _ H0).
    destruct (quoted_unsigned (S (length r1)) s0 _ r1 [] H0 ltac:(lia)) as [[Q ->]|[Q K]].
    - left. split; auto. apply U. exists r1. auto.
    - right. split; [rewrite U; intros (q & X & Y); injection X as ->; auto|]. destruct K as [->|((t & s4) & ->)]; cbn [obind]; eauto. }
  assert (NU : ~ unclosed r). { rewrite U. intros (q & X & _). injection X as -> _. discriminate C1. }
  right. split; auto.
  destruct (c =?c LPAREN) eqn:C2.
  { get_at H1. rewrite (St_fuel _ _ _ H0). destruct (comment_loop_any (S (length r1)) 1 s0 _ r1 [] H0 ltac:(lia)) as [->|(t & s' & p' & r' & -> & _)]; cbn [obind]; eauto. }
  destruct (c =?c LANGLE); [get_at H1; eauto|]. destruct (c =?c RANGLE); [get_at H1; eauto|].
  destruct ((c =?c COMMA) || (c =?c SEMI)); [get_at H1; eauto|].
  get_at H1. cbn [as_char app]. eapply word_ends; eauto.
Qed.

(** ** The end of a segment *)
Lemma flush_runs rec (sub : bytes -> list bytes -> Prop) (E : bytes -> Prop) (P : Prop) sep seg typ kont : follows seg typ -> segment seg ->
  (forall v, In (Word true v) seg -> (forall l, rec v = Ok l <-> sub v l) /\ runs (E v) (rec v)) -> (forall l, runs P (kont l)) ->
  runs ((exists v, (sep = true -> In AT v) /\ lone_quoted seg v /\ E v) \/ (exists l, yields sub sep seg l) /\ P) (flushed rec sep typ (words seg) kont).
Proof.
  intros FO SE RS KO. unfold flushed. destruct (words seg) as [|w0 rest] eqn:W.
  { eapply runs_iff; [|apply KO]. split.
    - intros p. right. split; auto. exists []. constructor; auto.
    - intros [(v & _ & (X & _) & _)|[_ p]]; auto. congruence. }
  destruct (follows_quoted seg typ FO SE ltac:(rewrite W; discriminate)) as (Q & NC & NE).
  replace (negb match typ with TOK_TAG_CLOSE => true | _ => false end) with true by (destruct typ; solve [reflexivity|congruence]).
  rewrite <- W. rewrite Bool.andb_true_r.
  assert (LQ : forall v, lone_quoted seg v -> typ = TOK_QUOTED /\ rest = [] /\ w0 = v).
  { intros v (X & Y). rewrite W in X. injection X as <- ->. split; auto. apply Q. destruct Y as (s2 & Y). eauto. }
  destruct (sep && negb (has_char AT (last (words seg) []))) eqn:D.
  { apply Bool.andb_true_iff in D as [D1 D2]. apply Bool.negb_true_iff, has_char_false in D2.
    eapply runs_iff; [|apply KO]. split.
    - intros p. right. split; auto. exists []. apply y_name; auto.
    - intros [(v & A & (X & _) & _)|[_ p]]; auto. rewrite X in D2. destruct (D2 (A D1)). }
  assert (KEEP : sep = true -> In AT (last (words seg) [])).
  { intros ->. cbn in D. apply Bool.negb_false_iff, has_char_in in D. exact D. }
  assert (CASE : (typ = TOK_QUOTED /\ rest = []) \/ ~ (typ = TOK_QUOTED /\ rest = [])).
  { destruct typ; try (right; intros [X _]; discriminate X). destruct rest; [left; auto|right; intros [_ X]; discriminate X]. }
  destruct CASE as [[-> ->]|NL].
  - assert (LO : lone_quoted seg w0).
    { split; auto. destruct Q as [Q _]. destruct (Q eq_refl) as (s2 & v & ->). exists s2. rewrite words_snoc in W. apply (app_inj_tail _ []) in W as [_ ->]. reflexivity. }
    assert (IW : In (Word true w0) seg). { destruct LO as (_ & s2 & ->). apply in_or_app. right. left. reflexivity. }
    destruct (RS w0 IW) as [RO [[e R]|[n R]]].
    { left. rewrite R. split; auto. left. exists w0. split; [|auto]. rewrite W in KEEP. exact KEEP. }
    destruct R as [R|(addrs & R)]; rewrite R; cbn [obind].
    + right. split; [|auto]. intros [(v & _ & L & e)|[(l & Y) _]].
      * destruct (LQ v L) as (_ & _ & <-). auto.
      * destruct Y as [Y|SP Y|v l A L S|A N L].
        -- rewrite W in Y. discriminate Y.
        -- destruct (Y (KEEP SP)).
        -- destruct (LQ v L) as (_ & _ & <-). apply RO in S. rewrite R in S. discriminate S.
        -- destruct L. eauto.
    + eapply runs_iff; [|apply KO]. split.
      * intros p. right. split; auto. exists addrs. apply (y_list _ _ _ w0); auto. { rewrite W in KEEP. exact KEEP. } apply RO. exact R.
      * intros [(v & _ & L & e)|[_ p]]; auto. destruct (LQ v L) as (_ & _ & <-). contradiction.
  - replace (match typ with TOK_QUOTED => match rest with [] => let* addrs := rec w0 in kont addrs | _ :: _ => kont [concat (words seg)] end | _ => kont [concat (words seg)] end)
      with (kont [concat (words seg)]) by (destruct typ, rest; auto; destruct NL; auto).
    assert (NLO : ~ exists v, lone_quoted seg v). { intros (v & L). destruct (LQ v L) as (X & Y & _). auto. }
    eapply runs_iff; [|apply KO]. split.
    + intros p. right. split; auto. exists [concat (words seg)]. apply y_address; auto. rewrite W. discriminate.
    + intros [(v & _ & L & e)|[_ p]]; auto. destruct NLO. eauto.
Qed.

(** ** The loop *)
(** A text with a token at its beginning is endless by what follows. *)
Lemma endless_token s p seg r t r1 : St s p r -> one false r (Some t) r1 -> ~ ender t -> endless seg r <-> endless (seg ++ [t]) r1.
Proof.
  intros H O NE. split; [|intros X; eapply en_token; eauto; intros ->; apply NE; [left|right]; reflexivity].
  intros X. inversion X as [seg' r' w q v G Q|seg' r' t' r1' O' N1 N2 X'|seg' r' o' r1' v O' EN AV L X'|seg' r' r1' l O' Y X'|seg' r' r1' l O' NO Y X']; subst.
  - exfalso. destruct (one_run _ _ _ _ O s p H) as (tk & s' & p' & E & _).
    destruct (next_unsigned s p r H) as [[_ D]|[NU _]]; [congruence|]. apply NU. exists w, q, v. auto.
  - destruct (one_same _ _ _ _ _ _ _ _ H O O') as [E <-]. injection E as ->. exact X'.
  - destruct (one_same _ _ _ _ _ _ _ _ H O O') as [-> <-]. exfalso. apply NE. destruct EN as [E|[[E|E] _]]; try discriminate E; injection E as ->; [left|right]; reflexivity.
  - destruct (one_same _ _ _ _ _ _ _ _ H O O') as [E _]. injection E as <-. destruct NE. left. reflexivity.
  - destruct (one_same _ _ _ _ _ _ _ _ H O O') as [E _]. injection E as <-. destruct NE. right. reflexivity.
Qed.
Lemma endless_end s p seg r o r1 : St s p r -> one false r o r1 -> match o with Some t => ender t | None => True end ->
  endless seg r <-> ends o seg /\ ((exists v, (o = Some Sep -> In AT v) /\ lone_quoted seg v /\ endless [] v) \/
    o <> None /\ (exists sep l, (sep = true <-> o = Some Sep) /\ yields (address_text false) sep seg l) /\ endless [] r1).
Proof.
  intros H O T. split.
  - intros X. inversion X as [seg' r' w q v G Q|seg' r' t' r1' O' N1 N2 X'|seg' r' o' r1' v O' EN AV L X'|seg' r' r1' l O' Y X'|seg' r' r1' l O' NO Y X']; subst.
    + exfalso. destruct (one_run _ _ _ _ O s p H) as (tk & s' & p' & E & _).
      destruct (next_unsigned s p r H) as [[_ D]|[NU _]]; [congruence|]. apply NU. exists w, q, v. auto.
    + destruct (one_same _ _ _ _ _ _ _ _ H O O') as [<- <-]. destruct T; contradiction.
    + destruct (one_same _ _ _ _ _ _ _ _ H O O') as [-> <-]. split; auto. left. eauto.
    + destruct (one_same _ _ _ _ _ _ _ _ H O O') as [<- <-]. split; [left; reflexivity|]. right. split; [discriminate|]. split; auto.
      exists false, l. split; auto. split; discriminate.
    + destruct (one_same _ _ _ _ _ _ _ _ H O O') as [<- <-]. split; [right; auto|]. right. split; [discriminate|]. split; auto.
      exists true, l. split; auto. split; auto.
  - intros (EN & [(v & A & L & X)|(NN & (sep & l & SP & Y) & X)]).
    + eapply en_inside; eauto.
    + destruct o as [t|]; [|congruence]. destruct T as [->| ->].
      * destruct sep; [destruct SP as [SP _]; discriminate (SP eq_refl)|]. eapply en_close; eauto.
      * destruct sep; [|destruct SP as [_ SP]; discriminate (SP eq_refl)]. destruct EN as [EN|[_ EN]]; [discriminate EN|]. eapply en_sep; eauto.
Qed.

Lemma loop_runs rec n : (forall v, length v < n -> (forall l, rec v = Ok l <-> address_text false v l) /\ runs (endless [] v) (rec v)) ->
  forall f s p r typ seg (op : bool) res, St s p r -> length r + 2 <= f -> length r <= n -> segment seg ->
  (forall v, In (Word true v) seg -> length v < n) -> follows seg typ -> (op = true <-> In Open seg) ->
  runs (endless seg r) (pal_loop false rec f s typ (words seg) op res).
Proof.
  intros REC. induction f as [|f IH]; intros s p r typ seg op res H F LN SE QS FO OP; [lia|].
  assert (TE : typ <> TOK_EOF). { destruct FO as [[_ [->| ->]]|(s2 & t & _ & ->)]; try discriminate. destruct t as [[|] v| | | |]; discriminate. }
  assert (START : forall x, NextAddressListToken false s = x -> (forall a, x <> Ok a) -> pal_loop false rec (S f) s typ (words seg) op res = obind x (fun _ => Diverge)).
  { intros x <- NO. cbn [pal_loop]. destruct (NextAddressListToken false s) as [a| | |]; [destruct (NO a eq_refl)| | |]; destruct typ; try congruence; reflexivity. }
  destruct (next_unsigned s p r H) as [[(w & q & v & G & Q) NX]|[NU [NX|([[ty tk] s'] & NX)]]].
  { left. split; [eapply en_quoted; eauto|]. rewrite (START _ NX); [reflexivity|discriminate]. }
  { right. split; [|left; rewrite (START _ NX); [reflexivity|discriminate]].
    assert (NO : forall o r', ~ one false r o r'). { intros o r' O. destruct (one_run _ _ _ _ O s p H) as (tk & s1 & p1 & E1 & _). rewrite NX in E1. discriminate E1. }
    intros X. inversion X; subst; try (eapply NO; eassumption). apply NU. eexists _, _, _. eauto. }
  assert (NX' : next_tok false (S (length r)) s [] = Ok (ty, tk, s')). { unfold NextAddressListToken in NX. rewrite (St_fuel _ _ _ H) in NX. exact NX. }
  rewrite (pal_loop_tok false rec f s p r typ (words seg) op res ty tk s' H TE NX').
  destruct (in_dec ascii_dec NUL0 tk) as [NT|NT].
  { right. split; [|left; unfold pal_next; apply has_char_in in NT; change NUL with NUL0; rewrite NT; reflexivity].
    assert (NO : forall o r', ~ one false r o r'). { intros o r' O. destruct (one_run _ _ _ _ O s p H) as (tk' & s1 & p1 & E1 & NN & _). congruence. }
    intros X. inversion X; subst; try (eapply NO; eassumption). apply NU. eexists _, _, _. eauto. }
  destruct (one_back false s p r ty tk s' H NX NT) as (o & r' & p' & O & -> & SH & H').
  assert (FLUSH : (op = true -> o = Some Close) -> match o with Some t => ender t | None => True end ->
     runs (endless seg r) (flushed rec (match kind o with TOK_SEPARATOR => true | _ => false end) typ (words seg) (fun l => pal_loop false rec f s' (kind o) [] false (res ++ l)))).
  { intros OC T.
    assert (EN : ends o seg).
    { destruct o as [[q v| | | |]|]; [destruct T; discriminate|destruct T; discriminate|destruct T; discriminate|left; reflexivity| |]; right; (split; [auto|]); intros X; apply OP in X; discriminate (OC X). }
    assert (SP : (match kind o with TOK_SEPARATOR => true | _ => false end) = true <-> o = Some Sep).
    { destruct o as [[[|] v| | | |]|]; cbn; split; auto; discriminate. }
    eapply runs_iff; [|apply (flush_runs rec (address_text false) (endless []) (o <> None /\ endless [] r')); auto].
    - rewrite (endless_end s p seg r o r' H O T). split.
      + intros [(v & A & L & X)|((l & Y) & NN & X)]; (split; [exact EN|]); [left; exists v; rewrite <- SP; auto|right]. split; auto. split; auto. eauto.
      + intros (_ & [(v & A & L & X)|(NN & (sep & l & SP' & Y) & X)]); [left; exists v; rewrite SP; auto|right].
        split; [|auto]. exists l. replace (match kind o with TOK_SEPARATOR => true | _ => false end) with sep; auto.
        apply Bool.eq_iff_eq_true. rewrite SP, SP'. reflexivity.
    - intros l. destruct o as [t|].
      + destruct (one_shorter _ _ _ _ O) as [SH1 _]. eapply runs_iff; [|apply (IH s' p' r' (kind (Some t)) [] false (res ++ l) H'); try lia; [split; intros []|intros v []|left|split; [discriminate|intros []]]].
        * split; [split; auto; discriminate|tauto].
        * split; auto. destruct T as [->| ->]; cbn; auto.
      + right. split; [intros [X _]; congruence|]. right. destruct f as [|f]; [lia|]. cbn. eauto. }
  destruct o as [t|].
  2:{ cbn [kind] in *. destruct op.
    - right. split; [|left; unfold pal_next; rewrite (NUL_no tk NT); reflexivity]. intros X. apply (endless_end s p seg r None r' H O I) in X as ([X|[_ X]] & _); [discriminate X|].
      apply X, OP. reflexivity.
    - rewrite pal_loop_flush; [|auto|auto]. apply FLUSH; auto. discriminate. }
  destruct (one_shorter _ _ _ _ O) as [SH1 SH2].
  assert (FO' : follows (seg ++ [t]) (kind (Some t))) by (right; eauto).
  assert (GOON : ~ ender t -> (forall v, t = Word true v -> length v < n) -> forall (op' : bool), (op' = true <-> In Open (seg ++ [t])) ->
     runs (endless seg r) (pal_loop false rec f s' (kind (Some t)) (words (seg ++ [t])) op' res)).
  { intros NE QT op' OP'. eapply runs_iff; [symmetry; eapply endless_token; eauto|]. apply (IH s' p' r' (kind (Some t)) (seg ++ [t]) op' res H' ltac:(lia) ltac:(lia)); auto.
    - apply segment_forall, Forall_app. split; [apply segment_forall; auto|]. repeat constructor. exact NE.
    - intros v I. apply in_app_or in I as [I|[I|[]]]; auto. }
  assert (OPS : t <> Open -> (op = true <-> In Open (seg ++ [t]))).
  { intros NO. rewrite OP, in_app_iff. cbn [In]. intuition congruence. }
  destruct t as [q v| | | |]; cbn [shows] in SH.
  - subst tk. rewrite words_snoc in GOON. pose proof (GOON ltac:(intros [X|X]; discriminate X) ltac:(intros v' [= -> ->]; cbn in SH2; lia) op (OPS ltac:(discriminate))) as K.
    unfold pal_next. rewrite (NUL_no v NT). destruct q; exact K.
  - rewrite words_snoc in GOON. pose proof (GOON ltac:(intros [X|X]; discriminate X) ltac:(discriminate) op (OPS ltac:(discriminate))) as K.
    unfold pal_next. rewrite (NUL_no tk NT). exact K.
  - rewrite words_snoc in GOON. assert (OP' : true = true <-> In Open (seg ++ [Open])).
    { split; auto. intros _. apply in_or_app. right. left. reflexivity. }
    pose proof (GOON ltac:(intros [X|X]; discriminate X) ltac:(discriminate) true OP') as K.
    unfold pal_next. rewrite (NUL_no tk NT). exact K.
  - cbn [kind] in *. rewrite pal_loop_flush; [|auto|auto]. apply FLUSH; auto. left. reflexivity.
  - cbn [kind] in *. destruct op.
    + right. split; [|left; unfold pal_next; rewrite (NUL_no tk NT); reflexivity]. intros X. apply (endless_end s p seg r (Some Sep) r' H O (or_intror eq_refl)) in X as ([X|[_ X]] & _); [discriminate X|].
      apply X, OP. reflexivity.
    + rewrite pal_loop_flush; [|auto|auto]. apply FLUSH; [discriminate|right; reflexivity].
Qed.
Lemma pal_runs d : forall input, length input < d -> runs (endless [] input) (pal false d input).
Proof.
  induction d as [|d IH]; intros input L; [lia|]. cbn [pal].
  apply (loop_runs (pal false d) (length input)) with (p := []) (seg := []).
  - intros v LV. split; [intros l; apply pal_all; lia|apply IH; lia].
  - apply St_open.
  - rewrite (St_fuel _ _ _ (St_open input)). lia.
  - lia.
  - split; intros [].
  - intros v [].
  - left. auto.
  - split; [discriminate|intros []].
Qed.
Lemma unsigned_runs t : runs (endless [] t) (ParseAddressList false t).
Proof. apply pal_runs. lia. Qed.
Lemma unsigned_exact t :
  (ParseAddressList false t = Diverge <-> endless [] t) /\
  (~ endless [] t -> ParseAddressList false t = perm \/ exists l, ParseAddressList false t = Ok l).
Proof.
  split; [apply runs_diverge, unsigned_runs|]. intros N. destruct (unsigned_runs t) as [[X _]|[_ X]]; [contradiction|exact X].
Qed.

(** ** What the addresses are made of *)
Definition size (t : token) : nat := match t with Word _ v => length v | _ => 0 end.
Definition sizes (ts : list token) : nat := fold_right (fun t n => size t + n) 0 ts.
Lemma sizes_app a b : sizes (a ++ b) = sizes a + sizes b.
Proof. induction a as [|t a IH]; cbn [sizes fold_right app] in *; auto. fold (sizes (a ++ b)) (sizes a). rewrite IH. lia. Qed.
Lemma word_size r a r' : word_rest r a r' -> length a + length r' <= length r.
Proof. induction 1 as [|r w r' G N|c r X|c r a r' G X W IH]; cbn [length]; try lia. apply gap_shorter in G. exact G. Qed.
Lemma one_size cs r t r' : one cs r (Some t) r' -> size t + length r' <= length r.
Proof.
  intros O. inversion O; subst; match goal with G : gap _ _ _ |- _ => apply gap_shorter in G; cbn [length] in G end; cbn [size length]; try lia.
  - match goal with W : word_rest _ _ _ |- _ => apply word_size in W end. lia.
  - match goal with W : quoted _ _ _ |- _ => apply quoted_length in W end. rewrite app_length in *. cbn [length] in *. lia.
  - rewrite app_length in *. lia.
Qed.
Definition unspoiled (ts : list token) : Prop := forall q v, In (Word q v) ts -> ~ In NUL0 v.
Lemma lexed_made cs r ts : lexed cs r ts -> sizes ts <= length r /\ unspoiled ts /\ forall v, In (Word true v) ts -> length v < length r.
Proof.
  revert r. induction ts as [|t ts IH]; intros r L.
  - split; [cbn; lia|]. split; [intros q v []|intros v []].
  - apply lexed_one in L as [[X _]|(t' & ts' & r' & X & O & L)]; [discriminate X|]. injection X as <- <-.
    destruct (IH _ L) as (S1 & U & Q). pose proof (one_size _ _ _ _ O) as SZ. split; [cbn [sizes fold_right]; fold (sizes ts); lia|]. split.
    + intros q v [->|I]; [|eapply U; eauto]. inversion O; subst; assumption.
    + intros v [->|I]; [apply one_shorter in O; destruct O; lia|]. specialize (Q v I). lia.
Qed.
Lemma words_made seg : length (concat (words seg)) <= sizes seg /\ forall v, In v (words seg) -> exists q, In (Word q v) seg.
Proof.
  induction seg as [|t seg IH] using rev_ind; [split; [auto|intros v []]|]. destruct IH as [A B]. rewrite words_snoc, sizes_app.
  destruct t as [q v| | | |]; cbn [sizes fold_right size].
  - rewrite concat_app, app_length. cbn [concat]. rewrite app_nil_r. split; [lia|]. intros x I. apply in_app_or in I as [I|[<-|[]]].
    + destruct (B x I) as (q' & I'). exists q'. apply in_or_app. auto.
    + exists q. apply in_or_app. right. left. reflexivity.
  - split; [lia|]. intros x I. destruct (B x I) as (q' & I'). exists q'. apply in_or_app. auto.
  - split; [cbn; lia|intros x []].
  - split; [lia|]. intros x I. destruct (B x I) as (q' & I'). exists q'. apply in_or_app. auto.
  - split; [lia|]. intros x I. destruct (B x I) as (q' & I'). exists q'. apply in_or_app. auto.
Qed.
Definition made_of (n : nat) (l : list bytes) : Prop := Forall (fun a => ~ In NUL0 a) l /\ length (concat l) <= n.
Lemma yields_made (sub : bytes -> list bytes -> Prop) sep seg l : (forall v l', In (Word true v) seg -> sub v l' -> made_of (length v) l') -> unspoiled seg ->
  yields sub sep seg l -> made_of (sizes seg) l.
Proof.
  intros SB U Y. destruct (words_made seg) as [A B]. destruct Y as [W|SP N|v l' AV L S'|AV N L].
  1,2: split; [constructor|cbn; lia].
  - destruct L as (W & s2 & E). assert (I : In (Word true v) seg) by (rewrite E; apply in_or_app; right; left; reflexivity).
    destruct (SB v l' I S') as [F LE]. split; auto. rewrite W in A. cbn [concat] in A. rewrite app_nil_r in A. lia.
  - split; [|cbn [concat]; rewrite app_nil_r; exact A]. constructor; [|constructor]. intros I. apply in_concat in I as (x & I1 & I2).
    destruct (B x I1) as (q & I3). exact (U q x I3 I2).
Qed.
Lemma made_app n m a b : made_of n a -> made_of m b -> made_of (n + m) (a ++ b).
Proof. intros [A1 A2] [B1 B2]. split; [apply Forall_app; auto|]. rewrite concat_app, app_length. lia. Qed.
Lemma grouped_made (sub : bytes -> list bytes -> Prop) ts l : (forall v l', In (Word true v) ts -> sub v l' -> made_of (length v) l') -> unspoiled ts ->
  grouped sub ts l -> made_of (sizes ts) l.
Proof.
  intros SB U G. induction G as [seg l S' O Y|seg ts l1 l2 S' Y G IH|seg ts l1 l2 S' O Y G IH]; [eapply yields_made; eauto|..];
    rewrite sizes_app; cbn [sizes fold_right size]; fold (sizes ts); apply made_app.
  1,3: eapply yields_made; [| |exact Y]; [intros v l' I; apply SB, in_or_app; auto|intros q v I; eapply U, in_or_app; eauto].
  1,2: apply IH; [intros v l' I; apply SB, in_or_app; right; right; auto|intros q v I; eapply U, in_or_app; right; right; eauto].
Qed.
Lemma address_made cs n : forall t l, length t < n -> address_text cs t l -> made_of (length t) l.
Proof.
  induction n as [|n IH]; intros t l LN A; [lia|]. destruct A as [t ts l L G]. destruct (lexed_made _ _ _ L) as (S1 & U & Q).
  assert (M : made_of (sizes ts) l). { eapply grouped_made; eauto. intros v l' I A. apply IH; auto. specialize (Q v I). lia. }
  destruct M as [M1 M2]. split; auto. lia.
Qed.
Lemma addresses_made cs t l : ParseAddressList cs t = Ok l -> Forall (fun a => ~ In NUL0 a) l /\ length (concat l) <= length t.
Proof. intros E. apply ParseAddressList_all in E. exact (address_made cs (S (length t)) t l ltac:(lia) E). Qed.

(** ** A comment in front *)
Lemma endless_comment seg r : endless (Comment :: seg) r <-> endless seg r.
Proof.
  assert (NO : forall seg, ~ In Open (Comment :: seg) <-> ~ In Open seg) by (intros; cbn [In]; intuition discriminate).
  assert (EN : forall o seg, ends o (Comment :: seg) <-> ends o seg) by (intros; unfold ends; rewrite NO; reflexivity).
  split.
  - remember (Comment :: seg) as sg eqn:E. intros X. revert seg E. induction X as [sg r w q v G Q|sg r t r1 O N1 N2 X IH|sg r o r1 v O D AV L X IH|sg r r1 l O Y X IH|sg r r1 l O N Y X IH]; intros seg ->.
    + eapply en_quoted; eauto.
    + apply (en_token _ _ t r1); auto.
    + apply (en_inside _ _ o r1 v); auto; [apply EN; auto|apply lone_comment; auto].
    + apply (en_close _ _ r1 l); auto. apply yields_comment; auto.
    + apply (en_sep _ _ r1 l); auto; [apply NO; auto|]. apply yields_comment; auto.
  - intros X. induction X as [seg r w q v G Q|seg r t r1 O N1 N2 X IH|seg r o r1 v O D AV L X IH|seg r r1 l O Y X IH|seg r r1 l O N Y X IH].
    + eapply en_quoted; eauto.
    + eapply en_token; eauto.
    + apply (en_inside _ _ o r1 v); auto; [apply EN; auto|apply lone_comment; auto].
    + apply (en_close _ _ r1 l); auto. apply yields_comment; auto.
    + apply (en_sep _ _ r1 l); auto; [apply NO; auto|]. apply yields_comment; auto.
Qed.
Lemma runs_same {P Q : Prop} (x y : outcome (list bytes)) : (P <-> Q) -> runs P x -> runs Q y -> (forall l, x = Ok l <-> y = Ok l) -> x = y.
Proof.
  intros PQ [[p ->]|[n X]] [[q ->]|[m Y]] A; auto; try tauto.
  destruct X as [->|(a & ->)]; [destruct Y as [->|(b & ->)]|]; auto.
  - destruct (A b) as [_ B]. discriminate (B eq_refl).
  - symmetry. apply A. reflexivity.
Qed.
Lemma comment_front_any cs a r : skipped false 1 (a ++ [RP]) -> ~ In NUL0 a -> ParseAddressList cs (LP :: a ++ RP :: r) = ParseAddressList cs r.
Proof.
  intros K N. destruct cs; [apply comment_front_parse; auto|].
  apply (runs_same (P := endless [] (LP :: a ++ RP :: r)) (Q := endless [] r)); try apply unsigned_runs.
  - rewrite (endless_token _ _ [] _ Comment r (St_open _) (one_comment_front false a r K N)); [apply endless_comment|intros [X|X]; discriminate X].
  - intros l. rewrite !ParseAddressList_all. apply comment_front; auto.
Qed.

(** ** Where both kinds of char agree *)
Lemma quoted_plain q v : ~ In (chr 255) q -> quoted false q v <-> quoted true q v.
Proof.
  intros N. split; intros Q.
  - induction Q as [|c q v D B Y Q IH|c q v Q IH]; [constructor| |]; constructor; auto; try (intros _ ->; apply N; left; reflexivity);
      apply IH; intros I; apply N; right; auto; right; auto.
  - induction Q as [|c q v D B Y Q IH|c q v Q IH]; [constructor| |]; constructor; auto; try discriminate;
      apply IH; intros I; apply N; right; auto; right; auto.
Qed.
Lemma quoted_bytes cs q v c : quoted cs q v -> In c v -> In c q.
Proof. induction 1 as [|x q v D B Y Q IH|x q v Q IH]; cbn [In]; auto; intros [<-|I]; auto. Qed.
Lemma word_bytes r a r' c : word_rest r a r' -> In c r' -> In c r.
Proof. induction 1 as [|r w r' G N|x r X|x r a r' G X W IH]; cbn [In]; auto. rewrite (gap_app _ _ _ G), in_app_iff. auto. Qed.
Lemma one_plain cs cs' r t r' : ~ In (chr 255) r -> one cs r (Some t) r' ->
  one cs' r (Some t) r' /\ ~ In (chr 255) r' /\ forall v, t = Word true v -> ~ In (chr 255) v.
Proof.
  intros N O. inversion O; subst; match goal with G : gap _ _ _ |- _ => pose proof (gap_app _ _ _ G) as A; rewrite A in N; rewrite !in_app_iff in N; cbn [In] in N end.
  - split; [econstructor; eauto|]. split; [|discriminate]. intros I. apply N. right. right. eapply word_bytes; eauto.
  - rewrite in_app_iff in N. cbn [In] in N. split; [|split; [tauto|]].
    + econstructor; eauto. assert (NQ : ~ In (chr 255) q) by tauto. pose proof (quoted_plain q v NQ) as E. destruct cs, cs'; auto; apply E; assumption.
    + intros v' [= ->] I. apply N. right. right. left. eapply quoted_bytes; eauto.
  - rewrite in_app_iff in N. split; [econstructor; eauto|]. split; [tauto|discriminate].
  - split; [econstructor; eauto|]. split; [tauto|discriminate].
  - split; [econstructor; eauto|]. split; [tauto|discriminate].
  - split; [econstructor; eauto|]. split; [tauto|discriminate].
Qed.
Lemma lexed_plain cs cs' r ts : ~ In (chr 255) r -> lexed cs r ts -> lexed cs' r ts /\ forall v, In (Word true v) ts -> ~ In (chr 255) v.
Proof.
  revert r. induction ts as [|t ts IH]; intros r N L.
  - split; [|intros v []]. inversion L; subst. econstructor; eauto.
  - apply lexed_one in L as [[X _]|(t' & ts' & r' & X & O & L)]; [discriminate X|]. injection X as <- <-.
    destruct (one_plain cs cs' r t r' N O) as (O' & N' & Q). destruct (IH r' N' L) as [L' Q']. split; [apply lexed_one; right; eauto 6|].
    intros v [->|I]; auto.
Qed.
Lemma yields_sub (sub sub' : bytes -> list bytes -> Prop) sep seg l : (forall v l, In (Word true v) seg -> sub v l -> sub' v l) -> yields sub sep seg l -> yields sub' sep seg l.
Proof.
  intros SB [Y|SP Y|v l' A L S'|A N L]; [apply y_none|apply y_name|eapply y_list|apply y_address]; eauto.
  apply SB; auto. destruct L as (_ & s2 & ->). apply in_or_app. right. left. reflexivity.
Qed.
Lemma grouped_sub (sub sub' : bytes -> list bytes -> Prop) ts l : (forall v l, In (Word true v) ts -> sub v l -> sub' v l) -> grouped sub ts l -> grouped sub' ts l.
Proof.
  intros SB G. induction G as [seg l S' O Y|seg ts l1 l2 S' Y G IH|seg ts l1 l2 S' O Y G IH]; [apply gr_end|apply gr_close|apply gr_sep]; auto.
  1,2,4: eapply yields_sub; [|exact Y]; intros v l0 I; apply SB; auto; apply in_or_app; auto.
  1,2: apply IH; intros v l0 I; apply SB, in_or_app; right; right; auto.
Qed.
Lemma address_plain cs cs' n : forall t l, length t < n -> ~ In (chr 255) t -> address_text cs t l -> address_text cs' t l.
Proof.
  induction n as [|n IH]; intros t l LN N A; [lia|]. destruct A as [t ts l L G]. destruct (lexed_made _ _ _ L) as (_ & _ & Q).
  destruct (lexed_plain cs cs' t ts N L) as [L' N']. econstructor; [exact L'|]. eapply grouped_sub; [|exact G].
  intros v l' I A. apply IH; auto. specialize (Q v I). lia.
Qed.
Lemma plain_agree t : ~ In (chr 255) t -> ~ endless [] t -> ParseAddressList false t = ParseAddressList true t.
Proof.
  intros N E. apply (runs_same (P := endless [] t) (Q := False)); [tauto|apply unsigned_runs| |].
  - right. split; auto. destruct (ParseAddressList_any t) as [X|(l & X & _)]; eauto.
  - intros l. rewrite !ParseAddressList_all. split; apply address_plain with (n := S (length t)); auto; lia.
Qed.
Lemma plain_endless t : ~ In (chr 255) t -> endless [] t -> ParseAddressList true t = perm.
Proof.
  intros N E. destruct (ParseAddressList_any t) as [X|(l & X & _)]; auto. exfalso.
  apply ParseAddressList_all in X. apply (address_plain true false (S (length t))) in X; auto. apply ParseAddressList_all in X.
  apply unsigned_exact in E. congruence.
Qed.

(** ** Cases *)
Definition open_inside : bytes := str "a@b, ""\""c@d"" ; e@f".
Lemma open_inside_case : endless [] open_inside /\ endless [] (str "Jo <a@b> ""x") /\ ~ endless [] (str "<""\""x"" ,""").
Proof.
  split; [|split]; [apply unsigned_exact; vm_compute; reflexivity..|]. intros E. apply unsigned_exact in E. vm_compute in E. discriminate E.
Qed.
