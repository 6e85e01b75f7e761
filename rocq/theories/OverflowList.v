(** Exactly the lists whose comments overflow the int depth (C106). *)
From Verif Require Import Bytes Outcome Stream Tokenizer IntDepth BytesFacts StreamFacts TokenizerFacts SpecText SpecAddress SpecAddressAll SpecOverflow
  QPFacts ListFacts AddressFacts AddressParse AddressClean ListExact ListWide AddressWide AddressEndless OverflowFacts.

(** ** The end of a segment *)
Lemma flush_either rec rec' (sub : bytes -> list bytes -> Prop) (E : bytes -> Prop) (P : Prop) sep seg typ kont kont' : follows seg typ -> segment seg ->
  (forall v, In (Word true v) seg -> (forall l, rec' v = Ok l <-> sub v l) /\ either (E v) (rec v) (rec' v)) -> (forall l, either P (kont l) (kont' l)) ->
  either ((exists v, (sep = true -> In AT v) /\ lone_quoted seg v /\ E v) \/ (exists l, yields sub sep seg l) /\ P)
    (flushed rec sep typ (words seg) kont) (flushed rec' sep typ (words seg) kont').
Proof.
  intros FO SE RS KO. unfold flushed. destruct (words seg) as [|w0 rest] eqn:W.
  { eapply either_iff; [|apply KO]. split.
    - intros p. right. split; auto. exists []. constructor; auto.
    - intros [(v & _ & (X & _) & _)|[_ p]]; auto. congruence. }
  destruct (follows_quoted seg typ FO SE ltac:(rewrite W; discriminate)) as (Q & NC & NE).
  replace (negb match typ with TOK_TAG_CLOSE => true | _ => false end) with true by (destruct typ; solve [reflexivity|congruence]).
  rewrite <- W. rewrite Bool.andb_true_r.
  assert (LQ : forall v, lone_quoted seg v -> typ = TOK_QUOTED /\ rest = [] /\ w0 = v).
  { intros v (X & Y). rewrite W in X. injection X as <- ->. split; auto. apply Q. destruct Y as (s2 & Y). eauto. }
  destruct (sep && negb (has_char AT (last (words seg) []))) eqn:D.
  { apply Bool.andb_true_iff in D as [D1 D2]. apply Bool.negb_true_iff, has_char_false in D2.
    eapply either_iff; [|apply KO]. split.
    - intros p. right. split; auto. exists []. apply y_name; auto.
    - intros [(v & A & (X & _) & _)|[_ p]]; auto. rewrite X in D2. destruct (D2 (A D1)). }
  assert (KEEP : sep = true -> In AT (last (words seg) [])).
  { intros ->. cbn in D. apply Bool.negb_false_iff, has_char_in in D. exact D. }
  assert (CASE : (typ = TOK_QUOTED /\ rest = []) \/ ~ (typ = TOK_QUOTED /\ rest = [])).
  { destruct typ; try (right; intros [X _]; discriminate X). destruct rest; [left; auto|right; intros [_ X]; discriminate X]. }
  destruct CASE as [[-> ->]|NL].
  - assert (LO : lone_quoted seg w0).
    { split; auto. destruct Q as [Q _]. destruct (Q eq_refl) as (s2 & v & ->). exists s2. rewrite words_snoc in W. apply (app_inj_tail _ []) in W as [_ ->]. reflexivity. }
    assert (IW : In (Word true w0) seg). { destruct LO as (_ & s2 & ->). apply in_or_app. right. left. reflexivity. }
    destruct (RS w0 IW) as [RO [[e R]|[n R]]].
    { left. rewrite R. split; auto. left. exists w0. split; [|auto]. rewrite W in KEEP. exact KEEP. }
    rewrite R.
    assert (NOY : (forall a, rec' w0 <> Ok a) -> ~ ((exists v, (sep = true -> In AT v) /\ lone_quoted seg v /\ E v) \/ (exists l, yields sub sep seg l) /\ P)).
    { intros NO [(v & _ & L & e)|[(l & Y) _]].
      * destruct (LQ v L) as (_ & _ & <-). auto.
      * destruct Y as [Y|SP Y|v l A L S|A N L].
        -- rewrite W in Y. discriminate Y.
        -- destruct (Y (KEEP SP)).
        -- destruct (LQ v L) as (_ & _ & <-). apply RO in S. destruct (NO _ S).
        -- destruct L. eauto. }
    destruct (rec' w0) as [addrs|e|u|] eqn:R'; cbn [obind]; try (right; split; [apply NOY; discriminate|reflexivity]).
    eapply either_iff; [|apply KO]. split.
    + intros p. right. split; auto. exists addrs. apply (y_list _ _ _ w0); auto. { rewrite W in KEEP. exact KEEP. } apply RO. reflexivity.
    + intros [(v & _ & L & e)|[_ p]]; auto. destruct (LQ v L) as (_ & _ & <-). contradiction.
  - assert (PL : forall r k, (match typ with TOK_QUOTED => match rest with [] => let* addrs := r w0 in k addrs | _ :: _ => k [concat (words seg)] end | _ => k [concat (words seg)] end)
      = k [concat (words seg)] :> outcome (list bytes)) by (intros r k; destruct typ, rest; auto; destruct NL; auto).
    rewrite !PL.
    assert (NLO : ~ exists v, lone_quoted seg v). { intros (v & L). destruct (LQ v L) as (X & Y & _). auto. }
    eapply either_iff; [|apply KO]. split.
    + intros p. right. split; auto. exists [concat (words seg)]. apply y_address; auto. rewrite W. discriminate.
    + intros [(v & _ & L & e)|[_ p]]; auto. destruct NLO. eauto.
Qed.

(** ** The loop *)
Lemma overdeep_token cs s p seg r t r1 : St s p r -> ~ deep_comment r -> one cs r (Some t) r1 -> ~ ender t -> overdeep cs seg r <-> overdeep cs (seg ++ [t]) r1.
Proof.
  intros H ND O NE. split; [|intros X; eapply od_token; eauto; intros ->; apply NE; [left|right]; reflexivity].
  intros X. inversion X as [seg' r' DD|seg' r' t' r1' O' N1 N2 X'|seg' r' o' r1' v O' EN AV L X'|seg' r' r1' l O' Y X'|seg' r' r1' l O' NO Y X']; subst.
  - contradiction.
  - destruct (one_same _ _ _ _ _ _ _ _ H O O') as [E <-]. injection E as ->. exact X'.
  - destruct (one_same _ _ _ _ _ _ _ _ H O O') as [-> <-]. exfalso. apply NE. destruct EN as [E|[[E|E] _]]; try discriminate E; injection E as ->; [left|right]; reflexivity.
  - destruct (one_same _ _ _ _ _ _ _ _ H O O') as [E _]. injection E as <-. destruct NE. left. reflexivity.
  - destruct (one_same _ _ _ _ _ _ _ _ H O O') as [E _]. injection E as <-. destruct NE. right. reflexivity.
Qed.
Lemma overdeep_end cs s p seg r o r1 : St s p r -> ~ deep_comment r -> one cs r o r1 -> match o with Some t => ender t | None => True end ->
  overdeep cs seg r <-> ends o seg /\ ((exists v, (o = Some Sep -> In AT v) /\ lone_quoted seg v /\ overdeep cs [] v) \/
    o <> None /\ (exists sep l, (sep = true <-> o = Some Sep) /\ yields (address_text cs) sep seg l) /\ overdeep cs [] r1).
Proof.
  intros H ND O T. split.
  - intros X. inversion X as [seg' r' DD|seg' r' t' r1' O' N1 N2 X'|seg' r' o' r1' v O' EN AV L X'|seg' r' r1' l O' Y X'|seg' r' r1' l O' NO Y X']; subst.
    + contradiction.
    + destruct (one_same _ _ _ _ _ _ _ _ H O O') as [<- <-]. destruct T; contradiction.
    + destruct (one_same _ _ _ _ _ _ _ _ H O O') as [-> <-]. split; auto. left. eauto.
    + destruct (one_same _ _ _ _ _ _ _ _ H O O') as [<- <-]. split; [left; reflexivity|]. right. split; [discriminate|]. split; auto.
      exists false, l. split; auto. split; discriminate.
    + destruct (one_same _ _ _ _ _ _ _ _ H O O') as [<- <-]. split; [right; auto|]. right. split; [discriminate|]. split; auto.
      exists true, l. split; auto. split; auto.
  - intros (EN & [(v & A & L & X)|(NN & (sep & l & SP & Y) & X)]).
    + eapply od_inside; eauto.
    + destruct o as [t|]; [|congruence]. destruct T as [->| ->].
      * destruct sep; [destruct SP as [SP _]; discriminate (SP eq_refl)|]. eapply od_close; eauto.
      * destruct sep; [|destruct SP as [_ SP]; discriminate (SP eq_refl)]. destruct EN as [EN|[_ EN]]; [discriminate EN|]. eapply od_sep; eauto.
Qed.

(** What the loop does with a token. *)
Definition next_with (loop : istream -> addr_tok -> list bytes -> bool -> list bytes -> outcome (list bytes)) (rec : bytes -> outcome (list bytes))
  (typ : addr_tok) (tokens : list bytes) (op : bool) (res : list bytes) (ty : addr_tok) (tk : bytes) (s' : istream) : outcome (list bytes) :=
  if has_char NUL tk then perm
  else match ty with
       | TOK_QUOTED | TOK_ATOM => loop s' ty (tokens ++ [tk]) op res
       | TOK_COMMENT => loop s' ty tokens op res
       | TOK_TAG_OPEN => loop s' ty [] true res
       | TOK_TAG_CLOSE => flushed rec false typ tokens (fun l => loop s' ty [] false (res ++ l))
       | TOK_SEPARATOR => if op then perm else flushed rec true typ tokens (fun l => loop s' ty [] false (res ++ l))
       | TOK_EOF => if op then perm else flushed rec false typ tokens (fun l => loop s' ty [] false (res ++ l))
       end.
Lemma plain_step cs rec f s typ tokens op res : typ <> TOK_EOF ->
  pal_loop cs rec (S f) s typ tokens op res = obind (NextAddressListToken cs s) (fun x => next_with (pal_loop cs rec f) rec typ tokens op res (fst (fst x)) (snd (fst x)) (snd x)).
Proof.
  intros T. cbn [pal_loop]. destruct (NextAddressListToken cs s) as [[[ty tk] s']| | |]; cbn [obind fst snd]; [|destruct typ; congruence..].
  unfold next_with, flushed. rewrite ?app_nil_r. destruct typ; [..|congruence]; destruct (has_char NUL tk); try reflexivity; destruct ty, op; reflexivity.
Qed.
Lemma int_step cs rec f s typ tokens op res : typ <> TOK_EOF ->
  pal_loop_int cs rec (S f) s typ tokens op res = obind (NextAddressListToken_int cs s) (fun x => next_with (pal_loop_int cs rec f) rec typ tokens op res (fst (fst x)) (snd (fst x)) (snd x)).
Proof.
  intros T. cbn [pal_loop_int]. destruct (NextAddressListToken_int cs s) as [[[ty tk] s']| | |]; cbn [obind fst snd]; [|destruct typ; congruence..].
  unfold next_with, flushed. rewrite ?app_nil_r. destruct typ; [..|congruence]; destruct (has_char NUL tk); try reflexivity; destruct ty, op; reflexivity.
Qed.

Lemma loop_either cs rec rec' n : (forall v, length v < n -> (forall l, rec' v = Ok l <-> address_text cs v l) /\ either (overdeep cs [] v) (rec v) (rec' v)) ->
  forall f s p r typ seg (op : bool) res, St s p r -> length r + 2 <= f -> length r <= n -> segment seg ->
  (forall v, In (Word true v) seg -> length v < n) -> follows seg typ -> (op = true <-> In Open seg) ->
  either (overdeep cs seg r) (pal_loop_int cs rec f s typ (words seg) op res) (pal_loop cs rec' f s typ (words seg) op res).
Proof.
  intros REC. induction f as [|f IH]; intros s p r typ seg op res H F LN SE QS FO OP; [lia|].
  assert (TE : typ <> TOK_EOF). { destruct FO as [[_ [->| ->]]|(s2 & t & _ & ->)]; try discriminate. destruct t as [[|] v| | | |]; discriminate. }
  rewrite plain_step, int_step by exact TE.
  destruct (next_either cs s p r H) as [[DD E]|[ND E]]; rewrite E.
  { left. split; [apply od_comment; exact DD|reflexivity]. }
  assert (NOTOK : (forall o r', ~ one cs r o r') -> ~ overdeep cs seg r).
  { intros NO X. inversion X; subst; solve [contradiction|eapply NO; eassumption]. }
  destruct (NextAddressListToken cs s) as [[[ty tk] s']|e|u|] eqn:NX; cbn [obind fst snd];
    try (right; split; [apply NOTOK; intros o r' O; destruct (one_run _ _ _ _ O s p H) as (tk' & s1 & p1 & E1 & _); rewrite NX in E1; discriminate E1|reflexivity]).
  unfold next_with. destruct (has_char NUL tk) eqn:HN.
  { right. split; [|reflexivity]. apply has_char_in in HN. apply NOTOK. intros o r' O. destruct (one_run _ _ _ _ O s p H) as (tk' & s1 & p1 & E1 & NN & _). rewrite NX in E1. injection E1 as _ <- _. exact (NN HN). }
  apply has_char_false in HN.
  destruct (one_back cs s p r ty tk s' H NX HN) as (o & r' & p' & O & -> & SH & H').
  assert (FLUSH : (op = true -> o = Some Close) -> match o with Some t => ender t | None => True end ->
     either (overdeep cs seg r) (flushed rec (match kind o with TOK_SEPARATOR => true | _ => false end) typ (words seg) (fun l => pal_loop_int cs rec f s' (kind o) [] false (res ++ l)))
       (flushed rec' (match kind o with TOK_SEPARATOR => true | _ => false end) typ (words seg) (fun l => pal_loop cs rec' f s' (kind o) [] false (res ++ l)))).
  { intros OC T.
    assert (EN : ends o seg).
    { destruct o as [[q v| | | |]|]; [destruct T; discriminate|destruct T; discriminate|destruct T; discriminate|left; reflexivity| |]; right; (split; [auto|]); intros X; apply OP in X; discriminate (OC X). }
    assert (SP : (match kind o with TOK_SEPARATOR => true | _ => false end) = true <-> o = Some Sep).
    { destruct o as [[[|] v| | | |]|]; cbn; split; auto; discriminate. }
    eapply either_iff; [|apply (flush_either rec rec' (address_text cs) (overdeep cs []) (o <> None /\ overdeep cs [] r')); auto].
    - rewrite (overdeep_end cs s p seg r o r' H ND O T). split.
      + intros [(v & A & L & X)|((l & Y) & NN & X)]; (split; [exact EN|]); [left; exists v; rewrite <- SP; auto|right]. split; auto. split; auto. eauto.
      + intros (_ & [(v & A & L & X)|(NN & (sep & l & SP' & Y) & X)]); [left; exists v; rewrite SP; auto|right].
        split; [|auto]. exists l. replace (match kind o with TOK_SEPARATOR => true | _ => false end) with sep; auto.
        apply Bool.eq_iff_eq_true. rewrite SP, SP'. reflexivity.
    - intros l. destruct o as [t|].
      + destruct (one_shorter _ _ _ _ O) as [SH1 _]. eapply either_iff; [|apply (IH s' p' r' (kind (Some t)) [] false (res ++ l) H'); try lia; [split; intros []|intros v []|left|split; [discriminate|intros []]]].
        * split; [split; auto; discriminate|tauto].
        * split; auto. destruct T as [->| ->]; cbn; auto.
      + right. split; [intros [X _]; congruence|]. destruct f as [|f]; [lia|]. reflexivity. }
  destruct o as [t|].
  2:{ cbn [kind] in *. destruct op.
    - right. split; [|reflexivity]. intros X. apply (overdeep_end cs s p seg r None r' H ND O I) in X as ([X|[_ X]] & _); [discriminate X|].
      apply X, OP. reflexivity.
    - apply FLUSH; auto. discriminate. }
  destruct (one_shorter _ _ _ _ O) as [SH1 SH2].
  assert (FO' : follows (seg ++ [t]) (kind (Some t))) by (right; eauto).
  assert (GOON : ~ ender t -> (forall v, t = Word true v -> length v < n) -> forall (op' : bool), (op' = true <-> In Open (seg ++ [t])) ->
     either (overdeep cs seg r) (pal_loop_int cs rec f s' (kind (Some t)) (words (seg ++ [t])) op' res) (pal_loop cs rec' f s' (kind (Some t)) (words (seg ++ [t])) op' res)).
  { intros NE QT op' OP'. eapply either_iff; [symmetry; eapply overdeep_token; eauto|]. apply (IH s' p' r' (kind (Some t)) (seg ++ [t]) op' res H' ltac:(lia) ltac:(lia)); auto.
    - apply segment_forall, Forall_app. split; [apply segment_forall; auto|]. repeat constructor. exact NE.
    - intros v I. apply in_app_or in I as [I|[I|[]]]; auto. }
  assert (OPS : t <> Open -> (op = true <-> In Open (seg ++ [t]))).
  { intros NO. rewrite OP, in_app_iff. cbn [In]. intuition congruence. }
  destruct t as [q v| | | |]; cbn [shows] in SH.
  - subst tk. rewrite words_snoc in GOON. pose proof (GOON ltac:(intros [X|X]; discriminate X) ltac:(intros v' [= -> ->]; cbn in SH2; lia) op (OPS ltac:(discriminate))) as K.
    destruct q; exact K.
  - rewrite words_snoc in GOON. exact (GOON ltac:(intros [X|X]; discriminate X) ltac:(discriminate) op (OPS ltac:(discriminate))).
  - rewrite words_snoc in GOON. assert (OP' : true = true <-> In Open (seg ++ [Open])).
    { split; auto. intros _. apply in_or_app. right. left. reflexivity. }
    exact (GOON ltac:(intros [X|X]; discriminate X) ltac:(discriminate) true OP').
  - cbn [kind] in *. apply FLUSH; auto. left. reflexivity.
  - cbn [kind] in *. destruct op.
    + right. split; [|reflexivity]. intros X. apply (overdeep_end cs s p seg r (Some Sep) r' H ND O (or_intror eq_refl)) in X as ([X|[_ X]] & _); [discriminate X|].
      apply X, OP. reflexivity.
    + apply FLUSH; [discriminate|right; reflexivity].
Qed.
Lemma pal_either cs d : forall t, length t < d -> either (overdeep cs [] t) (pal_int cs d t) (pal cs d t).
Proof.
  induction d as [|d IH]; intros t L; [lia|]. cbn [pal_int pal].
  apply (loop_either cs (pal_int cs d) (pal cs d) (length t)) with (p := []) (seg := []).
  - intros v LV. split; [intros l; apply pal_all; lia|apply IH; lia].
  - apply St_open.
  - rewrite (St_fuel _ _ _ (St_open t)). lia.
  - lia.
  - split; intros [].
  - intros v [].
  - left. auto.
  - split; [discriminate|intros []].
Qed.
Lemma list_either cs t : either (overdeep cs [] t) (ParseAddressList_int cs t) (ParseAddressList cs t).
Proof. apply pal_either. lia. Qed.
