(** C99: the texts that are no address lists, and what is said of them. *)
From Verif Require Import Bytes Outcome Stream Tokenizer ErrorText AddressText SpecText SpecError SpecAddress SpecAddressAll SpecAddressError
  BytesFacts StreamFacts TokenizerFacts QPFacts ListFacts ErrorFacts ShownFacts ErrorList AddressFacts AddressParse ListExact ListWide AddressWide AddressEndless AddressErrors.

Lemma Says_inj {A} a b : (Says a : says A) = Says b -> a = b.
Proof. intros E. injection E as ->. reflexivity. Qed.
Definition pal_next_says (cs : bool) (rec : bytes -> says (list bytes)) (f : nat) (lasttype : addr_tok)
  (tokens : list bytes) (inOpentag : bool) (res : list bytes) (ty : addr_tok) (token : bytes) (s1 : istream)
  : says (list bytes) :=
  if has_char NUL token then Says (str "NUL character in address field")
  else
    let again := pal_loop_says cs rec f s1 ty in
    let flush inOpen :=
      if (inOpen : bool) then Says (str "unclosed < addr-spec >")
      else flushed_says rec (match ty with TOK_SEPARATOR => true | _ => false end) lasttype tokens (fun l => again [] false (res ++ l)) in
    match ty with
    | TOK_QUOTED | TOK_ATOM => again (tokens ++ [token]) inOpentag res
    | TOK_COMMENT => again tokens inOpentag res
    | TOK_TAG_OPEN => again [] true res
    | TOK_TAG_CLOSE => flush false
    | TOK_SEPARATOR | TOK_EOF => flush inOpentag
    end.
Lemma pal_says_tok cs rec f s typ tokens op res ty tk s' : typ <> TOK_EOF -> NextAddressListToken_says cs s = Fine (ty, tk, s') ->
  pal_loop_says cs rec (S f) s typ tokens op res = pal_next_says cs rec f typ tokens op res ty tk s'.
Proof.
  intros T NX. cbn [pal_loop_says]. rewrite NX. cbn [sbind]. unfold pal_next_says, flushed_says.
  destruct typ; try congruence; destruct (has_char NUL tk); try reflexivity; destruct ty; try reflexivity; destruct op; try reflexivity; destruct tokens; rewrite ?app_nil_r; reflexivity.
Qed.
Lemma pal_says_stop cs rec f s typ tokens op res : typ <> TOK_EOF -> (forall a, NextAddressListToken_says cs s <> Fine a) ->
  pal_loop_says cs rec (S f) s typ tokens op res = sbind (NextAddressListToken_says cs s) (fun _ => Endless).
Proof.
  intros T NO. cbn [pal_loop_says]. destruct (NextAddressListToken_says cs s) as [a|m|]; [destruct (NO a eq_refl)| |]; destruct typ; try congruence; reflexivity.
Qed.

(** Nothing of the text is lost. *)
Definition fit (s : istream) : Prop := good s = true \/ s_rest s = [].
Definition holds (n : nat) (s : istream) : Prop := fit s /\ s_size s = n.
Lemma holds_St n s : holds n s <-> exists p r, St s p r /\ length p + length r = n.
Proof.
  split.
  - intros [F E]. exists (s_prev s), (s_rest s). split; [repeat split; auto|exact E].
  - intros (p & r & (A & B & C) & E). unfold holds, fit, s_size. rewrite A, B. auto.
Qed.
Lemma peek_holds n s o s' : holds n s -> peek s = (o, s') -> holds n s'.
Proof.
  intros [F E]. unfold peek. destruct (good s) eqn:G.
  - destruct (s_rest s) as [|c r] eqn:R; intros X; injection X as <- <-; split; auto. right. exact R.
  - intros X. injection X as <- <-. destruct F as [F|F]; [congruence|]. split; auto. right. exact F.
Qed.
Lemma get_holds n s o s' : holds n s -> get s = (o, s') -> holds n s'.
Proof.
  intros [F E]. unfold get. destruct (good s) eqn:G.
  - destruct (s_rest s) as [|c r] eqn:R; intros X; injection X as <- <-; split; auto; try (right; exact R); try (left; reflexivity).
    unfold s_size in *. rewrite R in E. cbn in *. lia.
  - intros X. injection X as <- <-. destruct F as [F|F]; [congruence|]. split; auto. right. exact F.
Qed.
Lemma fws_holds n s w s' : holds n s -> read_fws s = Ok (w, s') -> holds n s'.
Proof.
  intros HO E. apply holds_St in HO as (p & r & H & N). pose proof (read_fws_St _ _ _ H) as R. destruct (l_fws r) as [[w1 r1]|] eqn:W; [|rewrite R in E; discriminate E].
  destruct R as (s1 & R & H1). rewrite R in E. injection E as <- <-. apply holds_St. eexists _, _. split; [exact H1|].
  apply fws_gap, gap_app in W. subst r. rewrite !app_length, rev_length in *. lia.
Qed.
Lemma quoted_holds n cs f : forall s t t' s', holds n s -> quoted_loop cs f s t = Ok (t', s') -> holds n s'.
Proof.
  induction f as [|f IH]; intros s t t' s' H E; [discriminate E|]. cbn [quoted_loop] in E. destruct (get s) as [g s1] eqn:G. pose proof (get_holds _ _ _ _ H G) as H1.
  destruct (cs && (as_char g =?c chr 255)); [discriminate E|]. destruct (as_char g =?c BSLASH).
  - destruct (peek s1) as [[c|] s2] eqn:P; [|discriminate E]. pose proof (peek_holds _ _ _ _ H1 P) as H2. destruct (get s2) as [g2 s3] eqn:G2.
    exact (IH _ _ _ _ (get_holds _ _ _ _ H2 G2) E).
  - destruct (as_char g =?c DQUOTE); [injection E as <- <-; exact H1|exact (IH _ _ _ _ H1 E)].
Qed.
Lemma comment_holds n f : forall d s t t' s', holds n s -> comment_loop f d s t = Ok (t', s') -> holds n s'.
Proof.
  induction f as [|f IH]; intros d s t t' s' H E; [discriminate E|]. destruct d as [|d]; [cbn in E; injection E as <- <-; exact H|].
  rewrite comment_loop_S in E.
  assert (STEP : forall s t, holds n s -> comment_step f (S d) s t = Ok (t', s') -> holds n s').
  { clear - IH. intros s t H E. unfold comment_step in E. destruct (peek s) as [o s5] eqn:P. destruct (get s5) as [g s6] eqn:G.
    pose proof (get_holds _ _ _ _ (peek_holds _ _ _ _ H P) G) as H6. destruct (match o with Some _ => _ | None => _ end); exact (IH _ _ _ _ _ H6 E). }
  destruct (peek s) as [[c|] s1] eqn:P; [|discriminate E]. pose proof (peek_holds _ _ _ _ H P) as H1. destruct (c =?c BSLASH); [|exact (STEP _ _ H1 E)].
  destruct (get s1) as [g s2] eqn:G. pose proof (get_holds _ _ _ _ H1 G) as H2. destruct (peek s2) as [[o|] s3] eqn:P2; [|discriminate E].
  pose proof (peek_holds _ _ _ _ H2 P2) as H3. destruct (get s3) as [g4 s4] eqn:G4. exact (STEP _ _ (get_holds _ _ _ _ H3 G4) E).
Qed.
Lemma tok_holds n cs f : forall s t x s', holds n s -> next_tok cs f s t = Ok (x, s') -> holds n s'.
Proof.
  induction f as [|f IH]; intros s t x s' H E; [discriminate E|]. rewrite next_tok_S in E. destruct (peek s) as [[o|] s0] eqn:P; pose proof (peek_holds _ _ _ _ H P) as H0.
  2:{ unfold finish_tok in E. injection E as _ <-. exact H0. }
  destruct (read_fws s0) as [[w s1]| | |] eqn:R; try discriminate E. cbn [obind] in E. pose proof (fws_holds _ _ _ _ H0 R) as H1.
  assert (BODY : tok_body cs f s1 t = Ok (x, s') -> holds n s').
  { clear E. intros E. unfold tok_body in E. destruct (peek s1) as [[c|] s2] eqn:P1; pose proof (peek_holds _ _ _ _ H1 P1) as H2.
    2:{ unfold finish_tok in E. injection E as _ <-. exact H2. }
    destruct (get s2) as [g s3] eqn:G. pose proof (get_holds _ _ _ _ H2 G) as H3.
    destruct (c =?c DQUOTE).
    { destruct t; [|injection E as _ <-; exact H2]. destruct (quoted_loop cs (fuel_of s3) s3 []) as [[t4 s4]| | |] eqn:Q; try discriminate E. injection E as _ <-. exact (quoted_holds _ _ _ _ _ _ _ H3 Q). }
    destruct (c =?c LPAREN).
    { destruct t; [|injection E as _ <-; exact H2]. destruct (comment_loop (fuel_of s3) 1 s3 []) as [[t4 s4]| | |] eqn:Q; try discriminate E. injection E as _ <-. exact (comment_holds _ _ _ _ _ _ _ H3 Q). }
    destruct (c =?c LANGLE). { destruct t; injection E as _ <-; auto. }
    destruct (c =?c RANGLE). { destruct t; injection E as _ <-; auto. }
    destruct ((c =?c COMMA) || (c =?c SEMI)). { destruct t; injection E as _ <-; auto. }
    exact (IH _ _ _ _ H3 E). }
  destruct w; [exact (BODY E)|]. destruct t; [exact (BODY E)|]. unfold finish_tok in E. injection E as _ <-. exact H1.
Qed.
Lemma next_length cs s p r x s' p' r' : St s p r -> NextAddressListToken cs s = Ok (x, s') -> St s' p' r' -> length p' + length r' = length p + length r.
Proof.
  intros H E H'. assert (HO : holds (length p + length r) s) by (apply holds_St; eauto).
  destruct (tok_holds _ _ _ _ _ _ _ HO E) as [_ <-]. destruct H' as (A & B & _). unfold s_size. rewrite A, B. reflexivity.
Qed.

(** A token at the beginning and half of one, or one with a NUL, exclude each other. *)
Lemma one_Fine cs s p r o r' : St s p r -> one cs r o r' -> exists tk s' p', NextAddressListToken_says cs s = Fine (kind o, tk, s') /\ ~ In NUL0 tk /\ shows o tk /\ St s' p' r'.
Proof.
  intros H O. destruct (one_run _ _ _ _ O s p H) as (tk & s' & p' & E & N & SH & H'). exists tk, s', p'. split; [|auto].
  exact (silent_Ok _ _ _ (next_same cs s) E).
Qed.
Lemma St_at n r : length r <= n -> exists s p, St s p r /\ n = length p + length r.
Proof.
  intros L. set (o := open_str r). exists (mkStream (repeat NUL0 (n - length r)) (s_rest o) (s_eof o) (s_fail o)), (repeat NUL0 (n - length r)).
  split; [repeat split; auto|]. rewrite repeat_length. lia.
Qed.
Lemma one_half cs n r o r' m : length r <= n -> one cs r o r' -> ~ half_token cs n r m.
Proof.
  intros L O B. destruct (St_at n r L) as (s & p & H & N). destruct (one_Fine _ _ _ _ _ _ H O) as (tk & s' & p' & E & _). apply (next_tells cs n s p r H N) in B. congruence.
Qed.
Lemma one_nul cs r o r' : one cs r o r' -> ~ nul_token cs r.
Proof.
  intros O B. destruct (one_run _ _ _ _ O _ _ (St_open r)) as (tk & s' & p' & E & N & _). destruct (nul_run cs r B _ _ (St_open r)) as (ty & tk2 & s2 & E2 & N2). congruence.
Qed.

(** ** By what follows *)
Lemma one_alike cs r o r' o2 r2 : one cs r o r' -> one cs r o2 r2 -> o2 = o /\ r2 = r'.
Proof. intros A B. exact (one_same _ _ _ _ _ _ _ _ (St_open r) A B). Qed.
Lemma refused_token cs n seg r t r1 m : length r <= n -> one cs r (Some t) r1 -> ~ ender t -> refused cs n seg r m <-> refused cs n (seg ++ [t]) r1 m.
Proof.
  intros L O NE. split; [|intros X; eapply rf_next; eauto; intros ->; apply NE; [left|right]; reflexivity].
  intros X. inversion X as [n' seg' r' m' B|n' seg' r' B|n' seg' r' t' r1' m' O' N1 N2 X'|n' seg' r' o' r1' O' T IO|n' seg' r' o' r1' v m' O' EN AV LQ X'|n' seg' r' r1' l m' O' Y X'|n' seg' r' r1' l m' O' NO Y X']; subst.
  - destruct (one_half _ _ _ _ _ _ L O B).
  - destruct (one_nul _ _ _ _ O B).
  - destruct (one_alike _ _ _ _ _ _ O O') as [E <-]. injection E as ->. exact X'.
  - destruct (one_alike _ _ _ _ _ _ O O') as [-> <-]. exfalso. apply NE. destruct T as [E|E]; try discriminate E. injection E as ->. right. reflexivity.
  - destruct (one_alike _ _ _ _ _ _ O O') as [-> <-]. exfalso. apply NE. destruct EN as [E|[[E|E] _]]; try discriminate E; injection E as ->; [left|right]; reflexivity.
  - destruct (one_alike _ _ _ _ _ _ O O') as [E _]. injection E as <-. destruct NE. left. reflexivity.
  - destruct (one_alike _ _ _ _ _ _ O O') as [E _]. injection E as <-. destruct NE. right. reflexivity.
Qed.
Lemma refused_end cs n seg r o r1 m : length r <= n -> one cs r o r1 -> match o with Some t => ender t | None => True end -> ends o seg ->
  refused cs n seg r m <-> (exists v, (o = Some Sep -> In AT v) /\ lone_quoted seg v /\ refused cs (length v) [] v m) \/
    o <> None /\ (exists sep l, (sep = true <-> o = Some Sep) /\ yields (address_text cs) sep seg l) /\ refused cs n [] r1 m.
Proof.
  intros L O T ES. split.
  - intros X. inversion X as [n' seg' r' m' B|n' seg' r' B|n' seg' r' t' r1' m' O' N1 N2 X'|n' seg' r' o' r1' O' TS IO|n' seg' r' o' r1' v m' O' EN AV LQ X'|n' seg' r' r1' l m' O' Y X'|n' seg' r' r1' l m' O' NO Y X']; subst.
    + destruct (one_half _ _ _ _ _ _ L O B).
    + destruct (one_nul _ _ _ _ O B).
    + destruct (one_alike _ _ _ _ _ _ O O') as [<- <-]. destruct T; contradiction.
    + destruct (one_alike _ _ _ _ _ _ O O') as [-> <-]. destruct ES as [->|[_ NO]]; [destruct TS; discriminate|contradiction].
    + destruct (one_alike _ _ _ _ _ _ O O') as [-> <-]. left. eauto.
    + destruct (one_alike _ _ _ _ _ _ O O') as [<- <-]. right. split; [discriminate|]. split; auto.
      exists false, l. split; auto. split; discriminate.
    + destruct (one_alike _ _ _ _ _ _ O O') as [<- <-]. right. split; [discriminate|]. split; auto.
      exists true, l. split; auto. split; auto.
  - intros [(v & A & LQ & X)|(NN & (sep & l & SP & Y) & X)].
    + eapply rf_inside; eauto.
    + destruct o as [t|]; [|congruence]. destruct T as [->| ->].
      * destruct sep; [destruct SP as [SP _]; discriminate (SP eq_refl)|]. eapply rf_close; eauto.
      * destruct sep; [|destruct SP as [_ SP]; discriminate (SP eq_refl)]. destruct ES as [EN|[_ EN]]; [discriminate EN|]. eapply rf_sep; eauto.
Qed.
Lemma refused_open cs n seg r o r1 m : length r <= n -> one cs r o r1 -> o = Some Sep \/ o = None -> In Open seg ->
  refused cs n seg r m <-> m = str "unclosed < addr-spec >".
Proof.
  intros L O T IO. split; [|intros ->; eapply rf_open; eauto].
  intros X. inversion X as [n' seg' r' m' B|n' seg' r' B|n' seg' r' t' r1' m' O' N1 N2 X'|n' seg' r' o' r1' O' TS IO'|n' seg' r' o' r1' v m' O' EN AV LQ X'|n' seg' r' r1' l m' O' Y X'|n' seg' r' r1' l m' O' NO Y X']; subst; auto.
  - destruct (one_half _ _ _ _ _ _ L O B).
  - destruct (one_nul _ _ _ _ O B).
  - destruct (one_alike _ _ _ _ _ _ O O') as [<- <-]. destruct T as [T|T]; [injection T as ->; congruence|discriminate T].
  - destruct (one_alike _ _ _ _ _ _ O O') as [-> <-]. destruct EN as [->|[_ NO]]; [destruct T; discriminate|contradiction].
  - destruct (one_alike _ _ _ _ _ _ O O') as [<- <-]. destruct T; discriminate.
  - contradiction.
Qed.
(** Without a token at the beginning. *)
Lemma refused_start cs n seg r m : (forall o r', ~ one cs r o r') -> refused cs n seg r m <-> half_token cs n r m \/ nul_token cs r /\ m = str "NUL character in address field".
Proof.
  intros NO. split.
  - intros X. inversion X; subst; auto; exfalso; eapply NO; eassumption.
  - intros [B|(B & ->)]; [apply rf_half|apply rf_nul]; auto.
Qed.

(** ** The loop *)
Lemma loop_tells cs rec n : (forall v, length v < n -> (forall l, rec v = Fine l <-> address_text cs v l) /\ tells (refused cs (length v) [] v) (rec v)) ->
  forall f s p r typ seg (op : bool) res, St s p r -> length p + length r = n -> length r + 2 <= f -> segment seg ->
  (forall v, In (Word true v) seg -> length v < n) -> follows seg typ -> (op = true <-> In Open seg) ->
  tells (refused cs n seg r) (pal_loop_says cs rec f s typ (words seg) op res).
Proof.
  intros REC. induction f as [|f IH]; intros s p r typ seg op res H LN F SE QS FO OP; [lia|].
  assert (TE : typ <> TOK_EOF). { destruct FO as [[_ [->| ->]]|(s2 & t & _ & ->)]; try discriminate. destruct t as [[|] v| | | |]; discriminate. }
  assert (LR : length r <= n) by lia.
  pose proof (next_tells cs n s p r H (eq_sym LN)) as NT.
  destruct (NextAddressListToken_says cs s) as [[[ty tk] s']|m0|] eqn:NX.
  2,3: rewrite pal_says_stop; [|exact TE|rewrite NX; discriminate]; rewrite NX; cbn [sbind].
  2:{ assert (NO : forall o r', ~ one cs r o r'). { intros o r' O. destruct (one_Fine _ _ _ _ _ _ H O) as (tk & s' & p' & E & _). congruence. }
      assert (NN : ~ nul_token cs r). { intros B. destruct (nul_run cs r B _ _ H) as (ty & tk & s' & E & _). apply (silent_Ok _ _ _ (next_same cs s)) in E. congruence. }
      intros m. rewrite (refused_start cs n seg r m NO). split.
      - intros E. left. apply NT. injection E as ->. reflexivity.
      - intros [B|(B & _)]; [|contradiction]. apply NT in B. injection B as ->. reflexivity. }
  2:{ assert (NO : forall o r', ~ one cs r o r'). { intros o r' O. destruct (one_Fine _ _ _ _ _ _ H O) as (tk & s' & p' & E & _). congruence. }
      assert (NN : ~ nul_token cs r). { intros B. destruct (nul_run cs r B _ _ H) as (ty & tk & s' & E & _). apply (silent_Ok _ _ _ (next_same cs s)) in E. congruence. }
      apply tells_none; [discriminate|]. intros m B. apply (refused_start cs n seg r m NO) in B as [B|(B & _)]; [|contradiction]. apply NT in B. discriminate B. }
  assert (NOK : NextAddressListToken cs s = Ok (ty, tk, s')). { rewrite <- next_same, NX. reflexivity. }
  rewrite (pal_says_tok cs rec f s typ (words seg) op res ty tk s' TE NX).
  destruct (in_dec ascii_dec NUL0 tk) as [NU|NU].
  { assert (NO : forall o r', ~ one cs r o r'). { intros o r' O. destruct (one_Fine _ _ _ _ _ _ H O) as (tk' & s2 & p' & E & NN & _). congruence. }
    unfold pal_next_says. apply has_char_in in NU as NH. change NUL with NUL0. rewrite NH.
    intros m. rewrite (refused_start cs n seg r m NO). split.
    - intros E. right. split; [eapply nul_back; eauto|]. symmetry. exact (Says_inj _ _ E).
    - intros [B|(_ & ->)]; auto. apply NT in B. discriminate B. }
  destruct (one_back cs s p r ty tk s' H NOK NU) as (o & r' & p' & O & -> & SH & H').
  assert (NUF : has_char NUL tk = false) by (apply NUL_no; exact NU).
  assert (LP' : length p' + length r' = n).
  { rewrite <- LN. eapply next_length; eauto. }
  assert (FLUSH : (op = true -> o = Some Close) -> match o with Some t => ender t | None => True end ->
     tells (refused cs n seg r) (flushed_says rec (match kind o with TOK_SEPARATOR => true | _ => false end) typ (words seg) (fun l => pal_loop_says cs rec f s' (kind o) [] false (res ++ l)))).
  { intros OC T.
    assert (EN : ends o seg).
    { destruct o as [[q v| | | |]|]; [destruct T; discriminate|destruct T; discriminate|destruct T; discriminate|left; reflexivity| |]; right; (split; [auto|]); intros X; apply OP in X; discriminate (OC X). }
    assert (SP : (match kind o with TOK_SEPARATOR => true | _ => false end) = true <-> o = Some Sep).
    { destruct o as [[[|] v| | | |]|]; cbn; split; auto; discriminate. }
    eapply tells_iff; [|apply (flush_tells rec (address_text cs) (fun v => refused cs (length v) [] v) (fun m => o <> None /\ refused cs n [] r' m)); auto].
    - intros m. cbv beta. rewrite (refused_end cs n seg r o r' m LR O T EN). split.
      + intros [(v & A & L & X)|((l & Y) & NN & X)]; [left; exists v; rewrite <- SP; auto|right]. split; auto. split; auto. eauto.
      + intros [(v & A & L & X)|(NN & (sep & l & SP' & Y) & X)]; [left; exists v; rewrite SP; auto|right].
        split; [|auto]. exists l. replace (match kind o with TOK_SEPARATOR => true | _ => false end) with sep; auto.
        apply Bool.eq_iff_eq_true. rewrite SP, SP'. reflexivity.
    - intros l. destruct o as [t|].
      + destruct (one_shorter _ _ _ _ O) as [SH1 _]. eapply tells_iff; [|apply (IH s' p' r' (kind (Some t)) [] false (res ++ l) H'); try lia; [split; intros []|intros v []|left|split; [discriminate|intros []]]].
        * intros m. split; [split; auto; discriminate|tauto].
        * split; auto. destruct T as [->| ->]; cbn; auto.
      + apply tells_none; [|intros m [X _]; congruence]. destruct f as [|f]; [lia|]. cbn. discriminate. }
  destruct o as [t|].
  2:{ unfold pal_next_says. rewrite NUF. cbn [kind] in *. destruct op.
    - intros m. rewrite (refused_open cs n seg r None r' m LR O (or_intror eq_refl)); [|apply OP; reflexivity]. split; [intros E; symmetry; exact (Says_inj _ _ E)|intros ->; reflexivity].
    - apply FLUSH; auto. discriminate. }
  destruct (one_shorter _ _ _ _ O) as [SH1 SH2].
  assert (FO' : follows (seg ++ [t]) (kind (Some t))) by (right; eauto).
  assert (GOON : ~ ender t -> (forall v, t = Word true v -> length v < n) -> forall (op' : bool), (op' = true <-> In Open (seg ++ [t])) ->
     tells (refused cs n seg r) (pal_loop_says cs rec f s' (kind (Some t)) (words (seg ++ [t])) op' res)).
  { intros NE QT op' OP'. eapply tells_iff; [intros m; symmetry; eapply refused_token; eauto|]. apply (IH s' p' r' (kind (Some t)) (seg ++ [t]) op' res H' LP' ltac:(lia)); auto.
    - apply segment_forall, Forall_app. split; [apply segment_forall; auto|]. repeat constructor. exact NE.
    - intros v I. apply in_app_or in I as [I|[I|[]]]; auto. }
  assert (OPS : t <> Open -> (op = true <-> In Open (seg ++ [t]))).
  { intros NO. rewrite OP, in_app_iff. cbn [In]. intuition congruence. }
  unfold pal_next_says. rewrite NUF.
  destruct t as [q v| | | |]; cbn [shows] in SH.
  - subst tk. rewrite words_snoc in GOON. pose proof (GOON ltac:(intros [X|X]; discriminate X) ltac:(intros v' [= -> ->]; cbn in SH2; lia) op (OPS ltac:(discriminate))) as K.
    destruct q; exact K.
  - rewrite words_snoc in GOON. exact (GOON ltac:(intros [X|X]; discriminate X) ltac:(discriminate) op (OPS ltac:(discriminate))).
  - rewrite words_snoc in GOON. assert (OP' : true = true <-> In Open (seg ++ [Open])).
    { split; auto. intros _. apply in_or_app. right. left. reflexivity. }
    exact (GOON ltac:(intros [X|X]; discriminate X) ltac:(discriminate) true OP').
  - cbn [kind] in *. apply FLUSH; auto. left. reflexivity.
  - cbn [kind] in *. destruct op.
    + intros m. rewrite (refused_open cs n seg r (Some Sep) r' m LR O (or_introl eq_refl)); [|apply OP; reflexivity]. split; [intros E; symmetry; exact (Says_inj _ _ E)|intros ->; reflexivity].
    + apply FLUSH; [discriminate|right; reflexivity].
Qed.
Lemma pal_tells cs d : forall t, length t < d -> tells (refused cs (length t) [] t) (pal_says cs d t).
Proof.
  induction d as [|d IH]; intros t L; [lia|]. cbn [pal_says].
  apply (loop_tells cs (pal_says cs d) (length t)) with (p := []) (seg := []).
  - intros v LV. split; [|apply IH; lia]. intros l. rewrite <- (pal_all cs d v l ltac:(lia)), <- pal_same.
    split; [intros ->; reflexivity|]. intros E. exact (silent_Ok _ _ _ eq_refl E).
  - apply St_open.
  - reflexivity.
  - rewrite (St_fuel _ _ _ (St_open t)). lia.
  - split; intros [].
  - intros v [].
  - left. auto.
  - split; [discriminate|intros []].
Qed.
Lemma address_refused cs t m : AddressList_says cs t = Says m <-> refused cs (length t) [] t m.
Proof. apply pal_tells. lia. Qed.
