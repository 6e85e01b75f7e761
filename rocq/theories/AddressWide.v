(** What ParseAddressList makes of every text (for C75). *)
From Verif Require Import Bytes Outcome Stream Tokenizer BytesFacts StreamFacts TokenizerFacts SpecText SpecAddress SpecAddressAll
  QPFacts ListFacts AddressFacts AddressParse AddressClean ListExact ListWide Examples.

(** ** Whitespace *)
Lemma clear_stops r : first_ok (fun c => ~ WSP c /\ c <> CR) r <-> stops r.
Proof.
  destruct r as [|c r]; cbn; [tauto|]. split; intros [A B]; split; auto.
  - apply not_WSP_b. exact A.
  - intros W. apply WSP_b in W. congruence.
Qed.
Lemma gap_fws r w r' : gap r w r' -> l_fws r = Some (w, r').
Proof.
  intros G. destruct G as [r C|u r U N|u r U NE C|u v r U V NE N].
  - apply l_fws_stops, clear_stops, C.
  - apply l_fws_stray; auto.
  - apply FWS_l_fws; [constructor; auto|apply clear_stops, C].
  - unfold l_fws. rewrite (span_wsps u (CRLF ++ v ++ r) U (CR_no_wsp _)). change (CRLF ++ v ++ r) with (CR :: LF :: v ++ r). cbv iota beta.
    rewrite !ceqb_refl, (span_wsps v r V N). destruct v as [|c v]; [congruence|]. reflexivity.
Qed.
Lemma fws_gap r w r' : l_fws r = Some (w, r') -> gap r w r'.
Proof.
  intros E. pose proof (l_fws_cases r) as K. rewrite E in K. destruct w as [|c w].
  - destruct K as (-> & [S|(u & r2 & -> & U & N)]); [apply gap_none, clear_stops, S|apply gap_stray; auto].
  - destruct K as (-> & N & [[W S]|(u & d & b & EQ & U & D & B)]).
    + apply gap_plain; auto; [discriminate|apply clear_stops, S].
    + rewrite EQ. rewrite <- !app_assoc. apply gap_fold; auto. discriminate.
Qed.
Lemma gap_app r w r' : gap r w r' -> r = w ++ r'.
Proof. intros []; cbn; rewrite <- ?app_assoc; reflexivity. Qed.
Lemma gap_empty w r' : gap [] w r' -> w = [] /\ r' = [].
Proof. intros G. apply gap_app in G. destruct w; [auto|discriminate]. Qed.

(** ** Words *)
Lemma special_dec c : {special c} + {~ special c}.
Proof. apply in_dec. apply ascii_dec. Qed.
Lemma special_tests c : ~ special c ->
  (c =?c DQUOTE) = false /\ (c =?c LPAREN) = false /\ (c =?c LANGLE) = false /\ (c =?c RANGLE) = false /\
  (c =?c COMMA) || (c =?c SEMI) = false.
Proof.
  intros N. unfold special in N. cbn in N.
  repeat split; try (apply Bool.orb_false_iff; split); apply ceqb_neq; intros ->; apply N; auto 7.
Qed.
Lemma special_stops c r : special c -> stops (c :: r).
Proof. intros X. repeat (destruct X as [<-|X]; [split; [reflexivity|discriminate]|]). destruct X. Qed.
Lemma special_end cs f s p c r x token : St s p (c :: r) -> special c ->
  tok_body cs f s (x :: token) = Ok (TOK_ATOM, x :: token, s).
Proof.
  intros H X. unfold tok_body. peek_at H. repeat (destruct X as [<-|X]; [reflexivity|]). destruct X.
Qed.
Lemma plain_next cs f s p c r token : St s p (c :: r) -> ~ special c ->
  exists s', tok_body cs f s token = next_tok cs f s' (token ++ [c]) /\ St s' (c :: p) r.
Proof.
  intros H X. unfold tok_body. peek_at H. destruct (special_tests c X) as (-> & -> & -> & -> & ->).
  get_at H. cbn [as_char]. exists s0. auto.
Qed.
(** A word in progress: the model follows the relation. *)
Lemma word_run cs r a r' : word_rest r a r' -> forall f s p x token, St s p r -> length r < f ->
  exists s' p', next_tok cs f s (x :: token) = Ok (TOK_ATOM, x :: token ++ a, s') /\ St s' p' r'.
Proof.
  induction 1 as [|r w r' G NE|c r X|c r a r' G X W IH]; intros f s p x token H L; (destruct f as [|f]; [lia|]); rewrite next_tok_S.
  - peek_at H. exists s0, p. rewrite app_nil_r. auto.
  - destruct r as [|c r]; [apply gap_empty in G; destruct G; congruence|]. peek_at H.
    pose proof (read_fws_St _ _ _ H) as R. rewrite (gap_fws _ _ _ G) in R. destruct R as (s' & R & H'). rewrite R. cbn [obind].
    destruct w as [|y w]; [congruence|]. exists s', (rev (y :: w) ++ p). rewrite app_nil_r. auto.
  - peek_at H. pose proof (read_fws_St _ _ _ H) as R. rewrite (l_fws_stops _ (special_stops c r X)) in R. destruct R as (s' & R & H').
    rewrite R. cbn [obind]. rewrite (special_end cs f s' _ c r x token H' X). rewrite app_nil_r. eauto.
  - peek_at H. pose proof (read_fws_St _ _ _ H) as R. rewrite (gap_fws _ _ _ G) in R. destruct R as (s' & R & H'). rewrite R. cbn [obind].
    destruct (plain_next cs f s' _ c r (x :: token) H' X) as (s2 & -> & H2). cbn [app length] in *.
    destruct (IH f s2 _ x (token ++ [c]) H2 ltac:(lia)) as (s3 & p3 & -> & H3). exists s3, p3. rewrite <- app_assoc. auto.
Qed.
Lemma word_back cs f : forall s p r x token ty t s', St s p r -> next_tok cs f s (x :: token) = Ok (ty, t, s') ->
  exists a r' p', word_rest r a r' /\ ty = TOK_ATOM /\ t = x :: token ++ a /\ St s' p' r'.
Proof.
  induction f as [|f IH]; intros s p r x token ty t s' H E; [discriminate E|]. rewrite next_tok_S in E.
  revert E. destruct r as [|c r]; peek_at H; intros EQ.
  { unfold finish_tok in EQ. injection EQ as <- <- <-. exists [], [], p. rewrite app_nil_r. split; [constructor|auto]. }
  pose proof (read_fws_St _ _ _ H) as R. destruct (l_fws (c :: r)) as [[w r1]|] eqn:W.
  2:{ rewrite R in EQ. discriminate EQ. }
  destruct R as (s1 & R & H1). rewrite R in EQ. cbn [obind] in EQ. apply fws_gap in W.
  destruct w as [|y w].
  2:{ unfold finish_tok in EQ. injection EQ as <- <- <-. eexists [], r1, _. rewrite app_nil_r. split; [|eauto]. econstructor; eauto. discriminate. }
  pose proof (gap_app _ _ _ W) as A. cbn in A. subst r1.
  destruct (special_dec c) as [X|X].
  - rewrite (special_end cs f s1 _ c r x token H1 X) in EQ. injection EQ as <- <- <-. eexists [], (c :: r), _. rewrite app_nil_r.
    split; [constructor; auto|eauto].
  - destruct (plain_next cs f s1 _ c r (x :: token) H1 X) as (s2 & EN & H2). rewrite EN in EQ. cbn [app] in EQ.
    destruct (IH _ _ _ _ _ _ _ _ H2 EQ) as (a & r' & p' & WR & -> & -> & H'). exists (c :: a), r', p'.
    rewrite <- app_assoc. split; [constructor; auto|auto].
Qed.

(** ** Quoted strings *)
Lemma quoted_run cs q v : quoted cs q v -> forall f s p r token, St s p (q ++ DQ :: r) -> length (q ++ DQ :: r) < f ->
  exists s' p', quoted_loop cs f s token = Ok (token ++ v, s') /\ St s' p' r.
Proof.
  induction 1 as [|c q v D B Y Q IH|c q v Q IH]; intros f s p r token H L; (destruct f as [|f]; [cbn in L; lia|]); cbn [quoted_loop app length] in *.
  - get_at H. cbn [as_char]. replace (DQ =?c chr 255) with false by reflexivity. rewrite Bool.andb_false_r.
    replace (DQ =?c BSLASH) with false by reflexivity. replace (DQ =?c DQUOTE) with true by reflexivity. rewrite app_nil_r. eauto.
  - get_at H. cbn [as_char]. replace (cs && (c =?c chr 255)) with false.
    2:{ destruct cs; auto. cbn. symmetry. apply ceqb_neq. auto. }
    replace (c =?c BSLASH) with false by (symmetry; apply ceqb_neq; auto). replace (c =?c DQUOTE) with false by (symmetry; apply ceqb_neq; auto).
    destruct (IH f s0 _ r (token ++ [c]) H0 ltac:(lia)) as (s2 & p2 & -> & H2). rewrite <- app_assoc. eauto.
  - get_at H. cbn [as_char]. replace (BS =?c chr 255) with false by reflexivity. rewrite Bool.andb_false_r.
    replace (BS =?c BSLASH) with true by reflexivity. peek_at H0. get_at H0. cbn [as_char].
    destruct (IH f s1 _ r (token ++ [c]) H1 ltac:(lia)) as (s3 & p3 & -> & H3). rewrite <- app_assoc. eauto.
Qed.
Lemma quoted_forever f : forall s p token x, St s p [] -> quoted_loop false f s token <> Ok x.
Proof. intros s p token x H. rewrite (quoted_loop_forever f s p token H). discriminate. Qed.
Lemma quoted_back cs f : forall s p r token t s', St s p r -> quoted_loop cs f s token = Ok (t, s') ->
  exists q v r' p', r = q ++ DQ :: r' /\ quoted cs q v /\ t = token ++ v /\ St s' p' r'.
Proof.
  induction f as [|f IH]; intros s p r token t s' H E; [discriminate E|].
  destruct r as [|c r].
  { exfalso. destruct cs.
    - cbn [quoted_loop] in E. revert E. get_at H. intros EQ. cbn [as_char andb] in EQ. rewrite ceqb_refl in EQ. discriminate EQ.
    - exact (quoted_forever (S f) _ _ _ _ H E). }
  cbn [quoted_loop] in E. revert E. get_at H. cbn [as_char]. intros EQ.
  destruct (cs && (c =?c chr 255)) eqn:Y; [discriminate EQ|].
  destruct (c =?c BSLASH) eqn:B.
  - apply ceqb_eq in B. subst c. revert EQ. destruct r as [|d r]; peek_at H0; [discriminate|]. get_at H0. cbn [as_char]. intros EQ.
    destruct (IH _ _ _ _ _ _ H1 EQ) as (q & v & r' & p' & -> & Q & -> & H'). exists (BS :: d :: q), (d :: v), r', p'.
    rewrite <- app_assoc. split; auto. split; [constructor; auto|auto].
  - destruct (c =?c DQUOTE) eqn:D.
    + apply ceqb_eq in D. subst c. injection EQ as <- <-. exists [], [], r, (DQUOTE :: p). rewrite app_nil_r. split; auto. split; [constructor|auto].
    + destruct (IH _ _ _ _ _ _ H0 EQ) as (q & v & r' & p' & -> & Q & -> & H'). exists (c :: q), (c :: v), r', p'.
      rewrite <- app_assoc. split; auto. split; [|auto]. constructor; auto.
      * intros ->. discriminate D.
      * intros ->. discriminate B.
      * intros ->. intros ->. discriminate Y.
Qed.
Lemma quoted_length cs q v : quoted cs q v -> length v <= length q.
Proof. induction 1; cbn [length]; lia. Qed.

(** ** Comments *)
(** Between the bytes, [b] says that the second half of a step comes next. *)
Definition in_comment (b : bool) (f d : nat) (s : istream) (token : bytes) : outcome (bytes * istream) :=
  if b then comment_step f d s token else comment_loop (S f) d s token.
Lemma comment_run b0 d0 a0 : skipped b0 d0 a0 -> forall f s p r token, St s p (a0 ++ r) -> length (a0 ++ r) <= f ->
  exists t s' p', in_comment b0 f d0 s token = Ok (t, s') /\ St s' p' r /\ (In NUL0 t <-> In NUL0 token \/ In NUL0 a0).
Proof.
  assert (POS : forall b d a, skipped b d a -> exists d', d = S d').
  { clear. induction 1; eauto. }
  assert (GO : forall b f d c s p r token, St s p (c :: r) -> (b = false -> c <> BS) ->
     in_comment b f (S d) s token = comment_step f (S d) s token).
  { intros b f d c s p r token H B. destruct b; auto. cbn [in_comment]. rewrite comment_loop_S. peek_at H.
    replace (c =?c BSLASH) with false by (symmetry; apply ceqb_neq; auto). reflexivity. }
  induction 1 as [b|b d a K IH|b d a K IH|b d c a L R B K IH|d c a K IH]; intros f s p r token H LN; cbn [app length] in *.
  - rewrite (GO b f 0 RP s p r token H ltac:(intros; discriminate)). unfold comment_step. peek_at H.
    replace (RP =?c LPAREN) with false by reflexivity. replace (RP =?c RPAREN) with true by reflexivity. get_at H. cbn [pred].
    destruct f as [|f]; [lia|]. cbn [comment_loop]. exists token, s0, (RP :: p). split; auto. split; auto.
    split; auto. intros [X|[X|[]]]; auto. discriminate X.
  - rewrite (GO b f (S d) RP s p _ token H ltac:(intros; discriminate)). unfold comment_step. peek_at H.
    replace (RP =?c LPAREN) with false by reflexivity. replace (RP =?c RPAREN) with true by reflexivity. get_at H. cbn [pred as_char].
    destruct f as [|f]; [lia|]. destruct (IH f s0 _ r (token ++ [RP]) H0 ltac:(lia)) as (t & s2 & p2 & EQ & H2 & NU). cbn [in_comment] in EQ.
    exists t, s2, p2. split; [exact EQ|]. split; auto. rewrite NU, in_app_iff. cbn [In]. split; intros; intuition (try discriminate; auto).
  - rewrite (GO b f d LP s p _ token H ltac:(intros; discriminate)). unfold comment_step. peek_at H.
    replace (LP =?c LPAREN) with true by reflexivity. get_at H. cbn [as_char].
    destruct f as [|f]; [lia|]. destruct (IH f s0 _ r (token ++ [LP]) H0 ltac:(lia)) as (t & s2 & p2 & EQ & H2 & NU). cbn [in_comment] in EQ.
    exists t, s2, p2. split; [exact EQ|]. split; auto. rewrite NU, in_app_iff. cbn [In]. split; intros; intuition (try discriminate; auto).
  - destruct (POS _ _ _ K) as (d' & ->).
    rewrite (GO b f d' c s p _ token H B). unfold comment_step. peek_at H.
    replace (c =?c LPAREN) with false by (symmetry; apply ceqb_neq; auto). replace (c =?c RPAREN) with false by (symmetry; apply ceqb_neq; auto).
    get_at H. cbn [as_char].
    destruct f as [|f]; [lia|]. destruct (IH f s0 _ r (token ++ [c]) H0 ltac:(lia)) as (t & s2 & p2 & EQ & H2 & NU). cbn [in_comment] in EQ.
    exists t, s2, p2. split; [exact EQ|]. split; auto. rewrite NU, in_app_iff. cbn [In]. split; intros; intuition (try discriminate; auto).
  - destruct (POS _ _ _ K) as (d' & ->). cbn [in_comment]. rewrite comment_loop_S. peek_at H. replace (BS =?c BSLASH) with true by reflexivity.
    get_at H. peek_at H0. get_at H0. cbn [as_char].
    destruct (IH f s1 _ r (token ++ [c]) H1 ltac:(lia)) as (t & s2 & p2 & EQ & H2 & NU). cbn [in_comment] in EQ.
    exists t, s2, p2. split; [exact EQ|]. split; auto. rewrite NU, in_app_iff. cbn [In]. split; intros; intuition (try discriminate; auto).
Qed.

Lemma skipped_weaken d c a : skipped true d (c :: a) -> c <> BS -> skipped false d (c :: a).
Proof. intros K N. inversion K; subst; constructor; auto. Qed.
Lemma skipped_nil b d : ~ skipped b d [].
Proof. intros K. inversion K. Qed.
Definition comment_left (b : bool) (d : nat) (r token t : bytes) (s' : istream) : Prop :=
  exists a r' p', r = a ++ r' /\ skipped b d a /\ St s' p' r' /\ (In NUL0 t <-> In NUL0 token \/ In NUL0 a).
Lemma left_cons b d d' c r token t s' : comment_left false d r (token ++ [c]) t s' ->
  (forall a, skipped false d a -> skipped b d' (c :: a)) -> comment_left b d' (c :: r) token t s'.
Proof.
  intros (a & r' & p' & -> & K & H & NU) X. exists (c :: a), r', p'. split; auto. split; auto. split; auto.
  rewrite NU, in_app_iff. cbn [In]. tauto.
Qed.
Lemma comment_back f : forall b d s p r token t s', St s p r -> in_comment b f (S d) s token = Ok (t, s') -> comment_left b (S d) r token t s'.
Proof.
  induction f as [|f IH].
  { intros b d s p r token t s' H. assert (N : forall s token, comment_step 0 (S d) s token <> Ok (t, s')).
    { intros s1 tk. unfold comment_step. destruct (peek s1) as [o s5]. destruct (get s5) as [g s6]. destruct (match o with Some _ => _ | None => _ end); discriminate. }
    destruct b; cbn [in_comment]; [intros E; destruct (N _ _ E)|]. rewrite comment_loop_S. destruct (peek s) as [[c|] s1]; [|discriminate].
    destruct (c =?c BSLASH); [|intros E; destruct (N _ _ E)]. destruct (get s1) as [g s2]. destruct (peek s2) as [[c2|] s3]; [|discriminate].
    destruct (get s3) as [g4 s4]. intros E; destruct (N _ _ E). }
  assert (STEP : forall d s p r token t s', St s p r -> comment_step (S f) (S d) s token = Ok (t, s') -> comment_left true (S d) r token t s').
  { intros d s p r token t s' H. unfold comment_step. destruct r as [|c r].
    - peek_at H. get_at H0. intros EQ. destruct (IH false d s1 _ [] _ t s' H1 EQ) as (a & r' & p' & X & K & _).
      destruct a; [|discriminate X]. destruct (skipped_nil _ _ K).
    - peek_at H. get_at H. cbn [as_char]. destruct (c =?c LPAREN) eqn:L.
      + intros EQ. apply ceqb_eq in L. subst c. eapply left_cons; [exact (IH false (S d) s0 _ r _ t s' H0 EQ)|]. intros a K. constructor. exact K.
      + destruct (c =?c RPAREN) eqn:R.
        * apply ceqb_eq in R. subst c. cbn [pred]. destruct d as [|d].
          -- intros EQ. cbn [comment_loop] in EQ. injection EQ as <- <-. exists [RPAREN], r, (RPAREN :: p). split; auto. split; [constructor|]. split; auto.
             cbn [In]. split; auto. intros [X|[X|[]]]; auto. discriminate X.
          -- intros EQ. eapply left_cons; [exact (IH false d s0 _ r _ t s' H0 EQ)|]. intros a K. constructor. exact K.
        * intros EQ. eapply left_cons; [exact (IH false d s0 _ r _ t s' H0 EQ)|]. intros a K. constructor; auto.
          -- intros ->. discriminate L.
          -- intros ->. discriminate R.
          -- discriminate. }
  intros b d s p r token t s' H. destruct b; cbn [in_comment]; [apply (STEP d s p r); auto|].
  rewrite comment_loop_S. destruct r as [|c r]; peek_at H; [discriminate|]. destruct (c =?c BSLASH) eqn:B.
  - apply ceqb_eq in B. subst c. get_at H. destruct r as [|c2 r]; peek_at H0; [discriminate|]. get_at H0. cbn [as_char]. intros EQ.
    destruct (STEP d s1 _ r _ t s' H1 EQ) as (a & r' & p' & -> & K & H' & NU). exists (BS :: c2 :: a), r', p'. split; auto. split; [apply sk_escape; auto|].
    split; auto. rewrite NU, in_app_iff. cbn [In]. split; intros X; intuition (try discriminate; auto).
  - intros EQ. destruct (STEP d s p (c :: r) token t s' H EQ) as (a & r' & p' & A & K & H' & NU).
    destruct a as [|x a]; [destruct (skipped_nil _ _ K)|]. cbn [app] in A. injection A as <- ->. exists (c :: a), r', p'. split; auto. split; auto.
    apply skipped_weaken; auto. intros ->. discriminate B.
Qed.

(** ** One token *)
Lemma lexed_one cs r ts : lexed cs r ts <-> (ts = [] /\ one cs r None []) \/ exists t ts' r', ts = t :: ts' /\ one cs r (Some t) r' /\ lexed cs r' ts'.
Proof.
  split.
  - intros [r0 w G|r0 w c r1 a r2 ts0 G X W N L|r0 w q v r1 ts0 G Q N L|r0 w a r1 ts0 G K N L|r0 w r1 ts0 G L|r0 w r1 ts0 G L|r0 w c r1 ts0 G X L].
    1: left; split; auto; econstructor; eauto.
    all: right; eexists _, _, _; split; [reflexivity|]; split; [|exact L]; econstructor; eauto.
  - intros [[-> O]|(t & ts' & r' & -> & O & L)].
    + inversion O; subst. econstructor; eauto.
    + inversion O; subst; econstructor; eauto.
Qed.
(** The model's kind of a token, and its text up to what the callers look at. *)
Definition kind (o : option token) : addr_tok :=
  match o with None => TOK_EOF | Some (Word true _) => TOK_QUOTED | Some (Word false _) => TOK_ATOM | Some Comment => TOK_COMMENT
  | Some Open => TOK_TAG_OPEN | Some Close => TOK_TAG_CLOSE | Some Sep => TOK_SEPARATOR end.
Definition shows (o : option token) (tk : bytes) : Prop := match o with Some (Word _ v) => tk = v | _ => True end.

Lemma next_start cs f s p r w r1 : St s p r -> gap r w r1 -> exists s' p', next_tok cs (S f) s [] = tok_body cs f s' [] /\ St s' p' r1.
Proof.
  intros H G. rewrite next_tok_S. destruct r as [|c r].
  - apply gap_empty in G as [-> ->]. peek_at H. exists s, p. split; auto. unfold tok_body. rewrite E. reflexivity.
  - peek_at H. pose proof (read_fws_St _ _ _ H) as R. rewrite (gap_fws _ _ _ G) in R. destruct R as (s' & R & H'). rewrite R. cbn [obind].
    exists s', (rev w ++ p). destruct w; auto.
Qed.
Lemma gap_shorter r w r1 : gap r w r1 -> length r1 <= length r.
Proof. intros G. rewrite (gap_app _ _ _ G), app_length. lia. Qed.
Lemma one_run cs r o r' : one cs r o r' -> forall s p, St s p r ->
  exists tk s' p', NextAddressListToken cs s = Ok (kind o, tk, s') /\ ~ In NUL0 tk /\ shows o tk /\ St s' p' r'.
Proof.
  intros O s p H. unfold NextAddressListToken. rewrite (St_fuel _ _ _ H).
  assert (ST : forall w r1, gap r w r1 -> exists s' p', next_tok cs (S (length r)) s [] = tok_body cs (length r) s' [] /\ St s' p' r1).
  { intros. eapply next_start; eauto. }
  destruct O as [r w G|r w c r1 a r2 G X W N|r w q v r1 G Q N|r w a r1 G K N|r w r1 G|r w r1 G|r w c r1 G X];
    destruct (ST _ _ G) as (s1 & p1 & -> & H1); pose proof (gap_shorter _ _ _ G) as LE; cbn [length] in LE.
  - unfold tok_body. peek_at H1. exists [], s0, p1. cbn. auto.
  - destruct (plain_next cs (length r) s1 p1 c r1 [] H1 X) as (s2 & -> & H2). cbn [app].
    destruct (word_run cs _ _ _ W (length r) s2 _ c [] H2 ltac:(lia)) as (s3 & p3 & -> & H3). exists (c :: a), s3, p3. cbn. auto.
  - unfold tok_body. peek_at H1. replace (DQ =?c DQUOTE) with true by reflexivity. get_at H1. rewrite (St_fuel _ _ _ H0).
    destruct (quoted_run cs q v Q (S (length (q ++ DQ :: r1))) s0 _ r1 [] H0 ltac:(lia)) as (s2 & p2 & -> & H2). cbn [obind app]. exists v, s2, p2. cbn. auto.
  - unfold tok_body. peek_at H1. replace (LP =?c DQUOTE) with false by reflexivity. replace (LP =?c LPAREN) with true by reflexivity. get_at H1. rewrite (St_fuel _ _ _ H0).
    destruct (comment_run _ _ _ K (length (a ++ r1)) s0 _ r1 [] H0 ltac:(lia)) as (t & s2 & p2 & E2 & H2 & NU). cbn [in_comment] in E2.
    rewrite E2. cbn [obind]. exists t, s2, p2. split; auto. split; [rewrite NU; cbn [In]; tauto|]. cbn. auto.
  - unfold tok_body. peek_at H1. replace (LA =?c DQUOTE) with false by reflexivity. replace (LA =?c LPAREN) with false by reflexivity.
    replace (LA =?c LANGLE) with true by reflexivity. get_at H1. exists [], s0, (LA :: p1). cbn. auto.
  - unfold tok_body. peek_at H1. replace (RA =?c DQUOTE) with false by reflexivity. replace (RA =?c LPAREN) with false by reflexivity.
    replace (RA =?c LANGLE) with false by reflexivity. replace (RA =?c RANGLE) with true by reflexivity. get_at H1. exists [], s0, (RA :: p1). cbn. auto.
  - unfold tok_body. peek_at H1. get_at H1. exists [], s0, (c :: p1). destruct X as [->| ->]; cbn; auto.
Qed.
(** And back: a token without NUL is one of these. *)
Lemma one_back cs s p r ty tk s' : St s p r -> NextAddressListToken cs s = Ok (ty, tk, s') -> ~ In NUL0 tk ->
  exists o r' p', one cs r o r' /\ ty = kind o /\ shows o tk /\ St s' p' r'.
Proof.
  intros H. unfold NextAddressListToken. rewrite (St_fuel _ _ _ H).
  destruct (l_fws r) as [[w r1]|] eqn:W.
  2:{ destruct r as [|c r]; [discriminate W|]. rewrite next_tok_S. peek_at H. pose proof (read_fws_St _ _ _ H) as R. rewrite W in R. rewrite R. discriminate. }
  apply fws_gap in W. destruct (next_start cs (length r) s p r w r1 H W) as (s1 & p1 & -> & H1). unfold tok_body. intros E N. revert E.
  destruct r1 as [|c r1]; peek_at H1.
  { intros EQ. unfold finish_tok in EQ. injection EQ as <- <- <-. eexists None, [], _. split; [econstructor; eauto|]. cbn. eauto. }
  destruct (c =?c DQUOTE) eqn:C1.
  { apply ceqb_eq in C1. subst c. get_at H1. destruct (quoted_loop cs (fuel_of s0) s0 []) as [[t s4]| | |] eqn:Q; try discriminate. cbn [obind]. intros EQ. injection EQ as <- <- <-.
    destruct (quoted_back _ _ _ _ _ _ _ _ H0 Q) as (q & v & r' & p' & -> & Q' & -> & H'). exists (Some (Word true v)), r', p'. split; [econstructor; eauto|]. cbn. auto. }
  destruct (c =?c LPAREN) eqn:C2.
  { apply ceqb_eq in C2. subst c. get_at H1. rewrite (St_fuel _ _ _ H0). destruct (comment_loop (S (length r1)) 1 s0 []) as [[t s4]| | |] eqn:Q; try discriminate. cbn [obind]. intros EQ. injection EQ as <- <- <-.
    destruct (comment_back (length r1) false 0 _ _ _ _ _ _ H0 Q) as (a & r' & p' & -> & K & H' & NU). exists (Some Comment), r', p'.
    split; [econstructor; eauto; intros X; apply N; rewrite NU; auto|]. cbn. auto. }
  destruct (c =?c LANGLE) eqn:C3.
  { apply ceqb_eq in C3. subst c. get_at H1. intros EQ. injection EQ as <- <- <-. exists (Some Open), r1, (LANGLE :: p1). split; [econstructor; eauto|]. cbn. auto. }
  destruct (c =?c RANGLE) eqn:C4.
  { apply ceqb_eq in C4. subst c. get_at H1. intros EQ. injection EQ as <- <- <-. exists (Some Close), r1, (RANGLE :: p1). split; [econstructor; eauto|]. cbn. auto. }
  destruct ((c =?c COMMA) || (c =?c SEMI)) eqn:C5.
  { get_at H1. intros EQ. injection EQ as <- <- <-. exists (Some Sep), r1, (c :: p1). split; [|cbn; auto]. econstructor; eauto.
    apply Bool.orb_true_iff in C5 as [C5|C5]; apply ceqb_eq in C5; auto. }
  apply Bool.orb_false_iff in C5 as [C5 C6].
  assert (X : ~ special c). { apply ceqb_neq in C1, C2, C3, C4, C5, C6. intros [X|[X|[X|[X|[X|[X|[]]]]]]]; subst c; contradiction. }
  get_at H1. cbn [as_char app]. intros EQ. destruct (word_back _ _ _ _ _ _ _ _ _ _ H0 EQ) as (a & r' & p' & WR & -> & -> & H').
  exists (Some (Word false (c :: a))), r', p'. split; [econstructor; eauto|]. cbn. auto.
Qed.
Lemma word_shorter r a r' : word_rest r a r' -> length r' <= length r.
Proof. induction 1 as [|r w r' G N|c r X|c r a r' G X W IH]; cbn [length]; auto. apply gap_shorter in G. exact G. Qed.
Lemma skipped_pos b d a : skipped b d a -> 0 < length a.
Proof. destruct 1; cbn; lia. Qed.
Lemma one_shorter cs r t r' : one cs r (Some t) r' -> length r' < length r /\ match t with Word true v => length v < length r | _ => True end.
Proof.
  intros O. inversion O; subst; match goal with G : gap _ _ _ |- _ => apply gap_shorter in G; cbn [length] in G end; try (split; auto; lia).
  - match goal with W : word_rest _ _ _ |- _ => apply word_shorter in W end. split; auto. lia.
  - match goal with W : quoted _ _ _ |- _ => apply quoted_length in W end. rewrite app_length in *. cbn [length] in *. split; lia.
  - rewrite app_length in *. split; auto. lia.
Qed.


(** ** Segments *)
Lemma words_snoc seg t : words (seg ++ [t]) = match t with Word _ v => words seg ++ [v] | Open => [] | _ => words seg end.
Proof. unfold words. rewrite fold_left_app. reflexivity. Qed.
Definition follows (seg : list token) (typ : addr_tok) : Prop :=
  seg = [] /\ (typ = TOK_SEPARATOR \/ typ = TOK_TAG_CLOSE) \/ exists seg' t, seg = seg' ++ [t] /\ typ = kind (Some t).
Lemma follows_quoted seg typ : follows seg typ -> segment seg -> words seg <> [] ->
  (typ = TOK_QUOTED <-> exists seg' v, seg = seg' ++ [Word true v]) /\ typ <> TOK_TAG_CLOSE /\ typ <> TOK_EOF.
Proof.
  intros [[-> _]|(seg' & t & -> & ->)] [NC NS] W; [destruct W; reflexivity|].
  split.
  - split.
    + destruct t as [[|] v| | | |]; try discriminate. eauto.
    + intros (s2 & v & E). apply app_inj_tail in E as [_ ->]. reflexivity.
  - split; destruct t as [[|] v| | | |]; try discriminate. intros _. apply NC. apply in_or_app. right. left. reflexivity.
Qed.
Lemma has_char_in c s : has_char c s = true <-> In c s.
Proof.
  pose proof (has_char_false c s) as F. destruct (has_char c s); split; auto; intros; try discriminate.
  - destruct (in_dec ascii_dec c s); auto. destruct F as [_ F]. discriminate (F n).
  - destruct F as [F _]. destruct (F eq_refl). assumption.
Qed.
Definition flushed (rec : bytes -> outcome (list bytes)) (sep : bool) (typ : addr_tok) (tokens : list bytes) (kont : list bytes -> outcome (list bytes)) :=
  match tokens with
  | [] => kont []
  | tok0 :: rest =>
      if sep && negb (match typ with TOK_TAG_CLOSE => true | _ => false end) && negb (has_char AT (last tokens [])) then kont []
      else match typ, rest with
           | TOK_QUOTED, [] => let* addrs := rec tok0 in kont addrs
           | _, _ => kont [concat tokens]
           end
  end.
Lemma flush_all rec (sub : bytes -> list bytes -> Prop) sep seg typ kont l : follows seg typ -> segment seg ->
  (forall v, In (Word true v) seg -> forall l, rec v = Ok l <-> sub v l) ->
  flushed rec sep typ (words seg) kont = Ok l <-> exists l1, yields sub sep seg l1 /\ kont l1 = Ok l.
Proof.
  intros FO SE RS. unfold flushed. destruct (words seg) as [|w0 rest] eqn:W.
  { split; [intros E; exists []; split; auto; constructor; auto|]. intros (l1 & Y & E). destruct Y; auto.
    - destruct H0 as (X & _). congruence.
    - contradiction. }
  destruct (follows_quoted seg typ FO SE ltac:(rewrite W; discriminate)) as (Q & NC & NE).
  replace (negb match typ with TOK_TAG_CLOSE => true | _ => false end) with true by (destruct typ; solve [reflexivity|congruence]).
  rewrite <- W. rewrite Bool.andb_true_r.
  assert (LQ : forall v, lone_quoted seg v -> typ = TOK_QUOTED /\ rest = [] /\ w0 = v).
  { intros v (X & Y). rewrite W in X. injection X as <- ->. split; auto. apply Q. destruct Y as (s2 & Y). eauto. }
  destruct (sep && negb (has_char AT (last (words seg) []))) eqn:D.
  { apply Bool.andb_true_iff in D as [D1 D2]. apply Bool.negb_true_iff, has_char_false in D2.
    split; [intros E; exists []; split; auto; apply y_name; auto|]. intros (l1 & Y & E). destruct Y as [Y|_ Y|v l1 A L S|A N L]; auto.
    - destruct L as (X & _). rewrite X in D2. cbn in D2. destruct (D2 (A D1)).
    - destruct (D2 (A D1)). }
  assert (KEEP : sep = true -> In AT (last (words seg) [])).
  { intros ->. cbn in D. apply Bool.negb_false_iff, has_char_in in D. exact D. }
  assert (CASE : (typ = TOK_QUOTED /\ rest = []) \/ ~ (typ = TOK_QUOTED /\ rest = [])).
  { destruct typ; try (right; intros [X _]; discriminate X). destruct rest; [left; auto|right; intros [_ X]; discriminate X]. }
  destruct CASE as [[-> ->]|NL].
  - assert (LO : lone_quoted seg w0).
    { split; auto. destruct Q as [Q _]. destruct (Q eq_refl) as (s2 & v & ->). exists s2. rewrite words_snoc in W. apply (app_inj_tail _ []) in W as [_ ->]. reflexivity. }
    assert (IW : In (Word true w0) seg). { destruct LO as (_ & s2 & ->). apply in_or_app. right. left. reflexivity. }
    split.
    + destruct (rec w0) as [addrs| | |] eqn:R; try discriminate. cbn [obind]. intros E. exists addrs. split; auto.
      apply (y_list _ _ _ w0); auto. { rewrite W in KEEP. exact KEEP. } apply RS; auto.
    + intros (l1 & Y & E). destruct Y as [Y|SP Y|v l1 A L S|A N L].
      * rewrite W in Y. discriminate Y.
      * destruct (Y (KEEP SP)).
      * destruct (LQ v L) as (_ & _ & <-). apply RS in S; auto. rewrite S. exact E.
      * destruct L. eauto.
  - replace (match typ with TOK_QUOTED => match rest with [] => let* addrs := rec w0 in kont addrs | _ :: _ => kont [concat (words seg)] end | _ => kont [concat (words seg)] end)
      with (kont [concat (words seg)]) by (destruct typ, rest; auto; destruct NL; auto).
    split.
    + intros E. exists [concat (words seg)]. split; auto. apply y_address; auto. { rewrite W. discriminate. } intros (v & L). destruct (LQ v L) as (X & Y & _). auto.
    + intros (l1 & Y & E). destruct Y as [Y|SP Y|v l1 A L S|A N L]; auto.
      * rewrite W in Y. discriminate Y.
      * destruct (Y (KEEP SP)).
      * destruct (LQ v L) as (X & Y & _). destruct NL; auto.
Qed.

Lemma split_unique {A} (P : A -> Prop) a x b a' x' b' : Forall (fun y => ~ P y) a -> Forall (fun y => ~ P y) a' -> P x -> P x' ->
  a ++ x :: b = a' ++ x' :: b' -> a = a' /\ x = x' /\ b = b'.
Proof.
  intros F. revert a'. induction F as [|y a N F IH]; intros a' F' X X' E; destruct F' as [|y' a' N' F']; cbn [app] in E; injection E as E1 E2.
  - auto.
  - subst. contradiction.
  - subst. contradiction.
  - subst y'. destruct (IH a' F' X X' E2) as (-> & -> & ->). auto.
Qed.
Definition ender (t : token) : Prop := t = Close \/ t = Sep.
Lemma segment_forall seg : segment seg <-> Forall (fun t => ~ ender t) seg.
Proof.
  unfold segment. rewrite Forall_forall. split.
  - intros [A B] t I [->| ->]; auto.
  - intros F. split; intros I; apply (F _ I); [left|right]; reflexivity.
Qed.
Lemma grouped_end sub seg l : segment seg -> grouped sub seg l <-> ~ In Open seg /\ yields sub false seg l.
Proof.
  intros SE. split; [|intros [A B]; constructor; auto].
  intros G. inversion G; subst; auto; exfalso; destruct SE as [A B]; [apply A|apply B]; apply in_or_app; right; left; reflexivity.
Qed.
Lemma grouped_close sub seg ts l : segment seg -> grouped sub (seg ++ Close :: ts) l <-> exists l1 l2, yields sub false seg l1 /\ grouped sub ts l2 /\ l = l1 ++ l2.
Proof.
  intros SE. split; [|intros (l1 & l2 & Y & G & ->); apply gr_close; auto].
  intros G. inversion G as [seg' l' S' O' Y' E|seg' ts' l1 l2 S' Y' G' E|seg' ts' l1 l2 S' O' Y' G' E]; subst.
  - exfalso. destruct S' as [A B]. apply A, in_or_app. right. left. reflexivity.
  - apply (split_unique ender) in E as (-> & _ & ->); try (apply segment_forall; auto); try (left; reflexivity). eauto.
  - apply (split_unique ender) in E as (_ & X & _); try (apply segment_forall; auto); try (left; reflexivity); try (right; reflexivity). discriminate X.
Qed.
Lemma grouped_sep sub seg ts l : segment seg -> grouped sub (seg ++ Sep :: ts) l <-> ~ In Open seg /\ exists l1 l2, yields sub true seg l1 /\ grouped sub ts l2 /\ l = l1 ++ l2.
Proof.
  intros SE. split; [|intros (O & l1 & l2 & Y & G & ->); apply gr_sep; auto].
  intros G. inversion G as [seg' l' S' O' Y' E|seg' ts' l1 l2 S' Y' G' E|seg' ts' l1 l2 S' O' Y' G' E]; subst.
  - exfalso. destruct S' as [A B]. apply B, in_or_app. right. left. reflexivity.
  - apply (split_unique ender) in E as (_ & X & _); try (apply segment_forall; auto); try (left; reflexivity); try (right; reflexivity). discriminate X.
  - apply (split_unique ender) in E as (-> & _ & ->); try (apply segment_forall; auto); try (right; reflexivity). eauto 6.
Qed.

(** ** The loop *)
Lemma pal_loop_flush cs rec f typ tokens op res ty tk s' :
  ty = TOK_TAG_CLOSE \/ (ty = TOK_SEPARATOR \/ ty = TOK_EOF) /\ op = false -> ~ In NUL tk ->
  pal_next cs rec f typ tokens op res ty tk s' =
  flushed rec (match ty with TOK_SEPARATOR => true | _ => false end) typ tokens (fun l => pal_loop cs rec f s' ty [] false (res ++ l)).
Proof.
  intros T N. unfold pal_next. rewrite (NUL_no tk N). unfold flushed. rewrite ?app_nil_r.
  destruct T as [->|[[->| ->] ->]]; reflexivity.
Qed.
Lemma one_same cs r o r' o2 r2 s p : St s p r -> one cs r o r' -> one cs r o2 r2 -> o2 = o /\ r2 = r'.
Proof.
  intros H A B. destruct (one_run _ _ _ _ A s p H) as (tk & s1 & p1 & E1 & _ & S1 & H1). destruct (one_run _ _ _ _ B s p H) as (tk2 & s2 & p2 & E2 & _ & S2 & H2).
  rewrite E1 in E2. injection E2 as K <- <-. split; [|rewrite <- (St_rest _ _ _ H1); symmetry; exact (St_rest _ _ _ H2)].
  destruct o as [[[|] v| | | |]|], o2 as [[[|] v2| | | |]|]; cbn in K, S1, S2; try discriminate; congruence.
Qed.
Lemma loop_all cs rec (sub : bytes -> list bytes -> Prop) n : (forall v l, length v < n -> rec v = Ok l <-> sub v l) ->
  forall f s p r typ seg (op : bool) res l, St s p r -> length r + 2 <= f -> length r <= n -> segment seg ->
  (forall v, In (Word true v) seg -> length v < n) -> follows seg typ -> (op = true <-> In Open seg) ->
  pal_loop cs rec f s typ (words seg) op res = Ok l <-> exists ts l', lexed cs r ts /\ grouped sub (seg ++ ts) l' /\ l = res ++ l'.
Proof.
  intros REC. induction f as [|f IH]; intros s p r typ seg op res l H F LN SE QS FO OP; [lia|].
  assert (TE : typ <> TOK_EOF). { destruct FO as [[_ [->| ->]]|(s2 & t & _ & ->)]; try discriminate. destruct t as [[|] v| | | |]; discriminate. }
  destruct (NextAddressListToken cs s) as [[[ty tk] s']| | |] eqn:NX.
  2,3,4: split; [cbn [pal_loop]; rewrite NX; destruct typ; try congruence; discriminate|];
    intros (ts & l' & L & _); exfalso; apply lexed_one in L as [[_ O]|(t & ts' & r' & _ & O & _)];
    destruct (one_run _ _ _ _ O s p H) as (tk & s1 & p1 & E1 & _); congruence.
  assert (NX' : next_tok cs (S (length r)) s [] = Ok (ty, tk, s')). { unfold NextAddressListToken in NX. rewrite (St_fuel _ _ _ H) in NX. exact NX. }
  rewrite (pal_loop_tok cs rec f s p r typ (words seg) op res ty tk s' H TE NX').
  destruct (in_dec ascii_dec NUL0 tk) as [NU|NU].
  { split; [unfold pal_next; apply has_char_in in NU; change NUL with NUL0; rewrite NU; discriminate|].
    intros (ts & l' & L & _). exfalso. apply lexed_one in L as [[_ O]|(t & ts' & r' & _ & O & _)];
    destruct (one_run _ _ _ _ O s p H) as (tk' & s1 & p1 & E1 & NN & _); congruence. }
  destruct (one_back cs s p r ty tk s' H NX NU) as (o & r' & p' & O & -> & SH & H').
  assert (LX : forall ts, lexed cs r ts <-> match o with None => ts = [] | Some t => exists ts', ts = t :: ts' /\ lexed cs r' ts' end).
  { intros ts. rewrite lexed_one. split.
    - intros [[-> O2]|(t & ts' & r2 & -> & O2 & L)]; destruct (one_same _ _ _ _ _ _ _ _ H O O2) as [<- <-]; eauto.
    - destruct o as [t|]; [intros (ts' & -> & L); right; eauto 6|]. intros ->. left. split; auto. inversion O; subst. exact O. }
  destruct o as [t|].
  2:{ (* the end *)
    cbn [kind]. destruct op.
    - assert (IO : In Open seg) by (apply OP; reflexivity). split; [unfold pal_next; rewrite (NUL_no tk NU); discriminate|].
      intros (ts & l' & L & G & _). apply LX in L. subst ts. rewrite app_nil_r in G. apply grouped_end in G as [G _]; auto. contradiction.
    - rewrite pal_loop_flush; [|auto|auto]. rewrite (flush_all rec sub false seg typ _ l FO SE).
      2:{ intros v I l0. apply REC. auto. }
      destruct f as [|f]; [lia|]. cbn [pal_loop].
      assert (NO : ~ In Open seg). { intros X. apply OP in X. discriminate X. }
      split.
      + intros (l1 & Y & E). injection E as <-. exists [], l1. split; [apply LX; reflexivity|]. rewrite app_nil_r. split; auto. apply grouped_end; auto.
      + intros (ts & l' & L & G & ->). apply LX in L. subst ts. rewrite app_nil_r in G. apply grouped_end in G as [_ G]; auto. exists l'. auto. }
  destruct (one_shorter _ _ _ _ O) as [SH1 SH2].
  assert (SNOC : forall ts', (seg ++ [t]) ++ ts' = seg ++ t :: ts') by (intros; rewrite <- app_assoc; reflexivity).
  assert (FO' : follows (seg ++ [t]) (kind (Some t))) by (right; eauto).
  assert (GOON : ~ ender t -> (forall v, t = Word true v -> length v < n) -> forall (op' : bool), (op' = true <-> In Open (seg ++ [t])) ->
     pal_loop cs rec f s' (kind (Some t)) (words (seg ++ [t])) op' res = Ok l <-> exists ts l', lexed cs r ts /\ grouped sub (seg ++ ts) l' /\ l = res ++ l').
  { intros NE QT op' OP'. rewrite (IH s' p' r' (kind (Some t)) (seg ++ [t]) op' res l H' ltac:(lia) ltac:(lia)); auto.
    - split; intros (ts & l' & L & G & E).
      + exists (t :: ts), l'. rewrite SNOC in G. split; auto. apply LX. eauto.
      + apply LX in L as (ts' & -> & L). exists ts', l'. rewrite SNOC. auto.
    - apply segment_forall, Forall_app. split; [apply segment_forall; auto|]. repeat constructor. exact NE.
    - intros v I. apply in_app_or in I as [I|[I|[]]]; auto. }
  assert (OPS : t <> Open -> (op = true <-> In Open (seg ++ [t]))).
  { intros NT. rewrite OP, in_app_iff. cbn [In]. intuition congruence. }
  destruct t as [q v| | | |]; cbn [shows] in SH.
  - subst tk. rewrite words_snoc in GOON. rewrite <- (GOON ltac:(intros [X|X]; discriminate X) ltac:(intros v' [= -> ->]; cbn in SH2; lia) op (OPS ltac:(discriminate))).
    unfold pal_next. rewrite (NUL_no v NU). destruct q; reflexivity.
  - rewrite words_snoc in GOON. rewrite <- (GOON ltac:(intros [X|X]; discriminate X) ltac:(discriminate) op (OPS ltac:(discriminate))).
    unfold pal_next. rewrite (NUL_no tk NU). reflexivity.
  - rewrite words_snoc in GOON. rewrite <- (GOON ltac:(intros [X|X]; discriminate X) ltac:(discriminate) true).
    2:{ split; auto. intros _. apply in_or_app. right. left. reflexivity. }
    unfold pal_next. rewrite (NUL_no tk NU). reflexivity.
  - (* '>' *)
    cbn [kind]. rewrite pal_loop_flush; [|auto|auto]. rewrite (flush_all rec sub false seg typ _ l FO SE).
    2:{ intros v I l0. apply REC. auto. }
    assert (K : forall x, pal_loop cs rec f s' TOK_TAG_CLOSE [] false (res ++ x) = Ok l <-> exists ts l', lexed cs r' ts /\ grouped sub ts l' /\ l = (res ++ x) ++ l').
    { intros x. apply (IH s' p' r' TOK_TAG_CLOSE [] false (res ++ x) l H'); try lia; [split; intros []|intros v []|left; auto|]. split; [discriminate|intros []]. }
    split.
    + intros (l1 & Y & E). apply K in E as (ts & l2 & L & G & ->). exists (Close :: ts), (l1 ++ l2). split; [apply LX; eauto|].
      rewrite app_assoc. split; auto. apply gr_close; auto.
    + intros (ts & l' & L & G & ->). apply LX in L as (ts' & -> & L). apply grouped_close in G as (l1 & l2 & Y & G & ->); auto.
      exists l1. split; auto. apply K. exists ts', l2. rewrite app_assoc. auto.
  - (* a separator *)
    cbn [kind]. destruct op.
    { assert (IO : In Open seg) by (apply OP; reflexivity). split; [unfold pal_next; rewrite (NUL_no tk NU); discriminate|].
      intros (ts & l' & L & G & _). apply LX in L as (ts' & -> & L). apply grouped_sep in G as [G _]; auto. contradiction. }
    assert (NO : ~ In Open seg). { intros X. apply OP in X. discriminate X. }
    rewrite pal_loop_flush; [|auto|auto]. rewrite (flush_all rec sub true seg typ _ l FO SE).
    2:{ intros v I l0. apply REC. auto. }
    assert (K : forall x, pal_loop cs rec f s' TOK_SEPARATOR [] false (res ++ x) = Ok l <-> exists ts l', lexed cs r' ts /\ grouped sub ts l' /\ l = (res ++ x) ++ l').
    { intros x. apply (IH s' p' r' TOK_SEPARATOR [] false (res ++ x) l H'); try lia; [split; intros []|intros v []|left; auto|]. split; [discriminate|intros []]. }
    split.
    + intros (l1 & Y & E). apply K in E as (ts & l2 & L & G & ->). exists (Sep :: ts), (l1 ++ l2). split; [apply LX; eauto|].
      rewrite app_assoc. split; auto. apply gr_sep; auto.
    + intros (ts & l' & L & G & ->). apply LX in L as (ts' & -> & L). apply grouped_sep in G as (_ & l1 & l2 & Y & G & ->); auto.
      exists l1. split; auto. apply K. exists ts', l2. rewrite app_assoc. auto.
Qed.
Lemma pal_all cs d : forall input l, length input < d -> pal cs d input = Ok l <-> address_text cs input l.
Proof.
  induction d as [|d IH]; intros input l L; [lia|]. cbn [pal].
  assert (REC : forall v l', length v < length input -> pal cs d v = Ok l' <-> address_text cs v l') by (intros; apply IH; lia).
  pose proof (loop_all cs (pal cs d) (address_text cs) (length input) REC (S (fuel_of (open_str input))) (open_str input) [] input TOK_SEPARATOR [] false [] l) as K.
  change (words []) with (@nil bytes) in K. rewrite K; clear K.
  - split.
    + intros (ts & l' & X & G & ->). econstructor; eauto.
    + intros [t ts l' X G]. exists ts, l'. auto.
  - apply St_open.
  - rewrite (St_fuel _ _ _ (St_open input)). lia.
  - lia.
  - split; intros [].
  - intros v [].
  - left. auto.
  - split; [discriminate|intros []].
Qed.
Lemma ParseAddressList_all cs t l : ParseAddressList cs t = Ok l <-> address_text cs t l.
Proof. apply pal_all. lia. Qed.

(** ** A comment in front *)
Lemma words_comment seg : words (Comment :: seg) = words seg.
Proof. reflexivity. Qed.
Lemma lone_comment seg v : lone_quoted (Comment :: seg) v <-> lone_quoted seg v.
Proof.
  unfold lone_quoted. rewrite words_comment. split; intros (W & s2 & E); split; auto.
  - destruct s2 as [|x s2]; [discriminate E|]. injection E as _ E. eauto.
  - exists (Comment :: s2). rewrite E. reflexivity.
Qed.
Lemma yields_comment sub sep seg l : yields sub sep (Comment :: seg) l <-> yields sub sep seg l.
Proof.
  split; intros Y; destruct Y as [Y|SP Y|v l A L S|A N L].
  - apply y_none. exact Y.
  - apply y_name; auto.
  - apply (y_list _ _ _ v); auto. apply lone_comment; auto.
  - rewrite words_comment. apply y_address; auto. intros (v & Q). apply L. exists v. apply lone_comment; auto.
  - apply y_none. exact Y.
  - apply y_name; auto.
  - apply (y_list _ _ _ v); auto. apply lone_comment; auto.
  - rewrite <- (words_comment seg). apply y_address; auto. intros (v & Q). apply L. exists v. apply lone_comment; auto.
Qed.
Lemma segment_comment seg : segment (Comment :: seg) <-> segment seg.
Proof. unfold segment. cbn [In]. intuition discriminate. Qed.
Lemma grouped_comment sub ts l : grouped sub (Comment :: ts) l <-> grouped sub ts l.
Proof.
  assert (NO : forall seg, ~ In Open (Comment :: seg) <-> ~ In Open seg) by (intros; cbn [In]; intuition discriminate).
  split.
  - intros G. inversion G as [seg l' S O Y E|seg ts' l1 l2 S Y G' E|seg ts' l1 l2 S O Y G' E]; subst.
    + apply gr_end; [apply segment_comment; auto|apply NO; auto|apply yields_comment; auto].
    + destruct seg as [|x seg]; [discriminate E|]. injection E as -> <-. apply gr_close; [apply segment_comment; auto|apply yields_comment; auto|auto].
    + destruct seg as [|x seg]; [discriminate E|]. injection E as -> <-. apply gr_sep; [apply segment_comment; auto|apply NO; auto|apply yields_comment; auto|auto].
  - intros [seg l' S O Y|seg ts' l1 l2 S Y G'|seg ts' l1 l2 S O Y G'].
    + apply gr_end; [apply segment_comment; auto|apply NO; auto|apply yields_comment; auto].
    + apply (gr_close sub (Comment :: seg)); [apply segment_comment; auto|apply yields_comment; auto|auto].
    + apply (gr_sep sub (Comment :: seg)); [apply segment_comment; auto|apply NO; auto|apply yields_comment; auto|auto].
Qed.
Lemma one_comment_front cs a r : skipped false 1 (a ++ [RP]) -> ~ In NUL0 a -> one cs (LP :: a ++ RP :: r) (Some Comment) r.
Proof.
  intros K N. apply (one_comment cs _ [] (a ++ [RP])); auto.
  - rewrite <- app_assoc. apply gap_none. cbn. split; [intros [X|X]|]; discriminate.
  - intros I. apply in_app_or in I as [I|[I|[]]]; auto. discriminate I.
Qed.
Lemma comment_front cs a r l : skipped false 1 (a ++ [RP]) -> ~ In NUL0 a ->
  address_text cs (LP :: a ++ RP :: r) l <-> address_text cs r l.
Proof.
  intros K N. pose proof (one_comment_front cs a r K N) as O. split; intros Z; inversion Z as [t ts l' X G]; subst; clear Z.
  - apply lexed_one in X as [[-> O2]|(t' & ts' & r' & -> & O2 & X)].
    + destruct (one_same _ _ _ _ _ _ _ _ (St_open _) O O2) as [Z _]. discriminate Z.
    + destruct (one_same _ _ _ _ _ _ _ _ (St_open _) O O2) as [Z ->]. injection Z as ->. econstructor; [exact X|]. exact (proj1 (grouped_comment _ _ _) G).
  - econstructor; [|apply grouped_comment; exact G]. apply lexed_one. right. eauto 6.
Qed.
Lemma comment_front_parse a r : skipped false 1 (a ++ [RP]) -> ~ In NUL0 a ->
  ParseAddressList true (LP :: a ++ RP :: r) = ParseAddressList true r.
Proof.
  intros K N. pose proof (ParseAddressList_all true r) as A. pose proof (ParseAddressList_all true (LP :: a ++ RP :: r)) as B.
  destruct (ParseAddressList_any r) as [E|(l & E & _)]; rewrite E in *.
  - destruct (ParseAddressList_any (LP :: a ++ RP :: r)) as [E2|(l & E2 & _)]; auto.
    apply B in E2. apply comment_front in E2; auto. apply A in E2. discriminate E2.
  - apply B. apply comment_front; auto. apply A. reflexivity.
Qed.
(** RFC 5322 comments without adjacent escapes are skipped whole. *)
Lemma tame_skipped a : comment_text true a -> forall b d x, (b = true -> first_ok (fun c => c <> BS) a) -> first_ok (fun c => c <> BS) x ->
  skipped false (S d) x -> skipped b (S d) (a ++ x).
Proof.
  induction 1 as [|c t N T IH|c t N F T IH|u t U IHu T IHt]; intros b d x B BX K; cbn [app].
  - destruct b; auto. inversion K; subst; try (constructor; auto; fail). cbn in BX. congruence.
  - constructor; try (intros ->; apply N; cbn; auto; fail).
    + intros _ ->. apply N. cbn. auto.
    + apply IH; auto; discriminate.
  - destruct b; [destruct (B eq_refl); reflexivity|]. apply sk_escape. apply IH; auto.
  - rewrite <- app_assoc. cbn [app]. constructor. apply IHu; [discriminate|cbn; discriminate|]. constructor. apply IHt; auto. discriminate.
Qed.
Lemma tame_comment a : comment_text true a -> skipped false 1 (a ++ [RP]).
Proof. intros T. apply tame_skipped; auto; [discriminate|cbn; discriminate|constructor]. Qed.
Lemma comment_no_NUL b a : comment_text b a -> ~ In NUL0 a.
Proof.
  induction 1 as [|c t N T IH|c t N F T IH|u t U IHu T IHt]; cbn [In]; try tauto.
  - intros [->|I]; auto. apply N. cbn. auto.
  - intros [X|[->|I]]; auto. discriminate X.
  - intros [X|I]; [discriminate X|]. apply in_app_or in I as [I|[X|I]]; auto. discriminate X.
Qed.

(** ** Cases *)
Definition odd_list : bytes := esc "Doe, Jo (n) <a@b> ""p@q, r@s"";c@\r\n \r\n d>\r\ne".
Lemma odd_list_case : address_text true odd_list [str "a@b"; str "p@q"; str "r@s"; str "c@d"; esc "\r\ne"].
Proof. apply ParseAddressList_all. vm_compute. reflexivity. Qed.
Lemma three_escapes : comment_text false (str "\a\b\)") /\ skipped false 1 (str "\a\b\)" ++ [RP]) /\ ~ comment_text true (str "\a\b\)").
Proof.
  split; [|split].
  - apply ct_escape; [discriminate|discriminate|]. apply ct_escape; [discriminate|discriminate|]. apply ct_escape; [discriminate|discriminate|]. constructor.
  - change (skipped false 1 (BS :: chr 97 :: BS :: chr 98 :: BS :: RP :: [RP])). apply sk_escape.
    apply sk_byte; try discriminate. apply sk_byte; try discriminate. apply sk_escape. apply sk_last.
  - intros T. inversion T as [|c t N _ E|c t N F _ E|]; subst.
    + apply N. cbn. auto.
    + apply (F eq_refl). reflexivity.
Qed.
