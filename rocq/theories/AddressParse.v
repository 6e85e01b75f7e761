(** ParseAddressList on rendered mailbox lists: proofs. *)
From Verif Require Import Bytes Outcome Stream Tokenizer BytesFacts StreamFacts TokenizerFacts
  SpecText SpecAddress QPFacts ListFacts AddressFacts.

Lemma not_In_app {A} (x : A) a b : ~ In x a -> ~ In x b -> ~ In x (a ++ b).
Proof. rewrite in_app_iff. tauto. Qed.
Lemma not_In_one (x y : ascii) : y <> x -> ~ In x [y].
Proof. cbn. tauto. Qed.

(** ** Quoted strings *)

Lemma quoted_loop_text cs q : quoted_text q -> forall f s p r token,
  St s p (q ++ DQ :: r) -> length q < f ->
  exists t s' p', quoted_loop cs f s token = Ok (token ++ t, s') /\ St s' p' r /\ ~ In NUL t.
Proof.
  induction 1 as [|c t NC Q IH|c t NC Q IH]; intros f s p r token H L;
    (destruct f as [|f]; [cbn in L; lia|]); cbn [quoted_loop app] in *.
  - get_at H. cbn [as_char]. replace (DQ =?c chr 255) with false by reflexivity. rewrite andb_false_r.
    replace (DQ =?c BSLASH) with false by reflexivity. replace (DQ =?c DQUOTE) with true by reflexivity.
    exists [], s0, (DQ :: p). rewrite app_nil_r. auto.
  - get_at H. cbn [as_char length] in *. cbn [In] in NC.
    rewrite (ceqb_false c (chr 255)), (ceqb_false c BSLASH), (ceqb_false c DQUOTE) by (intros ->; apply NC; auto 6).
    rewrite andb_false_r.
    destruct (IH f s0 _ r (token ++ [c]) H0 ltac:(lia)) as (t' & s' & p' & P & H' & N').
    exists (c :: t'), s', p'. rewrite P, <- app_assoc. split; auto. split; auto.
    intros [->|I]; [apply NC; auto 6|auto].
  - get_at H. cbn [as_char length] in *. replace (BS =?c chr 255) with false by reflexivity. rewrite andb_false_r.
    replace (BS =?c BSLASH) with true by reflexivity. peek_at H0. get_at H0. cbn [as_char].
    destruct (IH f s1 _ r (token ++ [c]) H1 ltac:(lia)) as (t' & s' & p' & P & H' & N').
    exists (c :: t'), s', p'. rewrite P, <- app_assoc. split; auto. split; auto.
    intros [->|I]; auto.
Qed.

(** ** Comments *)

(** [at_comment f d s token p r o]: the comment loop, at depth [d >= 1] with [r] left, either at
    the start of an iteration or behind an escape, returns [o]. *)
Definition running (e : bool) (f d : nat) (s : istream) (token : bytes) : outcome (bytes * istream) :=
  if e then comment_step f d s token else comment_loop f d s token.

Definition room (e : bool) (r : bytes) (f : nat) : Prop := if e then length r < S f else length r < f.

(** A byte that is no backslash is handled alike in both states. *)
Lemma running_char e f d s p c r token : St s p (c :: r) -> c <> BS -> room e (c :: r) f ->
  exists f', length r < f' /\ running e f (S d) s token = comment_step f' (S d) s token.
Proof.
  intros H N R. unfold running, room in *. destruct e; cbn [length] in R.
  - exists f. split; auto. lia.
  - destruct f as [|f]; [lia|]. exists f. split; [lia|]. rewrite comment_loop_S. peek_at H.
    rewrite (ceqb_false c BSLASH) by exact N. reflexivity.
Qed.

Lemma comment_text_run t : comment_text true t -> forall e f d s p r token,
  St s p (t ++ r) -> r <> [] -> first_ok (fun x => x <> BS) r ->
  (e = true -> first_ok (fun x => x <> BS) t) -> room e (t ++ r) f -> ~ In NUL token ->
  exists e' f' s' p' token', running e f (S d) s token = running e' f' (S d) s' token' /\
    St s' p' r /\ room e' r f' /\ ~ In NUL token'.
Proof.
  induction 1 as [|c t NC T IH|c t NC FO T IH|a t A IHa T IHt]; intros e f d s p r token H NR FR FE RM NT.
  - cbn [app] in *. exists e, f, s, p, token. auto.
  - cbn [app] in *. cbn [In] in NC.
    destruct (running_char e f d s p c (t ++ r) token H) as (f1 & L1 & ->); auto.
    { intros ->. apply NC. auto 6. }
    unfold comment_step. peek_at H.
    rewrite (ceqb_false c LPAREN), (ceqb_false c RPAREN) by (intros ->; apply NC; auto 6).
    get_at H. cbn [as_char].
    apply (IH false f1 d s0 _ r (token ++ [c]) H0 NR FR); auto.
    { discriminate. } apply not_In_app; auto. apply not_In_one. intros ->. apply NC. auto 6.
  - cbn [app] in *. destruct e. { specialize (FE eq_refl). cbn in FE. congruence. }
    unfold running at 1. unfold room in RM. cbn [length] in RM. destruct f as [|f]; [lia|].
    rewrite comment_loop_S. peek_at H. replace (BS =?c BSLASH) with true by reflexivity.
    get_at H. peek_at H0. get_at H0. cbn [as_char].
    apply (IH true f d s1 _ r (token ++ [c]) H1 NR FR); auto.
    { unfold room. lia. } { apply not_In_app; auto. apply not_In_one. auto. }
  - cbn [app] in *. rewrite <- app_assoc in *. cbn [app] in *.
    destruct (running_char e f d s p LP (a ++ RP :: t ++ r) token H) as (f1 & L1 & ->); auto.
    { discriminate. }
    unfold comment_step at 1. peek_at H. replace (LP =?c LPAREN) with true by reflexivity.
    get_at H. cbn [as_char].
    destruct (IHa false f1 (S d) s0 _ (RP :: t ++ r) (token ++ [LP]) H0) as (e2 & f2 & s2 & p2 & tk2 & P2 & H2 & R2 & N2); auto.
    { discriminate. } { cbn. discriminate. } { discriminate. }
    { apply not_In_app; auto. apply not_In_one. discriminate. }
    unfold running at 1 in P2. rewrite P2.
    destruct (running_char e2 f2 (S d) s2 p2 RP (t ++ r) tk2 H2) as (f3 & L3 & ->); auto.
    { discriminate. }
    unfold comment_step at 1. peek_at H2. replace (RP =?c LPAREN) with false by reflexivity.
    replace (RP =?c RPAREN) with true by reflexivity. get_at H2. cbn [as_char pred].
    apply (IHt false f3 d s1 _ r (tk2 ++ [RP]) H1 NR FR); auto.
    { discriminate. } { apply not_In_app; auto. apply not_In_one. discriminate. }
Qed.

(** A whole comment, behind its opening parenthesis. *)
Lemma comment_read t : comment_text true t -> forall f s p r, St s p (t ++ RP :: r) -> length (t ++ RP :: r) < f ->
  exists tk s' p', comment_loop f 1 s [] = Ok (tk, s') /\ St s' p' r /\ ~ In NUL tk.
Proof.
  intros T f s p r H L.
  destruct (comment_text_run t T false f 0 s p (RP :: r) [] H) as (e2 & f2 & s2 & p2 & tk2 & P2 & H2 & R2 & N2); auto.
  { discriminate. } { cbn. discriminate. } { discriminate. }
  unfold running at 1 in P2. rewrite P2.
  destruct (running_char e2 f2 0 s2 p2 RP r tk2 H2) as (f3 & L3 & ->); auto.
  { discriminate. }
  unfold comment_step. peek_at H2. replace (RP =?c LPAREN) with false by reflexivity.
  replace (RP =?c RPAREN) with true by reflexivity. get_at H2. cbn [as_char pred].
  destruct f3 as [|f3]; [lia|]. cbn [comment_loop]. exists tk2, s0, (RP :: p2). auto.
Qed.

(** ** One call of the tokenizer *)

Definition finish_tok (token : bytes) (s : istream) : outcome (addr_tok * bytes * istream) :=
  Ok (match token with [] => TOK_EOF | _ => TOK_ATOM end, token, s).

(** The part of an iteration behind the whitespace. *)
Definition tok_body (cs : bool) (f : nat) (s1 : istream) (token : bytes) : outcome (addr_tok * bytes * istream) :=
  let '(o1, s2) := peek s1 in
  match o1 with
  | None => finish_tok token s2
  | Some c =>
      if c =?c DQUOTE then
        match token with
        | _ :: _ => Ok (TOK_ATOM, token, s2)
        | [] => let '(_, s3) := get s2 in
                let* (t, s4) := quoted_loop cs (fuel_of s3) s3 [] in
                Ok (TOK_QUOTED, t, s4)
        end
      else if c =?c LPAREN then
        match token with
        | _ :: _ => Ok (TOK_ATOM, token, s2)
        | [] => let '(_, s3) := get s2 in
                let* (t, s4) := comment_loop (fuel_of s3) 1 s3 [] in
                Ok (TOK_COMMENT, t, s4)
        end
      else if c =?c LANGLE then
        match token with
        | _ :: _ => Ok (TOK_ATOM, token, s2)
        | [] => let '(_, s3) := get s2 in Ok (TOK_TAG_OPEN, [], s3)
        end
      else if c =?c RANGLE then
        match token with
        | _ :: _ => Ok (TOK_ATOM, token, s2)
        | [] => let '(_, s3) := get s2 in Ok (TOK_TAG_CLOSE, [], s3)
        end
      else if (c =?c COMMA) || (c =?c SEMI) then
        match token with
        | _ :: _ => Ok (TOK_ATOM, token, s2)
        | [] => let '(_, s3) := get s2 in Ok (TOK_SEPARATOR, [], s3)
        end
      else let '(g, s3) := get s2 in next_tok cs f s3 (token ++ [as_char g])
  end.

Lemma next_tok_S cs f s token :
  next_tok cs (S f) s token =
  let '(o, s0) := peek s in
  match o with
  | None => finish_tok token s0
  | Some _ =>
      let* (w, s1) := read_fws s0 in
      match w, token with
      | _ :: _, _ :: _ => finish_tok token s1
      | _, _ => tok_body cs f s1 token
      end
  end.
Proof. reflexivity. Qed.

Lemma next_tok_stops cs f s p r token : St s p r -> stops r ->
  exists s', next_tok cs (S f) s token = tok_body cs f s' token /\ St s' p r.
Proof.
  intros H S. rewrite next_tok_S. destruct r as [|c r]; peek_at H.
  - exists s. split; auto. unfold tok_body. rewrite E. reflexivity.
  - pose proof (read_fws_St _ _ _ H) as R. rewrite (l_fws_stops _ S) in R. destruct R as (s' & R & H').
    rewrite R. cbn [obind]. exists s'. auto.
Qed.

Lemma FWS_l_fws w r : FWS w -> stops r -> l_fws (w ++ r) = Some (w, r).
Proof.
  assert (SPAN : forall v, Forall WSP v -> forall x, match x with [] => True | c :: _ => is_wsp c = false end ->
     span is_wsp (v ++ x) = (v, x)).
  { intros v F x X. apply span_intro; auto. apply forallb_WSP; auto. }
  intros F S. unfold l_fws. destruct F as [v F N|w1 w2 F1 F2 N].
  - rewrite SPAN; auto.
    + destruct r as [|c r]; auto. destruct S as [S1 S2]. rewrite (ceqb_false _ _ S2). reflexivity.
    + destruct r; auto. apply S.
  - rewrite <- !app_assoc. rewrite SPAN; auto; [|reflexivity]. change (CRLF ++ w2 ++ r) with (CR :: LF :: w2 ++ r).
    cbv iota beta. rewrite !ceqb_refl.
    rewrite SPAN; auto; [|destruct r; auto; apply S].
    destruct w2; [congruence|]. reflexivity.
Qed.

Lemma FWS_nonempty w : FWS w -> w <> [].
Proof. intros [v F N|w1 w2 F1 F2 N]; auto. destruct w1; discriminate. Qed.

Lemma next_tok_fws cs f s p w r : St s p (w ++ r) -> FWS w -> stops r ->
  exists s' p', next_tok cs (S f) s [] = tok_body cs f s' [] /\ St s' p' r.
Proof.
  intros H F S. rewrite next_tok_S.
  destruct (w ++ r) as [|c t] eqn:E.
  { destruct w; [|discriminate]. apply FWS_nonempty in F. congruence. }
  rewrite <- E in H. pose proof (read_fws_St _ _ _ H) as R. rewrite (FWS_l_fws w r F S) in R.
  destruct R as (s' & R & H'). rewrite E in H. peek_at H. rewrite R. cbn [obind].
  exists s', (rev w ++ p). split; auto. destruct w; reflexivity.
Qed.
Lemma next_tok_break cs f s p w r x token : St s p (w ++ r) -> FWS w -> stops r ->
  exists s' p', next_tok cs (S f) s (x :: token) = Ok (TOK_ATOM, x :: token, s') /\ St s' p' r.
Proof.
  intros H F S. rewrite next_tok_S.
  destruct (w ++ r) as [|c t] eqn:E.
  { destruct w; [|discriminate]. apply FWS_nonempty in F. congruence. }
  rewrite <- E in H. pose proof (read_fws_St _ _ _ H) as R. rewrite (FWS_l_fws w r F S) in R.
  destruct R as (s' & R & H'). rewrite E in H. peek_at H. rewrite R. cbn [obind].
  exists s', (rev w ++ p). split; auto. destruct w; [|reflexivity]. apply FWS_nonempty in F. congruence.
Qed.

Lemma ordinary_stops c r : ordinary c -> stops (c :: r).
Proof.
  unfold ordinary. cbn [In]. intros N. split.
  - apply not_WSP_b. intros [->| ->]; apply N; auto.
  - intros ->. apply N. auto.
Qed.
Lemma ordinary_tests c : ordinary c ->
  (c =?c DQUOTE) = false /\ (c =?c LPAREN) = false /\ (c =?c LANGLE) = false /\ (c =?c RANGLE) = false /\
  (c =?c COMMA) = false /\ (c =?c SEMI) = false /\ c <> NUL.
Proof.
  unfold ordinary. cbn [In]. intros N.
  repeat split; try (apply ceqb_false); intros ->; apply N; auto 12.
Qed.
Lemma body_char cs f s p c r token : St s p (c :: r) -> ordinary c ->
  exists s', tok_body cs f s token = next_tok cs f s' (token ++ [c]) /\ St s' (c :: p) r.
Proof.
  intros H O. unfold tok_body. peek_at H. destruct (ordinary_tests c O) as (-> & -> & -> & -> & -> & -> & _).
  cbn [orb]. get_at H. cbn [as_char]. eauto.
Qed.

Definition delim (c : ascii) : Prop := In c [DQ; LP; LA; RA; chr 44; SEMI].
Lemma delim_stops c r : delim c -> stops (c :: r).
Proof.
  unfold delim. cbn [In]. intros D. split.
  - destruct D as [<-|[<-|[<-|[<-|[<-|[<-|[]]]]]]]; reflexivity.
  - destruct D as [<-|[<-|[<-|[<-|[<-|[<-|[]]]]]]]; discriminate.
Qed.
Lemma body_delim cs f s p c r x token : St s p (c :: r) -> delim c ->
  exists s', tok_body cs f s (x :: token) = Ok (TOK_ATOM, x :: token, s') /\ St s' p (c :: r).
Proof.
  intros H D. unfold tok_body. peek_at H. exists s. split; auto.
  unfold delim in D. cbn [In] in D.
  destruct D as [<-|[<-|[<-|[<-|[<-|[<-|[]]]]]]]; reflexivity.
Qed.
Lemma body_quoted cs f s p q r : St s p (DQ :: q ++ DQ :: r) -> quoted_text q ->
  exists t s' p', tok_body cs f s [] = Ok (TOK_QUOTED, t, s') /\ St s' p' r /\ ~ In NUL t.
Proof.
  intros H Q. unfold tok_body. peek_at H. replace (DQ =?c DQUOTE) with true by reflexivity.
  get_at H. rewrite (St_fuel _ _ _ H0).
  destruct (quoted_loop_text cs q Q (S (length (q ++ DQ :: r))) s0 _ r [] H0) as (t & s' & p' & P & H' & N).
  { rewrite app_length. lia. }
  rewrite P. cbn [obind app]. eauto 8.
Qed.
Lemma body_comment cs f s p a r : St s p (LP :: a ++ RP :: r) -> comment_text true a ->
  exists t s' p', tok_body cs f s [] = Ok (TOK_COMMENT, t, s') /\ St s' p' r /\ ~ In NUL t.
Proof.
  intros H Q. unfold tok_body. peek_at H. replace (LP =?c DQUOTE) with false by reflexivity.
  replace (LP =?c LPAREN) with true by reflexivity.
  get_at H. rewrite (St_fuel _ _ _ H0).
  destruct (comment_read a Q (S (length (a ++ RP :: r))) s0 _ r H0 ltac:(lia)) as (t & s' & p' & P & H' & N).
  rewrite P. cbn [obind app]. eauto 8.
Qed.
Lemma body_one cs f s p c r ty : St s p (c :: r) -> In (c, ty) [(LA, TOK_TAG_OPEN); (RA, TOK_TAG_CLOSE); (chr 44, TOK_SEPARATOR)] ->
  exists s', tok_body cs f s [] = Ok (ty, [], s') /\ St s' (c :: p) r.
Proof.
  intros H D. unfold tok_body. peek_at H. get_at H. exists s0. split; auto.
  cbn [In] in D. destruct D as [[= <- <-]|[[= <- <-]|[[= <- <-]|[]]]]; reflexivity.
Qed.
Lemma body_end cs f s p : St s p [] -> exists s', tok_body cs f s [] = Ok (TOK_EOF, [], s') /\ St s' p [].
Proof. intros H. unfold tok_body. peek_at H. exists s0. auto. Qed.

(** An addr-spec is read as one atom when a delimiter, folding whitespace or the end follows. *)
Definition after_atom (r r' : bytes) : Prop :=
  (r = r' /\ match r with [] => True | c :: _ => delim c end) \/ (exists w, FWS w /\ r = w ++ r' /\ stops r').

Lemma next_tok_atom cs a : Forall ordinary a -> forall f s p r r' x token,
  St s p (a ++ r) -> after_atom r r' -> length a < f ->
  exists s' p', next_tok cs f s (x :: token) = Ok (TOK_ATOM, x :: token ++ a, s') /\ St s' p' r'.
Proof.
  induction 1 as [|c a O F IH]; intros f s p r r' x token H A L; (destruct f as [|f]; [cbn in L; lia|]); cbn [app] in *.
  - rewrite app_nil_r. destruct A as [[<- D]|(w & FW & -> & S)].
    + destruct r as [|c r].
      * destruct (next_tok_stops cs f s p [] (x :: token) H I) as (s' & P & H').
        rewrite P. unfold tok_body. peek_at H'. exists s0, p. auto.
      * destruct (next_tok_stops cs f s p (c :: r) (x :: token) H (delim_stops _ _ D)) as (s' & P & H').
        rewrite P. destruct (body_delim cs f s' p c r x token H' D) as (s2 & P2 & H2). rewrite P2. eauto.
    + eapply next_tok_break; eauto.
  - destruct (next_tok_stops cs f s p (c :: a ++ r) (x :: token) H (ordinary_stops _ _ O)) as (s1 & P & H1).
    rewrite P. destruct (body_char cs f s1 p c (a ++ r) (x :: token) H1 O) as (s2 & P2 & H2). rewrite P2.
    cbn [app length] in *. destruct (IH f s2 _ r r' x (token ++ [c]) H2 A ltac:(lia)) as (s' & p' & P' & H').
    rewrite P'. exists s', p'. rewrite <- app_assoc. auto.
Qed.

(** ** Display names *)

Lemma phrase_false_stops t r : phrase true false t -> stops (t ++ LA :: r).
Proof.
  inversion 1; subst; cbn [app].
  - split; [reflexivity|discriminate].
  - apply ordinary_stops; auto.
  - split; [reflexivity|discriminate].
  - split; [reflexivity|discriminate].
Qed.

Definition name_tok (ty : addr_tok) : Prop := ty = TOK_QUOTED \/ ty = TOK_ATOM \/ ty = TOK_COMMENT.

(** The result of reading one token in a display name, [n] bytes long. *)
Definition phrase_post (r token : bytes) (n : nat) (o : outcome (addr_tok * bytes * istream)) : Prop :=
  (token = [] /\ exists s' p', o = Ok (TOK_TAG_OPEN, [], s') /\ St s' p' r) \/
  (exists ty tk s' p' b' t', o = Ok (ty, tk, s') /\ name_tok ty /\ ~ In NUL tk /\
     St s' p' (t' ++ LA :: r) /\ phrase true b' t' /\ length t' < n + length token).

Lemma FWS_not_stops w r : FWS w -> ~ stops (w ++ r).
Proof.
  intros [v F N|w1 w2 F1 F2 N].
  - destruct F; [congruence|]. cbn. intros [S _]. rewrite (WSP_b x) in S by auto. discriminate.
  - destruct F1; cbn; intros [S1 S2]; [congruence|]. rewrite (WSP_b x) in S1 by auto. discriminate.
Qed.

Lemma phrase_tok cs b t : phrase true b t -> forall f p r token,
  length (t ++ LA :: r) < S f -> ~ In NUL token ->
  (forall s, St s p (t ++ LA :: r) -> phrase_post r token (length t) (next_tok cs (S f) s token)) /\
  (stops (t ++ LA :: r) -> forall s, St s p (t ++ LA :: r) -> phrase_post r token (length t) (tok_body cs f s token)).
Proof.
  assert (REDUCE : forall f p x r token n, 
     (stops x -> forall s, St s p x -> phrase_post r token n (tok_body cs f s token)) -> stops x ->
     (forall s, St s p x -> phrase_post r token n (next_tok cs (S f) s token)) /\
     (stops x -> forall s, St s p x -> phrase_post r token n (tok_body cs f s token))).
  { intros f p x r token n B S. split; auto. intros s H.
    destruct (next_tok_stops cs f s p x token H S) as (s' & P & H'). rewrite P. auto. }
  induction 1 as [b|b c t O PH IH|w t F PH IH|b q t Q PH IH|b a t A PH IH]; intros f p r token L N; cbn [app] in *.
  - apply REDUCE; [|split; [reflexivity|discriminate]]. intros _ s H.
    destruct token as [|x token].
    + left. split; auto. destruct (body_one cs f s p LA r TOK_TAG_OPEN H) as (s2 & P2 & H2); [cbn; auto|].
      rewrite P2. eauto.
    + right. destruct (body_delim cs f s p LA r x token H) as (s2 & P2 & H2); [cbn; auto|].
      rewrite P2. exists TOK_ATOM, (x :: token), s2, p, b, [].
      split; [reflexivity|]. split; [right; auto|]. split; auto. split; [exact H2|]. split; [constructor|]. cbn. lia.
  - apply REDUCE; [|apply ordinary_stops; auto]. intros _ s H.
    destruct (body_char cs f s p c _ token H O) as (s2 & P2 & H2). rewrite P2.
    cbn [length] in L. destruct f as [|f]; [lia|].
    destruct (IH f (c :: p) r (token ++ [c]) ltac:(lia)) as [IH1 _].
    { apply not_In_app; auto. apply not_In_one. apply ordinary_tests; auto. }
    destruct (IH1 s2 H2) as [[E _]|(ty & tk & s' & p' & b' & t' & P' & NT & N' & H' & PH' & L')].
    { destruct token; discriminate. }
    right. exists ty, tk, s', p', b', t'. rewrite app_length in L'. cbn [length] in *.
    split; auto. split; auto. split; auto. split; auto. split; auto. lia.
  - rewrite <- app_assoc in *. pose proof (FWS_nonempty _ F) as NE.
    assert (LW : 0 < length w) by (destruct w; [congruence|cbn; lia]).
    pose proof (phrase_false_stops _ r PH) as S.
    split; [|intros ST; destruct (FWS_not_stops _ _ F ST)].
    intros s H. rewrite app_length in L.
    destruct token as [|x token].
    + destruct (next_tok_fws cs f s p w _ H F S) as (s1 & p1 & P & H1). rewrite P.
      destruct (IH f p1 r [] ltac:(lia) N) as [_ IH2].
      destruct (IH2 S s1 H1) as [D|(ty & tk & s' & p' & b' & t' & P' & NT & N' & H' & PH' & L')]; [left; auto|].
      right. exists ty, tk, s', p', b', t'. rewrite app_length. cbn [length] in *.
      split; auto. split; auto. split; auto. split; auto. split; auto. lia.
    + right. destruct (next_tok_break cs f s p w _ x token H F S) as (s1 & p1 & P & H1).
      rewrite P. exists TOK_ATOM, (x :: token), s1, p1, false, t.
      split; [reflexivity|]. split; [right; auto|]. split; auto. split; [exact H1|]. split; auto.
      rewrite app_length. cbn. lia.
  - rewrite <- app_assoc in *. cbn [app] in *.
    apply REDUCE; [|split; [reflexivity|discriminate]]. intros _ s H. right.
    destruct token as [|x token].
    + destruct (body_quoted cs f s p q _ H Q) as (tk & s' & p' & P & H' & N'). rewrite P.
      exists TOK_QUOTED, tk, s', p', true, t.
      split; [reflexivity|]. split; [left; auto|]. split; auto. split; [exact H'|]. split; auto.
      cbn. rewrite app_length. cbn. lia.
    + destruct (body_delim cs f s p DQ _ x token H) as (s2 & P2 & H2); [cbn; auto|].
      rewrite P2. exists TOK_ATOM, (x :: token), s2, p, b, (DQ :: q ++ DQ :: t).
      split; [reflexivity|]. split; [right; auto|]. split; auto.
      split; [cbn [app]; rewrite <- app_assoc; exact H2|]. split; [apply ph_quoted; auto|]. cbn. lia.
  - rewrite <- app_assoc in *. cbn [app] in *.
    apply REDUCE; [|split; [reflexivity|discriminate]]. intros _ s H. right.
    destruct token as [|x token].
    + destruct (body_comment cs f s p a _ H A) as (tk & s' & p' & P & H' & N'). rewrite P.
      exists TOK_COMMENT, tk, s', p', true, t.
      split; [reflexivity|]. split; [right; auto|]. split; auto. split; [exact H'|]. split; auto.
      cbn. rewrite app_length. cbn. lia.
    + destruct (body_delim cs f s p LP _ x token H) as (s2 & P2 & H2); [cbn; auto|].
      rewrite P2. exists TOK_ATOM, (x :: token), s2, p, b, (LP :: a ++ RP :: t).
      split; [reflexivity|]. split; [right; auto|]. split; auto.
      split; [cbn [app]; rewrite <- app_assoc; exact H2|]. split; [apply ph_comment; auto|]. cbn. lia.
Qed.

(** ** The main loop *)

Definition Loop cs rec := pal_loop cs rec.

(** One iteration, with the token read. *)
Definition pal_next (cs : bool) (rec : bytes -> outcome (list bytes)) (f : nat) (lasttype : addr_tok)
  (tokens : list bytes) (inOpentag : bool) (res : list bytes) (ty : addr_tok) (token : bytes) (s1 : istream)
  : outcome (list bytes) :=
  if has_char NUL token then perm
  else
    let again := pal_loop cs rec f s1 ty in
    let flush inOpen :=
      if (inOpen : bool) then perm
      else match tokens with
      | [] => again [] inOpen res
      | tok0 :: rest =>
          if (match ty with TOK_SEPARATOR => true | _ => false end)
             && negb (match lasttype with TOK_TAG_CLOSE => true | _ => false end)
             && negb (has_char AT (last tokens []))
          then again [] inOpen res
          else
            match lasttype, rest with
            | TOK_QUOTED, [] =>
                let* addrs := rec tok0 in again [] inOpen (res ++ addrs)
            | _, _ => again [] inOpen (res ++ [concat tokens])
            end
      end in
    match ty with
    | TOK_QUOTED | TOK_ATOM => again (tokens ++ [token]) inOpentag res
    | TOK_COMMENT => again tokens inOpentag res
    | TOK_TAG_OPEN => again [] true res
    | TOK_TAG_CLOSE => flush false
    | TOK_SEPARATOR | TOK_EOF => flush inOpentag
    end.

Lemma pal_loop_tok cs rec f s p r typ tokens op res ty tk s' : St s p r -> typ <> TOK_EOF ->
  next_tok cs (S (length r)) s [] = Ok (ty, tk, s') ->
  pal_loop cs rec (S f) s typ tokens op res = pal_next cs rec f typ tokens op res ty tk s'.
Proof.
  intros H N T. cbn [pal_loop]. unfold NextAddressListToken. rewrite (St_fuel _ _ _ H), T. cbn [obind].
  destruct typ; try congruence; reflexivity.
Qed.

Lemma NUL_no tk : ~ In NUL tk -> has_char NUL tk = false.
Proof. apply has_char_false. Qed.

(** A display name is dropped at the angle bracket. *)
Lemma pal_phrase cs rec n : forall b t, length t <= n -> phrase true b t ->
  forall f s p r typ tokens op res, St s p (t ++ LA :: r) -> typ <> TOK_EOF -> length (t ++ LA :: r) + 2 <= f ->
  exists f' s' p', pal_loop cs rec f s typ tokens op res = pal_loop cs rec f' s' TOK_TAG_OPEN [] true res /\
    St s' p' r /\ length r + 2 <= f'.
Proof.
  induction n as [|n IH]; intros b t LN PH f s p r typ tokens op res H NE F;
    (destruct f as [|f]; [lia|]);
    (destruct (phrase_tok cs b t PH (length (t ++ LA :: r)) p r [] ltac:(lia) ltac:(auto)) as [PT _]);
    (destruct (PT s H) as [[_ (s' & p' & P & H')]|(ty & tk & s' & p' & b' & t' & P & NT & N' & H' & PH' & L')]);
    try (cbn in L'; lia).
  1,2: rewrite (pal_loop_tok _ _ _ _ _ _ _ _ _ _ _ _ _ H NE P); exists f, s', p';
       (split; [reflexivity|]; split; [exact H'|]; rewrite app_length in F; cbn [length] in F; lia).
  rewrite (pal_loop_tok _ _ _ _ _ _ _ _ _ _ _ _ _ H NE P). unfold pal_next. rewrite (NUL_no _ N').
  cbn [length] in L'. rewrite app_length in F. cbn [length] in F.
  assert (F' : length (t' ++ LA :: r) + 2 <= f) by (rewrite app_length; cbn [length]; lia).
  assert (NE' : ty <> TOK_EOF) by (destruct NT as [->|[->| ->]]; discriminate).
  destruct NT as [->|[->| ->]]; eapply (IH b' t'); eauto; lia.
Qed.

(** ** Comments and folding whitespace between tokens *)

Definition opt_fws (w : bytes) : Prop := w = [] \/ FWS w.

Lemma cfws_cases b g : cfws true b g ->
  exists w g', g = w ++ g' /\ opt_fws w /\ (g' = [] \/ exists a t, g' = LP :: a ++ RP :: t /\ comment_text true a /\ cfws true true t).
Proof.
  inversion 1; subst.
  - exists [], []. unfold opt_fws. auto.
  - exists w, t. split; auto. split; [right; auto|]. inversion H1; subst; auto. right. eauto.
  - exists [], (LP :: a ++ RP :: t). unfold opt_fws. split; auto. split; auto. right. eauto.
Qed.

Lemma next_tok_opt cs f s p w r : St s p (w ++ r) -> opt_fws w -> stops r ->
  exists s' p', next_tok cs (S f) s [] = tok_body cs f s' [] /\ St s' p' r.
Proof.
  intros H [->|F] S.
  - destruct (next_tok_stops cs f s p r [] H S) as (s' & P & H'). eauto.
  - eapply next_tok_fws; eauto.
Qed.

(** Comments leave the tokens alone. *)
Lemma pal_cfws cs rec n : forall b g, length g <= n -> cfws true b g ->
  forall f s p r typ tokens op res, St s p (g ++ r) -> typ <> TOK_EOF -> length (g ++ r) + 2 <= f ->
  exists f' s' p' w typ', pal_loop cs rec f s typ tokens op res = pal_loop cs rec f' s' typ' tokens op res /\
    opt_fws w /\ St s' p' (w ++ r) /\ length (w ++ r) + 2 <= f' /\ (typ' = typ \/ typ' = TOK_COMMENT).
Proof.
  induction n as [|n IH]; intros b g LN C f s p r typ tokens op res H NE F.
  - destruct g; [|cbn in LN; lia]. exists f, s, p, [], typ. unfold opt_fws. split; auto.
  - destruct (cfws_cases b g C) as (w & g' & -> & OW & [->|(a & t & -> & CA & CT)]).
    + rewrite app_nil_r in H, F. exists f, s, p, w, typ. auto 8.
    + destruct f as [|f]; [lia|]. rewrite <- app_assoc in H.
      assert (X : (LP :: a ++ RP :: t) ++ r = LP :: a ++ RP :: t ++ r).
      { cbn. rewrite <- app_assoc. reflexivity. }
      rewrite X in H.
      destruct (next_tok_opt cs (length (w ++ LP :: a ++ RP :: t ++ r)) s p w _ H OW) as (s1 & p1 & P1 & H1).
      { split; [reflexivity|discriminate]. }
      destruct (body_comment cs (length (w ++ LP :: a ++ RP :: t ++ r)) s1 p1 a _ H1 CA) as (tk & s2 & p2 & P2 & H2 & N2).
      rewrite P2 in P1. rewrite (pal_loop_tok _ _ _ _ _ _ _ _ _ _ _ _ _ H NE P1).
      unfold pal_next. rewrite (NUL_no _ N2).
      rewrite !app_length in F, LN. cbn [length] in F, LN. rewrite !app_length in F, LN. cbn [length] in F, LN.
      destruct (IH true t ltac:(lia) CT f s2 p2 r TOK_COMMENT tokens op res H2 ltac:(discriminate))
        as (f' & s' & p' & w' & typ' & P' & OW' & H' & F' & T').
      { repeat (rewrite app_length in F; cbn [length] in F). rewrite app_length. lia. }
      exists f', s', p', w', typ'. rewrite P'. split; auto. split; auto. split; auto. split; auto.
      destruct T' as [->| ->]; auto.
Qed.

(** What follows an addr-spec. *)
Definition tail_ok (r : bytes) : Prop := match r with [] => True | c :: _ => delim c end.
Lemma tail_stops r : tail_ok r -> stops r.
Proof. destruct r as [|c r]; [auto|]. apply delim_stops. Qed.

Lemma after_atom_cfws g r : cfws true true g -> tail_ok r ->
  exists b g', after_atom (g ++ r) (g' ++ r) /\ cfws true b g' /\ length g' <= length g.
Proof.
  intros C T. inversion C; subst.
  - exists true, []. split; [|split; auto]. left. auto.
  - exists false, t. split; [|split; auto].
    + right. exists w. split; auto. split. { rewrite <- app_assoc. reflexivity. }
      inversion H0; subst; cbn [app]; [apply tail_stops; auto|]. split; [reflexivity|discriminate].
    + rewrite app_length. lia.
  - exists true, (LP :: a ++ RP :: t). split; [|split; auto]. left. split; auto. cbn. auto.
Qed.

(** Reading an addr-spec with what surrounds it. *)
Lemma pal_addr cs rec g1 a g2 : cfws true true g1 -> addr_spec a -> cfws true true g2 ->
  forall f s p r typ tokens op res, St s p (g1 ++ a ++ g2 ++ r) -> tail_ok r -> typ <> TOK_EOF ->
  length (g1 ++ a ++ g2 ++ r) + 2 <= f ->
  exists f' s' p' w typ', pal_loop cs rec f s typ tokens op res = pal_loop cs rec f' s' typ' (tokens ++ [a]) op res /\
    opt_fws w /\ St s' p' (w ++ r) /\ length (w ++ r) + 2 <= f' /\ (typ' = TOK_ATOM \/ typ' = TOK_COMMENT).
Proof.
  intros C1 [AO AT1] C2 f s p r typ tokens op res H T NE F.
  destruct (pal_cfws cs rec (length g1) true g1 ltac:(lia) C1 f s p _ typ tokens op res H NE F)
    as (f1 & s1 & p1 & w1 & typ1 & P1 & OW1 & H1 & F1 & T1).
  rewrite P1. assert (NE1 : typ1 <> TOK_EOF) by (destruct T1 as [->| ->]; auto; discriminate).
  destruct a as [|c a]; [destruct AT1|]. inversion AO as [|c' a' OC OA]; subst.
  destruct f1 as [|f1]; [lia|].
  set (big := w1 ++ (c :: a) ++ g2 ++ r) in *.
  destruct (next_tok_opt cs (length big) s1 p1 w1 _ H1 OW1) as (s2 & p2 & P2 & H2).
  { apply ordinary_stops; auto. }
  destruct (body_char cs (length big) s2 p2 c _ [] H2 OC) as (s3 & P3 & H3).
  destruct (after_atom_cfws g2 r C2 T) as (b & g' & AA & CG & LG).
  destruct (next_tok_atom cs a OA (length big) s3 _ (g2 ++ r) (g' ++ r) c [] H3 AA) as (s4 & p4 & P4 & H4).
  { subst big. rewrite !app_length. cbn [length]. lia. }
  assert (TK : next_tok cs (S (length big)) s1 [] = Ok (TOK_ATOM, c :: a, s4)).
  { rewrite P2, P3. cbn [app]. rewrite P4. reflexivity. }
  rewrite (pal_loop_tok _ _ _ _ _ _ _ _ _ _ _ _ _ H1 NE1 TK).
  unfold pal_next. rewrite NUL_no.
  2:{ intros I. rewrite Forall_forall in AO. apply AO in I. apply ordinary_tests in I. tauto. }
  destruct (pal_cfws cs rec (length g') b g' ltac:(lia) CG f1 s4 p4 r TOK_ATOM (tokens ++ [c :: a]) op res H4 ltac:(discriminate))
    as (f5 & s5 & p5 & w5 & typ5 & P5 & OW5 & H5 & F5 & T5).
  { subst big. rewrite !app_length in *. cbn [length] in *. lia. }
  exists f5, s5, p5, w5, typ5. split; auto.
Qed.

Lemma addr_has_at a : addr_spec a -> has_char AT (last [a] []) = true.
Proof.
  intros [_ I]. cbn. apply existsb_exists. exists AT. split; [exact I|apply ceqb_refl].
Qed.

(** One mailbox, followed by the end or a comma. *)
Definition mbox_post cs rec (res : list bytes) (a x : bytes) (o : outcome (list bytes)) : Prop :=
  match x with
  | [] => o = Ok (res ++ [a])
  | _ :: u => exists f' s' p', o = pal_loop cs rec f' s' TOK_SEPARATOR [] false (res ++ [a]) /\
       St s' p' u /\ length u + 2 <= f'
  end.

Definition list_tail (x : bytes) : Prop := match x with [] => True | c :: _ => c = chr 44 end.
Lemma list_tail_ok x : list_tail x -> tail_ok x.
Proof. destruct x as [|c x]; auto. cbn. intros ->. auto 6. Qed.

Lemma pal_mailbox cs rec a t : mailbox true a t -> forall f s p x typ res,
  St s p (t ++ x) -> list_tail x -> typ <> TOK_EOF -> length (t ++ x) + 2 <= f ->
  mbox_post cs rec res a x (pal_loop cs rec f s typ [] false res).
Proof.
  intros M f s p x typ res H LT NE F. pose proof (list_tail_ok x LT) as TO. pose proof (tail_stops x TO) as SX.
  destruct M as [g1 a g2 C1 A C2|ph g1 a g2 g3 PH C1 A C2 C3].
  - rewrite <- !app_assoc in H, F.
    destruct (pal_addr cs rec g1 a g2 C1 A C2 f s p x typ [] false res H TO NE F)
      as (f1 & s1 & p1 & w1 & typ1 & P1 & OW1 & H1 & F1 & T1). rewrite P1. clear P1. cbn [app].
    assert (NE1 : typ1 <> TOK_EOF) by (destruct T1 as [->| ->]; discriminate).
    destruct f1 as [|f1]; [lia|].
    destruct (next_tok_opt cs (length (w1 ++ x)) s1 p1 w1 x H1 OW1 SX) as (s2 & p2 & P2 & H2).
    destruct x as [|c u].
    + destruct (body_end cs (length (w1 ++ [])) s2 p2 H2) as (s3 & P3 & H3).
      rewrite P3 in P2. rewrite (pal_loop_tok _ _ _ _ _ _ _ _ _ _ _ _ _ H1 NE1 P2).
      unfold pal_next. cbn [has_char existsb]. cbn [andb].
      destruct f1 as [|f1]; [lia|].
      cbn. rewrite app_nil_r. destruct T1 as [->| ->]; reflexivity.
    + cbn in LT. subst c.
      destruct (body_one cs (length (w1 ++ chr 44 :: u)) s2 p2 (chr 44) u TOK_SEPARATOR H2) as (s3 & P3 & H3); [cbn; auto|].
      rewrite P3 in P2. rewrite (pal_loop_tok _ _ _ _ _ _ _ _ _ _ _ _ _ H1 NE1 P2).
      unfold pal_next. cbn [has_char existsb]. rewrite (addr_has_at a A). cbn [negb]. rewrite andb_false_r.
      exists f1, s3, (chr 44 :: p2). split.
      { cbn [concat]. rewrite app_nil_r. destruct T1 as [->| ->]; reflexivity. }
      split; auto. rewrite app_length in F1. cbn [length] in F1. lia.
  - repeat (rewrite <- ?app_assoc in H, F; cbn [app] in H, F).
    destruct (pal_phrase cs rec (length ph) true ph ltac:(lia) PH f s p _ typ [] false res H NE F)
      as (f1 & s1 & p1 & P1 & H1 & F1). rewrite P1. clear P1.
    destruct (pal_addr cs rec g1 a g2 C1 A C2 f1 s1 p1 (RA :: g3 ++ x) TOK_TAG_OPEN [] true res H1 ltac:(cbn; auto 6) ltac:(discriminate) F1)
      as (f2 & s2 & p2 & w2 & typ2 & P2 & OW2 & H2 & F2 & T2). rewrite P2. clear P2. cbn [app].
    assert (NE2 : typ2 <> TOK_EOF) by (destruct T2 as [->| ->]; discriminate).
    destruct f2 as [|f2]; [lia|].
    destruct (next_tok_opt cs (length (w2 ++ RA :: g3 ++ x)) s2 p2 w2 _ H2 OW2) as (s3 & p3 & P3 & H3).
    { split; [reflexivity|discriminate]. }
    destruct (body_one cs (length (w2 ++ RA :: g3 ++ x)) s3 p3 RA _ TOK_TAG_CLOSE H3) as (s4 & P4 & H4); [cbn; auto|].
    rewrite P4 in P3. rewrite (pal_loop_tok _ _ _ _ _ _ _ _ _ _ _ _ _ H2 NE2 P3).
    assert (E : pal_next cs rec f2 typ2 [a] true res TOK_TAG_CLOSE [] s4 = pal_loop cs rec f2 s4 TOK_TAG_CLOSE [] false (res ++ [a])).
    { unfold pal_next. cbn [has_char existsb concat andb]. rewrite app_nil_r. destruct T2 as [->| ->]; reflexivity. }
    rewrite E. clear E. rewrite app_length in F2. cbn [length] in F2.
    destruct (pal_cfws cs rec (length g3) true g3 ltac:(lia) C3 f2 s4 _ x TOK_TAG_CLOSE [] false (res ++ [a]) H4 ltac:(discriminate) ltac:(lia))
      as (f5 & s5 & p5 & w5 & typ5 & P5 & OW5 & H5 & F5 & T5). rewrite P5. clear P5.
    assert (NE5 : typ5 <> TOK_EOF) by (destruct T5 as [->| ->]; discriminate).
    destruct f5 as [|f5]; [lia|].
    destruct (next_tok_opt cs (length (w5 ++ x)) s5 p5 w5 x H5 OW5 SX) as (s6 & p6 & P6 & H6).
    destruct x as [|c u].
    + destruct (body_end cs (length (w5 ++ [])) s6 p6 H6) as (s7 & P7 & H7).
      rewrite P7 in P6. rewrite (pal_loop_tok _ _ _ _ _ _ _ _ _ _ _ _ _ H5 NE5 P6).
      unfold pal_next. cbn [has_char existsb]. destruct f5 as [|f5]; [lia|]. reflexivity.
    + cbn in LT. subst c.
      destruct (body_one cs (length (w5 ++ chr 44 :: u)) s6 p6 (chr 44) u TOK_SEPARATOR H6) as (s7 & P7 & H7); [cbn; auto|].
      rewrite P7 in P6. rewrite (pal_loop_tok _ _ _ _ _ _ _ _ _ _ _ _ _ H5 NE5 P6).
      unfold pal_next. cbn [has_char existsb].
      exists f5, s7, (chr 44 :: p6). split; [reflexivity|]. split; auto.
      rewrite app_length in F5. cbn [length] in F5. lia.
Qed.

Lemma pal_list cs rec l t : mailbox_list true l t -> forall f s p typ res,
  St s p t -> typ <> TOK_EOF -> length t + 2 <= f ->
  pal_loop cs rec f s typ [] false res = Ok (res ++ l).
Proof.
  induction 1 as [a t M|a t l u M ML IH]; intros f s p typ res H NE F.
  - rewrite <- (app_nil_r t) in H, F. apply (pal_mailbox cs rec a t M f s p [] typ res H I NE F).
  - destruct (pal_mailbox cs rec a t M f s p (chr 44 :: u) typ res H eq_refl NE F) as (f' & s' & p' & P & H' & F').
    rewrite P, (IH f' s' p' TOK_SEPARATOR (res ++ [a]) H' ltac:(discriminate) F'), <- app_assoc. reflexivity.
Qed.

Lemma ParseAddressList_rendered cs l t : mailbox_list true l t -> ParseAddressList cs t = Ok l.
Proof.
  intros M. unfold ParseAddressList. cbn [pal]. rewrite (St_fuel _ _ _ (St_open t)).
  apply (pal_list cs _ l t M _ _ [] TOK_SEPARATOR [] (St_open t)); [discriminate|lia].
Qed.

(** ** Consequences *)

Lemma cfws_snoc b g a : cfws true b g -> comment_text true a -> cfws true b (g ++ LP :: a ++ [RP]).
Proof.
  intros C A. induction C as [b|w t F C IH|b a' t A' C IH].
  - cbn. apply (cf_comment true b a []); auto. constructor.
  - rewrite <- app_assoc. apply cf_space; auto.
  - cbn [app]. rewrite <- app_assoc. cbn [app]. apply cf_comment; auto.
Qed.
Lemma cfws_cons g a : cfws true true g -> comment_text true a -> cfws true true ((LP :: a ++ [RP]) ++ g).
Proof. intros C A. cbn [app]. rewrite <- app_assoc. cbn [app]. apply cf_comment; auto. Qed.

Lemma comment_insert_bare cs a g1 ad g2 : comment_text true a -> cfws true true g1 -> addr_spec ad -> cfws true true g2 ->
  let c := LP :: a ++ [RP] in
  ParseAddressList cs (g1 ++ c ++ ad ++ c ++ g2) = ParseAddressList cs (g1 ++ ad ++ g2).
Proof.
  intros A C1 AD C2 c. rewrite (ParseAddressList_rendered cs [ad] (g1 ++ ad ++ g2)).
  - apply ParseAddressList_rendered. apply ml_one.
    replace (g1 ++ c ++ ad ++ c ++ g2) with ((g1 ++ c) ++ ad ++ (c ++ g2)) by (rewrite <- !app_assoc; reflexivity).
    apply mb_bare; auto; try (apply cfws_snoc; auto; fail); try (apply cfws_cons; auto; fail).
  - apply ml_one. apply mb_bare; auto.
Qed.

Lemma comment_insert_angle cs a p1 p2 g1 ad g2 g3 : comment_text true a -> phrase true true p2 ->
  phrase true true (p1 ++ p2) -> phrase true true (p1 ++ (LP :: a ++ [RP]) ++ p2) ->
  cfws true true g1 -> addr_spec ad -> cfws true true g2 -> cfws true true g3 ->
  let c := LP :: a ++ [RP] in
  ParseAddressList cs (p1 ++ c ++ p2 ++ LA :: g1 ++ c ++ ad ++ c ++ g2 ++ RA :: c ++ g3) =
  ParseAddressList cs (p1 ++ p2 ++ LA :: g1 ++ ad ++ g2 ++ RA :: g3).
Proof.
  intros A P2 P P' C1 AD C2 C3 c.
  rewrite (ParseAddressList_rendered cs [ad] (p1 ++ p2 ++ LA :: g1 ++ ad ++ g2 ++ RA :: g3)).
  - apply ParseAddressList_rendered. apply ml_one.
    replace (p1 ++ c ++ p2 ++ LA :: g1 ++ c ++ ad ++ c ++ g2 ++ RA :: c ++ g3)
      with ((p1 ++ c ++ p2) ++ LA :: (g1 ++ c) ++ ad ++ (c ++ g2) ++ RA :: (c ++ g3)) by (rewrite <- !app_assoc; reflexivity).
    apply mb_angle; auto; try (apply cfws_snoc; auto; fail); try (apply cfws_cons; auto; fail).
  - apply ml_one. rewrite app_assoc. apply mb_angle; auto.
Qed.

(** Where char is unsigned the quoted-string loop never ends at the end of the input. *)
Lemma quoted_loop_forever f : forall s p token, St s p [] -> quoted_loop false f s token = Diverge.
Proof.
  induction f as [|f IH]; intros s p token H; [reflexivity|]. cbn [quoted_loop]. get_at H.
  cbn [as_char andb]. replace (chr 255 =?c BSLASH) with false by reflexivity.
  replace (chr 255 =?c DQUOTE) with false by reflexivity. eauto.
Qed.

(** ** Witnesses *)

Lemma ordinary_dec c : (if in_dec ascii_dec c [SP; HT; CR; DQ; LP; LA; RA; chr 44; SEMI; NUL0] then false else true) = true -> ordinary c.
Proof. intros H I. destruct (in_dec _ _ _); [discriminate|tauto]. Qed.
Ltac ordinaries := repeat (constructor; [apply ordinary_dec; reflexivity|]); constructor.

Lemma mailbox_example : mailbox_list true [str "a@b"; str "c@d"] (str "a@b,""x \"" <y"" Jo (n\)) <c@d>").
Proof.
  apply (ml_more true (str "a@b") (str "a@b") [str "c@d"]).
  - apply (mb_bare true [] (str "a@b") []); [constructor|split; [ordinaries|cbn; auto]|constructor].
  - apply ml_one. apply (mb_angle true (str """x \"" <y"" Jo (n\)) ") [] (str "c@d") [] []);
      [|constructor|split; [ordinaries|cbn; auto]|constructor|constructor].
    assert (W : FWS [SP]) by (constructor; [repeat constructor|discriminate]).
    apply (ph_quoted true true (str "x \"" <y")).
    { repeat first [apply qd_end | apply qd_char; [cbn; intuition discriminate|] | apply qd_escape; [discriminate|]]. }
    apply (ph_space true [SP]); [exact W|].
    repeat (apply ph_char; [apply ordinary_dec; reflexivity|]).
    apply (ph_space true [SP]); [exact W|].
    apply (ph_comment true false (str "n\)")).
    { apply ct_char; [cbn; intuition discriminate|]. apply ct_escape; [discriminate|intros _; exact I|constructor]. }
    apply (ph_space true [SP]); [exact W|constructor].
Qed.

Lemma tame_comment_example : comment_text true (str "a (b \( c) d").
Proof.
  repeat (apply ct_char; [cbn; intuition discriminate|]).
  apply (ct_nested true (str "b \( c") (str " d")).
  - repeat first [apply ct_end | apply ct_escape; [discriminate|intros _; cbn; discriminate|] |
      apply ct_char; [cbn; intuition discriminate|]].
  - repeat first [apply ct_end | apply ct_char; [cbn; intuition discriminate|]].
Qed.

Lemma adjacent_escapes : exists a ad l, comment_text false a /\ addr_spec ad /\
  ParseAddressList true (LP :: a ++ RP :: ad) = Ok l /\ l <> [ad].
Proof.
  exists (str "\(\)"), (str "a@b"), [str ")a@b"]. split; [|split; [|split]].
  - repeat (apply ct_escape; [discriminate|discriminate|]). constructor.
  - split; [ordinaries|cbn; auto].
  - vm_compute. reflexivity.
  - discriminate.
Qed.
