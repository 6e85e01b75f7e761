(** ParseAddressList: proofs. *)
From Verif Require Import Bytes Outcome Stream Tokenizer BytesFacts StreamFacts TokenizerFacts
  SpecText SpecAddress QPFacts ListFacts.

(** ** Any input: termination and what an address can contain *)

Lemma quoted_loop_any f : forall s p r token, St s p r -> length r < f ->
  quoted_loop true f s token = perm \/
  exists t s' p' r', quoted_loop true f s token = Ok (t, s') /\ St s' p' r' /\
    length t + length r' < length token + length r.
Proof.
  induction f as [|f IH]; intros s p r token H L; [lia|]. cbn [quoted_loop].
  destruct r as [|c r].
  { get_at H. cbn [as_char andb]. rewrite ceqb_refl. auto. }
  get_at H. cbn [as_char andb length] in *.
  destruct (c =?c chr 255); [left; reflexivity|].
  destruct (c =?c BSLASH).
  - destruct r as [|d r]; peek_at H0; [left; reflexivity|]. get_at H0. cbn [length as_char] in *.
    destruct (IH s1 _ r (token ++ [d]) H1 ltac:(lia)) as [P|(t & s' & p' & r' & P & H' & LE)]; [left; auto|right].
    exists t, s', p', r'. rewrite app_length in LE. cbn [length] in LE. split; [assumption|]; split; [assumption|]; cbn [length] in *; lia.
  - destruct (c =?c DQUOTE).
    + right. exists token, s0, (c :: p), r. split; [reflexivity|]; split; [assumption|]; lia.
    + destruct (IH s0 _ r (token ++ [c]) H0 ltac:(lia)) as [P|(t & s' & p' & r' & P & H' & LE)]; [left; auto|right].
      exists t, s', p', r'. rewrite app_length in LE. cbn [length] in LE. split; [assumption|]; split; [assumption|]; cbn [length] in *; lia.
Qed.

(** The second half of an iteration of the comment loop. *)
Definition comment_step (f depth : nat) (s2 : istream) (token1 : bytes) : outcome (bytes * istream) :=
  let '(o3, s5) := peek s2 in
  let d1 := match o3 with
            | Some c3 => if c3 =?c LPAREN then S depth
                         else if c3 =?c RPAREN then pred depth else depth
            | None => depth
            end in
  let '(g, s6) := get s5 in
  match d1 with
  | O => comment_loop f O s6 token1
  | _ => comment_loop f d1 s6 (token1 ++ [as_char g])
  end.

Lemma comment_loop_S f d s token :
  comment_loop (S f) (S d) s token =
  let '(o, s1) := peek s in
  match o with
  | None => perm
  | Some c =>
      if c =?c BSLASH then
        let '(_, s2) := get s1 in
        let '(o2, s3) := peek s2 in
        match o2 with
        | None => perm
        | Some _ => let '(g, s4) := get s3 in comment_step f (S d) s4 (token ++ [as_char g])
        end
      else comment_step f (S d) s1 token
  end.
Proof.
  cbn [comment_loop]. destruct (peek s) as [[c|] s1]; [|reflexivity].
  destruct (c =?c BSLASH); [|reflexivity].
  destruct (get s1) as [g s2]. destruct (peek s2) as [[c2|] s3]; [|reflexivity].
  destruct (get s3) as [g4 s4]. reflexivity.
Qed.

Lemma comment_loop_any f : forall d s p r token, St s p r -> length r < f ->
  comment_loop f d s token = perm \/
  exists t s' p' r', comment_loop f d s token = Ok (t, s') /\ St s' p' r' /\ length r' <= length r.
Proof.
  induction f as [|f IH]; intros d s p r token H L; [lia|].
  destruct d as [|d].
  { right. exists token, s, p, r. auto. }
  rewrite comment_loop_S.
  assert (STEP : forall s p r token, St s p r -> length r < S f -> r <> [] ->
    comment_step f (S d) s token = perm \/
    exists t s' p' r', comment_step f (S d) s token = Ok (t, s') /\ St s' p' r' /\ length r' <= length r).
  { clear - IH. intros s p r token H L N. unfold comment_step. destruct r as [|c r]; [congruence|].
    peek_at H. get_at H. cbn [length] in L.
    assert (Q : forall d' tk, comment_loop f d' s0 tk = perm \/
       exists t s' p' r', comment_loop f d' s0 tk = Ok (t, s') /\ St s' p' r' /\ length r' <= length (c :: r)).
    { intros d' tk. destruct (IH d' s0 _ r tk H0 ltac:(lia)) as [P|(t & s' & p' & r' & P & H' & LE)]; [left; auto|right].
      exists t, s', p', r'. split; [assumption|]; split; [assumption|]; cbn [length] in *; lia. }
    destruct (if c =?c LPAREN then _ else _); apply Q. }
  destruct r as [|c r]; peek_at H; [left; reflexivity|].
  destruct (c =?c BSLASH).
  - get_at H. destruct r as [|c2 r]; peek_at H0; [left; reflexivity|]. get_at H0. cbn [as_char length] in *.
    destruct r as [|c3 r].
    + (* the escape is the last thing in the input *)
      unfold comment_step. peek_at H1. get_at H2.
      destruct (IH (S d) s3 _ [] ((token ++ [c2]) ++ [as_char None]) H3 ltac:(cbn; lia)) as [P|(t & s' & p' & r' & P & H' & LE)]; [left; auto|right].
      exists t, s', p', r'. split; [assumption|]; split; [assumption|]; cbn [length] in *; lia.
    + destruct (STEP s1 _ (c3 :: r) (token ++ [c2]) H1 ltac:(cbn [length] in *; lia) ltac:(discriminate)) as [P|(t & s' & p' & r' & P & H' & LE)]; [left; auto|right].
      exists t, s', p', r'. split; [assumption|]; split; [assumption|]; cbn [length] in *; lia.
  - apply (STEP s p (c :: r)); auto. discriminate.
Qed.

Definition tok_eqb (a b : addr_tok) : bool :=
  match a, b with
  | TOK_QUOTED, TOK_QUOTED | TOK_ATOM, TOK_ATOM | TOK_COMMENT, TOK_COMMENT | TOK_TAG_OPEN, TOK_TAG_OPEN
  | TOK_TAG_CLOSE, TOK_TAG_CLOSE | TOK_SEPARATOR, TOK_SEPARATOR | TOK_EOF, TOK_EOF => true
  | _, _ => false
  end.

(** One token never carries more bytes than were consumed, and every token but the end marker
    consumes something. *)
Definition tok_post (token r : bytes) (ty : addr_tok) (t r' : bytes) : Prop :=
  (ty <> TOK_COMMENT -> length t + length r' <= length token + length r) /\
  (ty = TOK_QUOTED -> length t + length r' < length token + length r) /\
  (ty <> TOK_EOF -> length r' < length token + length r) /\
  length r' <= length r.

Lemma next_tok_any f : forall s p r token, St s p r -> length r < f ->
  next_tok true f s token = perm \/
  exists ty t s' p' r', next_tok true f s token = Ok (ty, t, s') /\ St s' p' r' /\ tok_post token r ty t r'.
Proof.
  induction f as [|f IH]; intros s p r token H L; [lia|]. cbn [next_tok].
  assert (FIN : forall s' p' r', St s' p' r' -> length r' <= length r ->
    exists ty t s2 p2 r2,
      Ok (match token with [] => TOK_EOF | _ => TOK_ATOM end, token, s') = Ok (ty, t, s2) /\
      St s2 p2 r2 /\ tok_post token r ty t r2).
  { intros s' p' r' H' LE. eexists _, _, s', p', r'. split; [reflexivity|]. split; [assumption|].
    unfold tok_post. destruct token; cbn [length]; repeat split; try discriminate; try congruence; try lia. }
  destruct r as [|c0 r0]; peek_at H.
  { right. apply (FIN _ _ _ H0). auto. }
  pose proof (read_fws_St _ _ _ H) as R. remember (c0 :: r0) as r eqn:Er.
  destruct (l_fws r) as [[w r1]|] eqn:E; [|left; rewrite R; reflexivity].
  destruct R as (s1 & R & H1). rewrite R. cbn [obind].
  pose proof (l_fws_length _ _ _ E) as LW.
  assert (BODY : (w = [] \/ token = []) ->
     (let '(o1, s2) := peek s1 in
      match o1 with
      | None => Ok (match token with [] => TOK_EOF | _ => TOK_ATOM end, token, s2)
      | Some c =>
        if c =?c DQUOTE then
          match token with
          | _ :: _ => Ok (TOK_ATOM, token, s2)
          | [] => let '(_, s3) := get s2 in
                  let* (t, s4) := quoted_loop true (fuel_of s3) s3 [] in
                  Ok (TOK_QUOTED, t, s4)
          end
        else if c =?c LPAREN then
          match token with
          | _ :: _ => Ok (TOK_ATOM, token, s2)
          | [] => let '(_, s3) := get s2 in
                  let* (t, s4) := comment_loop (fuel_of s3) 1 s3 [] in
                  Ok (TOK_COMMENT, t, s4)
          end
        else if c =?c LANGLE then
          match token with
          | _ :: _ => Ok (TOK_ATOM, token, s2)
          | [] => let '(_, s3) := get s2 in Ok (TOK_TAG_OPEN, [], s3)
          end
        else if c =?c RANGLE then
          match token with
          | _ :: _ => Ok (TOK_ATOM, token, s2)
          | [] => let '(_, s3) := get s2 in Ok (TOK_TAG_CLOSE, [], s3)
          end
        else if (c =?c COMMA) || (c =?c SEMI) then
          match token with
          | _ :: _ => Ok (TOK_ATOM, token, s2)
          | [] => let '(_, s3) := get s2 in Ok (TOK_SEPARATOR, [], s3)
          end
        else let '(g, s3) := get s2 in next_tok true f s3 (token ++ [as_char g])
      end) = perm \/
     exists ty t s' p' r',
     (let '(o1, s2) := peek s1 in
      match o1 with
      | None => Ok (match token with [] => TOK_EOF | _ => TOK_ATOM end, token, s2)
      | Some c =>
        if c =?c DQUOTE then
          match token with
          | _ :: _ => Ok (TOK_ATOM, token, s2)
          | [] => let '(_, s3) := get s2 in
                  let* (t, s4) := quoted_loop true (fuel_of s3) s3 [] in
                  Ok (TOK_QUOTED, t, s4)
          end
        else if c =?c LPAREN then
          match token with
          | _ :: _ => Ok (TOK_ATOM, token, s2)
          | [] => let '(_, s3) := get s2 in
                  let* (t, s4) := comment_loop (fuel_of s3) 1 s3 [] in
                  Ok (TOK_COMMENT, t, s4)
          end
        else if c =?c LANGLE then
          match token with
          | _ :: _ => Ok (TOK_ATOM, token, s2)
          | [] => let '(_, s3) := get s2 in Ok (TOK_TAG_OPEN, [], s3)
          end
        else if c =?c RANGLE then
          match token with
          | _ :: _ => Ok (TOK_ATOM, token, s2)
          | [] => let '(_, s3) := get s2 in Ok (TOK_TAG_CLOSE, [], s3)
          end
        else if (c =?c COMMA) || (c =?c SEMI) then
          match token with
          | _ :: _ => Ok (TOK_ATOM, token, s2)
          | [] => let '(_, s3) := get s2 in Ok (TOK_SEPARATOR, [], s3)
          end
        else let '(g, s3) := get s2 in next_tok true f s3 (token ++ [as_char g])
      end) = Ok (ty, t, s') /\ St s' p' r' /\ tok_post token r ty t r').
  { intros NN. destruct r1 as [|c r1]; peek_at H1.
    { right. apply (FIN _ _ _ H0). cbn; lia. }
    cbn [length] in LW.
    assert (ATOM : forall x tk, token = x :: tk -> exists ty t s' p' r', Ok (TOK_ATOM, x :: tk, s1) = Ok (ty, t, s') /\ St s' p' r' /\ tok_post token r ty t r').
    { intros x tk ->. eexists _, _, s1, _, (c :: r1). split; [reflexivity|]. split; [eassumption|].
      unfold tok_post. cbn [length]. repeat split; try discriminate; lia. }
    assert (ONE : forall ty, ty <> TOK_QUOTED -> token = [] -> exists s3 p', get s1 = (Some c, s3) /\ St s3 p' r1 /\ tok_post token r ty [] r1).
    { intros ty N1 ->. get_at H1. eexists _, _. split; [reflexivity|]. split; [eassumption|].
      unfold tok_post. cbn [length]. repeat split; try congruence; lia. }
    destruct (c =?c DQUOTE).
    { destruct token as [|x tk]; [|right; apply ATOM; auto].
      get_at H1. rewrite (St_fuel _ _ _ H0).
      destruct (quoted_loop_any (S (length r1)) s0 _ r1 [] H0 ltac:(lia)) as [P|(t & s' & p' & r' & P & H' & LE)]; rewrite P; [left; auto|right].
      cbn [obind]. eexists _, _, _, _, _. split; [reflexivity|]. split; [eassumption|].
      unfold tok_post. cbn [length] in *. repeat split; intros; lia. }
    destruct (c =?c LPAREN).
    { destruct token as [|x tk]; [|right; apply ATOM; auto].
      get_at H1. rewrite (St_fuel _ _ _ H0).
      destruct (comment_loop_any (S (length r1)) 1 s0 _ r1 [] H0 ltac:(lia)) as [P|(t & s' & p' & r' & P & H' & LE)]; rewrite P; [left; auto|right].
      cbn [obind]. eexists _, _, _, _, _. split; [reflexivity|]. split; [eassumption|].
      unfold tok_post. cbn [length] in *. repeat split; intros; try congruence; try lia. }
    destruct (c =?c LANGLE).
    { destruct token as [|x tk]; [|right; apply ATOM; auto].
      destruct (ONE TOK_TAG_OPEN) as (s3 & p' & G & H3 & TP); try discriminate; auto. rewrite G. right.
      eexists _, _, _, _, _. split; [reflexivity|]. eauto. }
    destruct (c =?c RANGLE).
    { destruct token as [|x tk]; [|right; apply ATOM; auto].
      destruct (ONE TOK_TAG_CLOSE) as (s3 & p' & G & H3 & TP); try discriminate; auto. rewrite G. right.
      eexists _, _, _, _, _. split; [reflexivity|]. eauto. }
    destruct ((c =?c COMMA) || (c =?c SEMI)).
    { destruct token as [|x tk]; [|right; apply ATOM; auto].
      destruct (ONE TOK_SEPARATOR) as (s3 & p' & G & H3 & TP); try discriminate; auto. rewrite G. right.
      eexists _, _, _, _, _. split; [reflexivity|]. eauto. }
    get_at H1. cbn [as_char].
    destruct (IH s0 _ r1 (token ++ [c]) H0 ltac:(lia)) as [P|(ty & t & s' & p' & r' & P & H' & (T1 & T2 & T3 & T4))]; [left; auto|right].
    exists ty, t, s', p', r'. split; auto. split; auto. rewrite app_length in *. cbn [length] in *.
    unfold tok_post. repeat split; try intros Q; try (specialize (T1 Q)); try (specialize (T2 Q)); try (specialize (T3 Q)); lia. }
  destruct w as [|x w]; [apply BODY; auto|]. destruct token as [|y token]; [apply BODY; auto|].
  right. apply (FIN _ _ _ H1). lia.
Qed.

Lemma has_char_false c s : has_char c s = false <-> ~ In c s.
Proof.
  unfold has_char. split.
  - intros H I. assert (existsb (fun x => x =?c c) s = true); [|congruence].
    apply existsb_exists. exists c. split; auto. apply ceqb_refl.
  - intros N. destruct (existsb _ s) eqn:E; auto. apply existsb_exists in E as (x & I & E).
    apply ceqb_eq in E. subst. tauto.
Qed.

Definition sum_len (l : list bytes) : nat := length (concat l).

Lemma sum_len_app a b : sum_len (a ++ b) = sum_len a + sum_len b.
Proof. unfold sum_len. rewrite concat_app, app_length. reflexivity. Qed.
Lemma sum_len_one a : sum_len [a] = length a.
Proof. unfold sum_len. cbn. rewrite app_nil_r. reflexivity. Qed.

(** An address: no NUL, at most [n] bytes. *)
Definition addr_ok (n : nat) (a : bytes) : Prop := ~ In NUL a /\ length a <= n.

Definition pal_ok (n : nat) (o : outcome (list bytes)) : Prop :=
  o = perm \/ exists l, o = Ok l /\ Forall (addr_ok n) l.

Lemma pal_loop_any (rec : bytes -> outcome (list bytes)) (n : nat) :
  (forall t, length t < n -> pal_ok n (rec t)) ->
  forall f s p r typ tokens inOpen res,
  St s p r -> length r + 2 <= f \/ (typ = TOK_EOF /\ 1 <= f) ->
  sum_len tokens + length r <= n -> (typ = TOK_QUOTED -> sum_len tokens + length r < n) ->
  Forall (fun t => ~ In NUL t) tokens -> Forall (addr_ok n) res ->
  pal_ok n (pal_loop true rec f s typ tokens inOpen res).
Proof.
  intros REC. induction f as [|f IH]; intros s p r typ tokens inOpen res H F LN LQ NT AR; [lia|].
  cbn [pal_loop].
  assert (TE : typ = TOK_EOF \/ typ <> TOK_EOF) by (destruct typ; auto; right; discriminate).
  destruct TE as [->|TE]. { right. eauto. }
  assert (F' : length r + 2 <= S f) by (destruct F as [F|[F _]]; [auto|congruence]). clear F.
  match goal with |- pal_ok n (match _ with TOK_QUOTED => ?x | TOK_ATOM => _ | TOK_COMMENT => _ | TOK_TAG_OPEN => _
      | TOK_TAG_CLOSE => _ | TOK_SEPARATOR => _ | TOK_EOF => _ end) =>
    enough (G : pal_ok n x) by (destruct typ; auto; congruence) end.
  unfold NextAddressListToken. rewrite (St_fuel _ _ _ H).
  destruct (next_tok_any (S (length r)) s p r [] H ltac:(lia)) as [P|(ty & t & s' & p' & r' & P & H' & (T1 & T2 & T3 & T4))]; rewrite P.
  { left. reflexivity. }
  cbn [obind]. destruct (has_char NUL t) eqn:HN; [left; reflexivity|]. apply has_char_false in HN.
  cbn [length] in *.
  assert (FU : length r' + 2 <= f \/ (ty = TOK_EOF /\ 1 <= f)).
  { destruct ty; try (left; assert (length r' < 0 + length r) by (apply T3; discriminate); lia). right. split; auto. lia. }
  (* the same object with other tokens *)
  assert (AGAIN : forall tk op rs, sum_len tk + length r' <= n -> (ty = TOK_QUOTED -> sum_len tk + length r' < n) ->
     Forall (fun t => ~ In NUL t) tk -> Forall (addr_ok n) rs ->
     pal_ok n (pal_loop true rec f s' ty tk op rs)).
  { intros. eapply IH; eauto. }
  assert (EMPTY : forall op rs, ty <> TOK_QUOTED -> Forall (addr_ok n) rs ->
     pal_ok n (pal_loop true rec f s' ty [] op rs)).
  { intros op rs NQ AS. apply AGAIN; auto; unfold sum_len; cbn; [lia|congruence]. }
  assert (FLUSH : forall op : bool, ty <> TOK_QUOTED ->
    pal_ok n (if op then perm else match tokens with
              | [] => pal_loop true rec f s' ty [] op res
              | tok0 :: rest =>
                  if (match ty with TOK_SEPARATOR => true | _ => false end)
                     && negb (match typ with TOK_TAG_CLOSE => true | _ => false end)
                     && negb (has_char AT (last tokens []))
                  then pal_loop true rec f s' ty [] op res
                  else
                    match typ, rest with
                    | TOK_QUOTED, [] =>
                        let* addrs := rec tok0 in pal_loop true rec f s' ty [] op (res ++ addrs)
                    | _, _ => pal_loop true rec f s' ty [] op (res ++ [concat tokens])
                    end
              end)).
  { intros op NQ. destruct op; [left; reflexivity|].
    destruct tokens as [|tok0 rest]; [apply EMPTY; auto|].
    match goal with |- pal_ok n (if ?b then _ else _) => destruct b; [apply EMPTY; auto|] end.
    assert (CC : pal_ok n (pal_loop true rec f s' ty [] false (res ++ [concat (tok0 :: rest)]))).
    { apply EMPTY; auto. apply Forall_app. split; auto. constructor; auto. split.
      - intros I. apply in_concat in I as (x & I1 & I2). rewrite Forall_forall in NT. eapply NT; eauto.
      - unfold sum_len in LN. lia. }
    destruct typ, rest; auto.
    destruct (REC tok0) as [RP|(l & RP & RF)].
    { specialize (LQ eq_refl). rewrite sum_len_one in LQ. lia. }
    - rewrite RP. left. reflexivity.
    - rewrite RP. cbn [obind]. apply EMPTY; auto. apply Forall_app. auto. }
  destruct ty; try (apply FLUSH; discriminate).
  - apply AGAIN; auto; try (apply Forall_app; split; auto); rewrite sum_len_app, sum_len_one; specialize (T2 eq_refl); intros; lia.
  - apply AGAIN; auto; try (apply Forall_app; split; auto); try congruence.
    rewrite sum_len_app, sum_len_one. assert (length t + length r' <= 0 + length r) by (apply T1; discriminate). lia.
  - apply AGAIN; auto; try congruence. lia.
  - apply EMPTY; auto. discriminate.
  - apply (FLUSH false). discriminate.
Qed.

Lemma pal_any d : forall input, length input < d -> pal_ok (length input) (pal true d input).
Proof.
  induction d as [|d IH]; intros input L; [lia|]. cbn [pal].
  apply (pal_loop_any (pal true d) (length input)) with (p := []) (r := input); auto.
  - intros t LT. destruct (IH t ltac:(lia)) as [P|(l & P & F)]; [left; auto|right].
    exists l. split; auto. eapply Forall_impl; [|exact F]. intros a [A1 A2]. split; auto. lia.
  - apply St_open.
  - rewrite (St_fuel _ _ _ (St_open input)). left. lia.
  - discriminate.
Qed.

Lemma ParseAddressList_any input :
  ParseAddressList true input = perm \/
  exists l, ParseAddressList true input = Ok l /\
    Forall (fun a => ~ In (chr 0) a /\ length a <= length input) l.
Proof. apply pal_any. lia. Qed.
