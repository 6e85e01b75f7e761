(** The work of reading an address list: bounds. *)
From Verif Require Import Bytes Outcome Stream Tokenizer BytesFacts StreamFacts TokenizerFacts SpecText SpecAddress SpecAddressAll SpecDepth
  QPFacts ListFacts AddressFacts AddressParse AddressClean ListExact ListWide AddressWide DepthFacts Work ListWork AddressWork.

Lemma quoted_bound f : forall s p r token, St s p r -> length r < f ->
  match quoted_loop true f s token with
  | Ok (t, s') => exists p' r', St s' p' r' /\ (exists a, r = a ++ r') /\ length t + length r' < length token + length r /\ quoted_work true f s + 3 * length r' <= 3 * length r
  | Throw _ => quoted_work true f s <= 3 * length r + 2
  | _ => False
  end.
Proof.
  induction f as [|f IH]; intros s p r token H L; [lia|]. cbn [quoted_loop quoted_work].
  destruct r as [|c r].
  { get_at H. cbn [as_char andb]. rewrite ceqb_refl. unfold perm. lia. }
  get_at H. cbn [as_char andb length] in *.
  destruct (c =?c chr 255); [unfold perm; lia|].
  destruct (c =?c BSLASH).
  - destruct r as [|d r]; peek_at H0; [unfold perm; lia|]. get_at H0. cbn [length as_char] in *.
    specialize (IH s1 _ r (token ++ [d]) H1 ltac:(lia)). destruct (quoted_loop true f s1 (token ++ [d])) as [[t s']| | |]; auto; [|lia].
    destruct IH as (p' & r' & H' & (a & ->) & LE & W). exists p', r'. rewrite app_length in LE. cbn [length] in LE. split; [assumption|]. split; [exists (c :: d :: a); reflexivity|]. lia.
  - destruct (c =?c DQUOTE).
    + exists (c :: p), r. split; [assumption|]. split; [exists [c]; reflexivity|]. lia.
    + specialize (IH s0 _ r (token ++ [c]) H0 ltac:(lia)). destruct (quoted_loop true f s0 (token ++ [c])) as [[t s']| | |]; auto; [|lia].
      destruct IH as (p' & r' & H' & (a & ->) & LE & W). exists p', r'. rewrite app_length in LE. cbn [length] in LE. split; [assumption|]. split; [exists (c :: a); reflexivity|]. lia.
Qed.

Definition step_work (f depth : nat) (s2 : istream) : nat :=
  let '(o3, s5) := peek s2 in
  let d1 := match o3 with
            | Some c3 => if c3 =?c LPAREN then S depth else if c3 =?c RPAREN then pred depth else depth
            | None => depth
            end in
  let '(_, s6) := get s5 in
  2 + comment_work f d1 s6.
Lemma comment_bound f : forall d s p r token, St s p r -> length r < f ->
  match comment_loop f d s token with
  | Ok (t, s') => exists p' r', St s' p' r' /\ (exists a, r = a ++ r') /\ comment_work f d s + 6 * length r' <= 6 * length r
  | Throw _ => comment_work f d s <= 6 * length r + 1
  | _ => False
  end.
Proof.
  induction f as [|f IH]; intros d s p r token H L; [lia|].
  destruct d as [|d].
  { cbn [comment_loop comment_work]. exists p, r. split; auto. split; [exists []; reflexivity|lia]. }
  assert (CW : comment_work (S f) (S d) s = let '(o, s1) := peek s in
      1 + match o with None => 0 | Some c => if c =?c BSLASH then let '(_, s2) := get s1 in let '(o2, s3) := peek s2 in
            2 + match o2 with None => 0 | Some _ => let '(_, s4) := get s3 in 1 + step_work f (S d) s4 end else step_work f (S d) s1 end) by reflexivity.
  rewrite CW, comment_loop_S. clear CW.
  assert (STEP : forall s p c r token, St s p (c :: r) -> length r < f ->
    match comment_step f (S d) s token with
    | Ok (t, s') => exists p' r', St s' p' r' /\ (exists a, c :: r = a ++ r') /\ step_work f (S d) s + 6 * length r' <= 6 * length r + 2
    | Throw _ => step_work f (S d) s <= 6 * length r + 3
    | _ => False
    end).
  { clear - IH. intros s p c r token H L. unfold comment_step, step_work. peek_at H. get_at H.
    assert (Q : forall d' tk, match comment_loop f d' s0 tk with
      | Ok (t, s') => exists p' r', St s' p' r' /\ (exists a, c :: r = a ++ r') /\ 2 + comment_work f d' s0 + 6 * length r' <= 6 * length r + 2
      | Throw _ => 2 + comment_work f d' s0 <= 6 * length r + 3
      | _ => False
      end).
    { intros d' tk. specialize (IH d' s0 _ r tk H0 L). destruct (comment_loop f d' s0 tk) as [[t s']| | |]; auto; [|lia].
      destruct IH as (p' & r' & H' & (a & ->) & W). exists p', r'. split; auto. split; [exists (c :: a); reflexivity|lia]. }
    destruct (if c =?c LPAREN then _ else _); apply Q. }
  destruct r as [|c r]; peek_at H; [unfold perm; lia|]. cbn [length] in L.
  destruct (c =?c BSLASH).
  - get_at H. destruct r as [|c2 r]; peek_at H0; [unfold perm; cbn [length]; lia|]. get_at H0. cbn [as_char length] in *.
    destruct r as [|c3 r].
    + unfold comment_step, step_work. peek_at H1. get_at H2. destruct f as [|f]; [lia|]. cbn [comment_loop comment_work].
      destruct (peek_nil _ _ H3) as (s4 & E4 & _). rewrite E4. unfold perm. cbn [length]. lia.
    + cbn [length] in *. specialize (STEP s1 _ c3 r (token ++ [c2]) H1 ltac:(lia)). destruct (comment_step f (S d) s1 (token ++ [c2])) as [[t s']| | |]; auto; [|lia].
      destruct STEP as (p' & r' & H' & (a & E') & W). exists p', r'. split; auto. split; [exists (c :: c2 :: a); cbn [app]; rewrite E'; reflexivity|lia].
  - specialize (STEP s p c r token H ltac:(lia)). destruct (comment_step f (S d) s token) as [[t s']| | |]; auto; [|cbn [length]; lia].
    destruct STEP as (p' & r' & H' & E' & W). exists p', r'. split; auto. split; auto. cbn [length]. lia.
Qed.

Section Bound.
  (** [G]: the texts considered; [Q]: what a call of ReadWhiteSpace costs apart from the bytes it consumes. *)
  Variables (G : bytes -> Prop) (Q : nat).
  Hypothesis G_skip : forall a r, G (a ++ r) -> G r.
  Hypothesis G_quoted : forall r v r', one true r (Some (Word true v)) r' -> G r -> G v.
  Hypothesis cost : forall s p r, St s p r -> G r -> fws_work s <= match l_fws r with Some (w, _) => Q + 2 * length w | None => Q + 2 * length r end.

  Lemma next_bound f : forall s p r token, St s p r -> G r -> length r < f ->
    match next_tok true f s token with
    | Ok (ty, t, s') => exists p' r', St s' p' r' /\ G r' /\ length r' <= length r /\ (ty <> TOK_EOF -> length r' < length token + length r) /\
        (ty = TOK_QUOTED -> length t + 2 + length r' <= length token + length r) /\
        next_work true f s token + (Q + 6) * length r' <= (Q + 6) * length r + Q + 6
    | Throw _ => next_work true f s token <= (Q + 6) * length r + Q + 6
    | _ => False
    end.
  Proof.
    induction f as [|f IH]; intros s p r token H GR L; [lia|]. cbn [next_tok next_work].
    destruct r as [|c0 r0]; peek_at H.
    { exists p, []. split; auto. split; auto. split; auto. split; [|split]; [| |lia].
      - destruct token; [congruence|]. cbn. lia.
      - destruct token; discriminate. }
    pose proof (read_fws_St _ _ _ H) as R. pose proof (cost _ _ _ H GR) as K. remember (c0 :: r0) as r eqn:Er.
    destruct (l_fws r) as [[w r1]|] eqn:E; [|rewrite R in *; cbn [obind perm]; cbn iota; nia].
    destruct R as (s1 & R & H1). rewrite R. cbn [obind]. apply l_fws_app in E. assert (LE : length r = length w + length r1) by (rewrite E; apply app_length).
    assert (G1 : G r1) by (rewrite E in GR; eapply G_skip; eauto).
    assert (L1 : 1 <= length r) by (rewrite Er; cbn; lia).
    assert (BREAK : forall x tk, token = x :: tk -> w <> [] -> exists p' r', St s1 p' r' /\ G r' /\ length r' <= length r /\ (TOK_ATOM <> TOK_EOF -> length r' < length token + length r) /\
        (TOK_ATOM = TOK_QUOTED -> length token + 2 + length r' <= length token + length r) /\
        1 + (fws_work s + 0) + (Q + 6) * length r' <= (Q + 6) * length r + Q + 6).
    { intros x tk -> NW. exists (rev w ++ p), r1. split; auto. split; auto. split; [lia|]. split; [cbn [length]; lia|]. split; [discriminate|].
      rewrite LE. nia. }
    destruct w as [|x w]; [|destruct token as [|y token]; [|exact (BREAK y token eq_refl ltac:(discriminate))]];
      (destruct r1 as [|c r1];
       [peek_at H1; match goal with |- exists p' r', St ?s _ _ /\ _ => idtac | _ => idtac end;
        eexists _, []; split; [eassumption|]; split; [assumption|]; split; [cbn; lia|]; split; [cbn [length] in *; try (destruct token); cbn [length]; try congruence; lia|];
        split; [try (destruct token); discriminate|cbn [length] in *; nia]|]).
    - peek_at H1. cbn [length] in LE, K.
      assert (ATOM : forall x tk, token = x :: tk -> exists p' r', St s1 p' r' /\ G r' /\ length r' <= length r /\ (TOK_ATOM <> TOK_EOF -> length r' < length token + length r) /\
        (TOK_ATOM = TOK_QUOTED -> length token + 2 + length r' <= length token + length r) /\
        1 + (fws_work s + (1 + 0)) + (Q + 6) * length r' <= (Q + 6) * length r + Q + 6).
      { intros x tk ->. exists (rev [] ++ p), (c :: r1). split; auto. split; auto. cbn [length] in *. split; [lia|]. split; [lia|]. split; [discriminate|]. nia. }
      assert (ONE : forall ty, ty <> TOK_QUOTED -> exists s3 p', get s1 = (Some c, s3) /\ St s3 p' r1 /\ G r1 /\ length r1 <= length r /\ (ty <> TOK_EOF -> length r1 < 0 + length r) /\
        (ty = TOK_QUOTED -> 0 + 2 + length r1 <= 0 + length r) /\ 1 + (fws_work s + (1 + 1)) + (Q + 6) * length r1 <= (Q + 6) * length r + Q + 6).
      { intros ty NQ. get_at H1. eexists _, _. split; [reflexivity|]. split; [eassumption|]. split; [apply (G_skip [c]); exact G1|]. split; [lia|]. split; [lia|]. split; [congruence|]. nia. }
      assert (G2 : G r1) by (apply (G_skip [c]); exact G1).
      destruct (c =?c DQUOTE).
      { destruct token as [|x tk]; [|exact (ATOM x tk eq_refl)].
        get_at H1. rewrite (St_fuel _ _ _ H0). pose proof (quoted_bound (S (length r1)) s0 _ r1 [] H0 ltac:(lia)) as B.
        destruct (quoted_loop true (S (length r1)) s0 []) as [[t s']| | |]; cbn [obind]; auto; [|cbn [length] in *; nia].
        destruct B as (p' & r' & H' & (a & EA) & LB & W). exists p', r'. split; auto. assert (length r1 = length a + length r') by (rewrite EA; apply app_length).
        split; [rewrite EA in G2; eapply G_skip; eauto|]. cbn [length] in *. split; [lia|]. split; [lia|]. split; [lia|]. nia. }
      destruct (c =?c LPAREN).
      { destruct token as [|x tk]; [|exact (ATOM x tk eq_refl)].
        get_at H1. rewrite (St_fuel _ _ _ H0). pose proof (comment_bound (S (length r1)) 1 s0 _ r1 [] H0 ltac:(lia)) as B.
        destruct (comment_loop (S (length r1)) 1 s0 []) as [[t s']| | |]; cbn [obind]; auto; [|cbn [length] in *; nia].
        destruct B as (p' & r' & H' & (a & EA) & W). exists p', r'. split; auto. assert (length r1 = length a + length r') by (rewrite EA; apply app_length).
        split; [rewrite EA in G2; eapply G_skip; eauto|]. cbn [length] in *. split; [lia|]. split; [lia|]. split; [discriminate|]. nia. }
      destruct (c =?c LANGLE); cbn [orb].
      { destruct token as [|x tk]; [|exact (ATOM x tk eq_refl)]. destruct (ONE TOK_TAG_OPEN) as (s3 & p' & GE & REST); [discriminate|]. rewrite GE. exists p', r1. exact REST. }
      destruct (c =?c RANGLE); cbn [orb].
      { destruct token as [|x tk]; [|exact (ATOM x tk eq_refl)]. destruct (ONE TOK_TAG_CLOSE) as (s3 & p' & GE & REST); [discriminate|]. rewrite GE. exists p', r1. exact REST. }
      destruct ((c =?c COMMA) || (c =?c SEMI)).
      { destruct token as [|x tk]; [|exact (ATOM x tk eq_refl)]. destruct (ONE TOK_SEPARATOR) as (s3 & p' & GE & REST); [discriminate|]. rewrite GE. exists p', r1. exact REST. }
      get_at H1. cbn [as_char length] in *. specialize (IH s0 _ r1 (token ++ [c]) H0 G2 ltac:(lia)).
      destruct (next_tok true f s0 (token ++ [c])) as [[[ty t] s']| | |]; auto; [|nia].
      destruct IH as (p' & r' & H' & G' & LR & T3 & T2 & W). exists p', r'. split; auto. split; auto. rewrite app_length in *. cbn [length] in *.
      split; [lia|]. split; [intros NE; specialize (T3 NE); lia|]. split; [intros NE; specialize (T2 NE); lia|]. nia.
    - peek_at H1. cbn [length] in LE, K.
      assert (ONE : forall ty, ty <> TOK_QUOTED -> exists s3 p', get s1 = (Some c, s3) /\ St s3 p' r1 /\ G r1 /\ length r1 <= length r /\ (ty <> TOK_EOF -> length r1 < 0 + length r) /\
        (ty = TOK_QUOTED -> 0 + 2 + length r1 <= 0 + length r) /\ 1 + (fws_work s + (1 + 1)) + (Q + 6) * length r1 <= (Q + 6) * length r + Q + 6).
      { intros ty NQ. get_at H1. eexists _, _. split; [reflexivity|]. split; [eassumption|]. split; [apply (G_skip [c]); exact G1|]. split; [lia|]. split; [lia|]. split; [congruence|]. nia. }
      assert (G2 : G r1) by (apply (G_skip [c]); exact G1).
      destruct (c =?c DQUOTE).
      { get_at H1. rewrite (St_fuel _ _ _ H0). pose proof (quoted_bound (S (length r1)) s0 _ r1 [] H0 ltac:(lia)) as B.
        destruct (quoted_loop true (S (length r1)) s0 []) as [[t s']| | |]; cbn [obind]; auto; [|cbn [length] in *; nia].
        destruct B as (p' & r' & H' & (a & EA) & LB & W). exists p', r'. split; auto. assert (length r1 = length a + length r') by (rewrite EA; apply app_length).
        split; [rewrite EA in G2; eapply G_skip; eauto|]. cbn [length] in *. split; [lia|]. split; [lia|]. split; [lia|]. nia. }
      destruct (c =?c LPAREN).
      { get_at H1. rewrite (St_fuel _ _ _ H0). pose proof (comment_bound (S (length r1)) 1 s0 _ r1 [] H0 ltac:(lia)) as B.
        destruct (comment_loop (S (length r1)) 1 s0 []) as [[t s']| | |]; cbn [obind]; auto; [|cbn [length] in *; nia].
        destruct B as (p' & r' & H' & (a & EA) & W). exists p', r'. split; auto. assert (length r1 = length a + length r') by (rewrite EA; apply app_length).
        split; [rewrite EA in G2; eapply G_skip; eauto|]. cbn [length] in *. split; [lia|]. split; [lia|]. split; [discriminate|]. nia. }
      destruct (c =?c LANGLE); cbn [orb].
      { destruct (ONE TOK_TAG_OPEN) as (s3 & p' & GE & REST); [discriminate|]. rewrite GE. exists p', r1. exact REST. }
      destruct (c =?c RANGLE); cbn [orb].
      { destruct (ONE TOK_TAG_CLOSE) as (s3 & p' & GE & REST); [discriminate|]. rewrite GE. exists p', r1. exact REST. }
      destruct ((c =?c COMMA) || (c =?c SEMI)).
      { destruct (ONE TOK_SEPARATOR) as (s3 & p' & GE & REST); [discriminate|]. rewrite GE. exists p', r1. exact REST. }
      get_at H1. cbn [as_char length app] in *. specialize (IH s0 _ r1 [c] H0 G2 ltac:(lia)).
      destruct (next_tok true f s0 [c]) as [[[ty t] s']| | |]; auto; [|nia].
      destruct IH as (p' & r' & H' & G' & LR & T3 & T2 & W). exists p', r'. split; auto. split; auto. cbn [length] in *.
      split; [lia|]. split; [intros NE; specialize (T3 NE); lia|]. split; [intros NE; specialize (T2 NE); lia|]. nia.
  Qed.

  Definition pending (E : nat) (typ : addr_tok) (tokens : list bytes) : nat := match typ, tokens with TOK_QUOTED, [v] => E * (length v + 2) | _, _ => 0 end.
  Lemma loop_bound rec rwork n E : (forall v, G v -> 2 * marks v + 2 <= n -> rwork v <= E * (length v + 2)) ->
    forall f s p r typ tokens op, St s p r -> G r -> marks r <= n ->
    (typ = TOK_QUOTED -> forall v, tokens = [v] -> G v /\ 2 * marks v + 2 <= n) ->
    pal_loop_work true rec rwork f s typ tokens op <= (2 * (Q + 6) + E) * length r + 2 * (Q + 6) + pending E typ tokens.
  Proof.
    intros REC. induction f as [|f IH]; intros s p r typ tokens op H GR MR PQ; [cbn; lia|].
    assert (TE : typ = TOK_EOF \/ typ <> TOK_EOF) by (destruct typ; auto; right; discriminate). destruct TE as [->|TE]; [cbn; lia|].
    cbn [pal_loop_work]. match goal with |- match _ with TOK_QUOTED => ?x | TOK_ATOM => _ | TOK_COMMENT => _ | TOK_TAG_OPEN => _
      | TOK_TAG_CLOSE => _ | TOK_SEPARATOR => _ | TOK_EOF => _ end <= ?y => enough (GOAL : x <= y) by (destruct typ; auto; congruence) end.
    pose proof (next_bound (S (length r)) s p r [] H GR ltac:(lia)) as NB. rewrite <- (St_fuel _ _ _ H) in NB.
    change (next_tok true (fuel_of s) s []) with (NextAddressListToken true s) in NB.
    destruct (NextAddressListToken true s) as [[[ty tk] s1]|e| |] eqn:NX; [|nia|destruct NB|destruct NB].
    destruct NB as (p' & r' & H' & G' & LR & T3 & T2 & W). destruct (has_char NUL tk) eqn:NU; [nia|].
    assert (N0 : ~ In NUL0 tk). { intros X. apply has_char_in in X. change NUL0 with NUL in X. congruence. }
    destruct (one_back true s p r ty tk s1 H NX N0) as (o & r2 & p2 & O & EK & SH & H2).
    assert (ER : r2 = r') by (rewrite <- (St_rest _ _ _ H2), <- (St_rest _ _ _ H'); reflexivity). subst r2.
    assert (MR' : marks r' <= n). { destruct o as [t|]; [|inversion O; subst; cbn; lia]. apply one_marks in O. destruct t as [[|] v| | | |]; lia. }
    cbn [length] in T3, T2. set (K := 2 * (Q + 6)) in *.
    (* what is left after this token *)
    assert (AG : forall ty' toks op', ty' = ty -> (ty' = TOK_QUOTED -> forall v, toks = [v] -> G v /\ 2 * marks v + 2 <= n) ->
      pal_loop_work true rec rwork f s1 ty' toks op' <= (K + E) * length r' + K + pending E ty' toks) by (intros; eapply IH; eauto).
    assert (EMPTY : forall op', ty <> TOK_QUOTED -> pal_loop_work true rec rwork f s1 ty [] op' <= (K + E) * length r' + K).
    { intros op' NQ. specialize (AG ty [] op' eq_refl ltac:(congruence)). destruct ty; cbn [pending] in AG; lia. }
    assert (SUM : ty <> TOK_EOF -> (Q + 6) * length r + Q + 6 + ((K + E) * length r') <= (Q + 6) * length r' + (K + E) * length r).
    { intros NE. specialize (T3 NE). unfold K. nia. }
    assert (FL : forall op', ty <> TOK_QUOTED ->
      (if (op' : bool) then 0
       else match tokens with
       | [] => pal_loop_work true rec rwork f s1 ty [] op'
       | tok0 :: rest =>
           if (match ty with TOK_SEPARATOR => true | _ => false end)
              && negb (match typ with TOK_TAG_CLOSE => true | _ => false end)
              && negb (has_char AT (last tokens []))
           then pal_loop_work true rec rwork f s1 ty [] op'
           else
             match typ, rest with
             | TOK_QUOTED, [] => rwork tok0 + match rec tok0 with Ok _ => pal_loop_work true rec rwork f s1 ty [] op' | _ => 0 end
             | _, _ => pal_loop_work true rec rwork f s1 ty [] op'
             end
       end) <= (if op' then 0 else pal_loop_work true rec rwork f s1 ty [] op') + pending E typ tokens).
    { intros op' NQ. destruct op'; [lia|]. destruct tokens as [|tok0 rest]; [lia|]. destruct (_ && _ && _); [lia|].
      destruct typ; try lia. destruct rest; [|lia]. destruct (PQ eq_refl tok0 eq_refl) as [GV MV]. pose proof (REC tok0 GV MV) as RW. cbn [pending].
      destruct (rec tok0); lia. }
    assert (NEXT : forall x, ty <> TOK_EOF -> x <= (K + E) * length r' + K -> next_work true (fuel_of s) s [] + x <= (K + E) * length r + K) by (intros x NE; specialize (SUM NE); lia).
    destruct ty.
    - assert (P : pal_loop_work true rec rwork f s1 TOK_QUOTED (tokens ++ [tk]) op <= (K + E) * length r' + K + E * (length tk + 2)).
      { specialize (AG TOK_QUOTED (tokens ++ [tk]) op eq_refl). destruct o as [[[|] v| | | |]|]; try discriminate EK. cbn [shows] in SH. subst tk.
        assert (AG' := AG ltac:(intros _ v' E'; destruct tokens as [|t0 [|? ?]]; try discriminate E'; injection E' as <-; split; [eapply G_quoted; eauto|apply one_marks in O; lia])).
        assert (PE : pending E TOK_QUOTED (tokens ++ [v]) <= E * (length v + 2)) by (destruct tokens as [|t0 [|? ?]]; cbn [app pending]; lia). lia. }
      specialize (T2 eq_refl). assert (X : (K + E) * length r' + E * (length tk + 2) + K * (length tk + 2) <= (K + E) * length r) by nia.
      assert (Y : (Q + 6) * length r + Q + 6 + (K + E) * length r' + E * (length tk + 2) <= (Q + 6) * length r' + (K + E) * length r). { unfold K in *. nia. }
      lia.
    - specialize (AG TOK_ATOM (tokens ++ [tk]) op eq_refl ltac:(discriminate)). cbn [pending] in AG. specialize (NEXT _ ltac:(discriminate) ltac:(rewrite Nat.add_0_r in AG; exact AG)). lia.
    - specialize (AG TOK_COMMENT tokens op eq_refl ltac:(discriminate)). cbn [pending] in AG. specialize (NEXT _ ltac:(discriminate) ltac:(rewrite Nat.add_0_r in AG; exact AG)). lia.
    - specialize (NEXT _ ltac:(discriminate) (EMPTY true ltac:(discriminate))). lia.
    - pose proof (FL false ltac:(discriminate)) as F. specialize (NEXT _ ltac:(discriminate) (EMPTY false ltac:(discriminate))). cbv zeta. lia.
    - pose proof (FL op ltac:(discriminate)) as F. specialize (NEXT _ ltac:(discriminate) (EMPTY op ltac:(discriminate))). cbv zeta. destruct op; lia.
    - pose proof (FL op ltac:(discriminate)) as F. assert (Z : pal_loop_work true rec rwork f s1 TOK_EOF [] op = 0) by (destruct f; reflexivity). cbv zeta.
      rewrite Z in F |- *. assert (KR : K * length r = 2 * ((Q + 6) * length r)) by (unfold K; lia).
      assert (X : next_work true (fuel_of s) s [] <= K * length r + K) by (rewrite KR; unfold K; lia).
      assert (Y : K * length r + K <= (K + E) * length r + K) by nia. destruct op; lia.
  Qed.

  Lemma pal_bound : forall e d t, G t -> marks t + 2 < 2 ^ S e -> pal_work true d t <= e * (2 * (Q + 6)) * (length t + 2).
  Proof.
    induction e as [|e IH]; intros d t GT M; [cbn in M; lia|]. destruct d as [|d]; [cbn; lia|]. cbn [pal_work].
    assert (B := loop_bound (pal true d) (pal_work true d) (marks t) (e * (2 * (Q + 6)))).
    specialize (B ltac:(intros v GV MV; apply IH; auto; rewrite (Nat.pow_succ_r 2 (S e)) in M by lia; lia)).
    specialize (B (S (fuel_of (open_str t))) (open_str t) [] t TOK_SEPARATOR [] false (St_open t) GT ltac:(lia) ltac:(discriminate)). cbn [pending] in B.
    eapply Nat.le_trans; [exact B|]. nia.
  Qed.
End Bound.

(** ** Upper bounds *)
Lemma quoted_shorter cs q v : quoted cs q v -> length v <= length q /\ incl v q.
Proof.
  induction 1 as [|c q v _ _ _ _ [L I]|c q v _ [L I]]; cbn [length]; (split; [lia|]); [apply incl_refl| |].
  - apply incl_cons; [left; reflexivity|]. intros x X. right. auto.
  - apply incl_cons; [right; left; reflexivity|]. intros x X. right. right. auto.
Qed.
Lemma word_inside r v r' : one true r (Some (Word true v)) r' -> length v <= length r /\ incl v r.
Proof.
  intros O. inversion O as [| |r0 w q v0 r1 GP QU NU| | | |]; subst. rewrite (gap_app _ _ _ GP). destruct (quoted_shorter _ _ _ QU) as [L I]. split.
  - rewrite app_length. cbn [length]. rewrite app_length. lia.
  - intros x X. apply in_or_app. right. right. apply in_or_app. left. auto.
Qed.
Lemma address_log t : ~ In CR t -> address_work true t <= Nat.log2 (marks t + 2) * 30 * (length t + 2).
Proof.
  intros N. unfold address_work. apply (pal_bound (fun r => ~ In CR r) 9); auto.
  - intros a r X I. apply X. apply in_or_app. auto.
  - intros r v r' O X I. apply X. apply (proj2 (word_inside _ _ _ O)). exact I.
  - intros s p r H X. pose proof (fws_work_St _ _ _ H) as K. destruct (l_fws r) as [[w r']|]; [|lia].
    destruct K as [K|(u & r2 & -> & -> & _)]; [lia|]. destruct X. apply in_or_app. right. left. reflexivity.
  - apply Nat.log2_spec. lia.
Qed.
Lemma address_any t : address_work true t <= Nat.log2 (marks t + 2) * (30 + 6 * length t) * (length t + 2).
Proof.
  unfold address_work. replace (30 + 6 * length t) with (2 * (9 + 3 * length t + 6)) by lia. apply (pal_bound (fun r => length r <= length t) (9 + 3 * length t)); auto.
  - intros a r. rewrite app_length. lia.
  - intros r v r' O X. pose proof (proj1 (word_inside _ _ _ O)). lia.
  - intros s p r H X. pose proof (fws_work_St _ _ _ H) as K. destruct (l_fws r) as [[w r']|]; [|lia].
    destruct K as [K|(u & r2 & -> & -> & _ & _ & K)]; [lia|]. rewrite app_length in X. cbn [length]. lia.
  - apply Nat.log2_spec. lia.
Qed.
Lemma address_linear t : ~ In CR t -> ~ In DQ t -> ~ In BS t -> address_work true t <= 30 * (length t + 2).
Proof.
  intros C D B. pose proof (address_log t C) as L. assert (M : marks t = 0).
  { clear - D B. induction t as [|c t IH]; [reflexivity|]. cbn [marks]. destruct (ascii_dec c DQ) as [->|]; [destruct D; left; reflexivity|].
    destruct (ascii_dec c BS) as [->|]; [destruct B; left; reflexivity|]. cbn [Nat.add]. apply IH; intros X; [apply D|apply B]; right; exact X. }
  rewrite M in L. change (Nat.log2 (0 + 2)) with 1 in L. lia.
Qed.

(** ** Lower bounds *)
Lemma quoted_least f : forall s token tk s', quoted_loop true f s token = Ok (tk, s') -> length tk <= length token + quoted_work true f s.
Proof.
  induction f as [|f IH]; intros s token tk s'; [discriminate|]. cbn [quoted_loop quoted_work]. destruct (get s) as [g s1].
  destruct (true && (as_char g =?c chr 255)); [discriminate|]. destruct (as_char g =?c BSLASH).
  - destruct (peek s1) as [[o|] s2]; [|discriminate]. destruct (get s2) as [g2 s3]. intros E. apply IH in E. rewrite app_length in E. cbn [length] in E. lia.
  - destruct (as_char g =?c DQUOTE); [intros [= <- _]; lia|]. intros E. apply IH in E. rewrite app_length in E. cbn [length] in E. lia.
Qed.
Lemma work_word rec rw f s tk s1 : NextAddressListToken true s = Ok (TOK_QUOTED, tk, s1) -> has_char NUL tk = false ->
  pal_loop_work true rec rw (S f) s TOK_SEPARATOR [] false = next_work true (fuel_of s) s [] + pal_loop_work true rec rw f s1 TOK_QUOTED [tk] false.
Proof. intros E N. cbn [pal_loop_work]. rewrite E, N. reflexivity. Qed.
Lemma work_end rec rw f s t tk s1 : NextAddressListToken true s = Ok (TOK_EOF, tk, s1) -> has_char NUL tk = false -> rw t <= pal_loop_work true rec rw (S f) s TOK_QUOTED [t] false.
Proof. intros E N. cbn [pal_loop_work]. rewrite E, N. cbn [andb]. cbv zeta. lia. Qed.
Lemma as_quoted_work d t : ~ In (chr 255) t -> ~ In NUL0 t -> length t + pal_work true d t <= pal_work true (S d) (as_quoted t).
Proof.
  intros N NU. set (q := as_quoted t). cbn [pal_work].
  assert (O : one true q (Some (Word true t)) []).
  { apply one_quoted with (w := []) (q := escaped t); auto; [|apply escaped_quoted; auto]. constructor. cbn. split; [intros [X|X]; discriminate X|discriminate]. }
  assert (H : St (open_str q) [] q) by apply St_open.
  destruct (one_run _ _ _ _ O _ _ H) as (tk & s1 & p1 & E1 & N1 & S1 & H1). cbn [shows] in S1. subst tk. cbn [kind] in E1.
  assert (O2 : one true [] None []). { apply one_end with (w := []). constructor. exact I. }
  destruct (one_run _ _ _ _ O2 _ _ H1) as (tk & s2 & p2 & E2 & N2 & _ & H2). cbn [kind] in E2.
  assert (W : length t <= next_work true (fuel_of (open_str q)) (open_str q) []).
  { unfold NextAddressListToken in E1. rewrite (St_fuel _ _ _ H) in *. unfold q, as_quoted in H, E1 |- *. cbn [next_tok next_work] in *. rewrite (peek_cons _ _ _ _ H) in *.
    pose proof (read_fws_St _ _ _ H) as R. assert (L : l_fws (DQ :: escaped t ++ [DQ]) = Some ([], DQ :: escaped t ++ [DQ])) by reflexivity. rewrite L in R.
    destruct R as (s3 & R & H3). rewrite R in *. cbn [obind rev app] in *. rewrite (peek_cons _ _ _ _ H3) in *. change (DQ =?c DQUOTE) with true in *. cbv iota in *.
    destruct (get s3) as [g s4]. destruct (quoted_loop true (fuel_of s4) s4 []) as [[t2 s5]| | |] eqn:QL; try discriminate E1. cbn [obind] in E1. injection E1 as -> _.
    apply quoted_least in QL. cbn [length] in QL. lia. }
  rewrite (St_fuel _ _ _ H). assert (LQ : exists k, length q = S (S k)) by (exists (length (escaped t)); unfold q, as_quoted; cbn [length]; rewrite app_length; cbn; lia).
  destruct LQ as [k LQ]. rewrite LQ. rewrite (work_word _ _ _ _ _ _ E1 (NUL_no t N1)). pose proof (work_end (pal true d) (pal_work true d) (S (S k)) s1 t tk s2 E2 (NUL_no tk N2)). lia.
Qed.
Fixpoint wrapped (k : nat) (t : bytes) : bytes := match k with 0 => t | S j => as_quoted (wrapped j t) end.
Lemma escaped_length t : length (escaped t) = length t + marks t.
Proof.
  induction t as [|c t IH]; [reflexivity|]. cbn [escaped marks length]. rewrite app_length, IH. destruct (ascii_dec c DQ); [cbn; lia|]. destruct (ascii_dec c BS); cbn; lia.
Qed.
Lemma wrapped_size k m : marks (wrapped k (repeat (chr 97) m)) + 2 = 2 ^ S k /\ length (wrapped k (repeat (chr 97) m)) + 2 = m + 2 ^ S k.
Proof.
  induction k as [|k [IH1 IH2]]; cbn [wrapped].
  - rewrite repeat_length. split; [|cbn; lia]. induction m as [|m IHm]; [reflexivity|]. exact IHm.
  - unfold as_quoted. rewrite marks_DQ, marks_app, marks_escaped, marks_DQ. cbn [length]. rewrite app_length, escaped_length. rewrite (Nat.pow_succ_r 2 (S k)) by lia. cbn [marks length]. lia.
Qed.
Lemma wrapped_in x k m : In x (wrapped k (repeat (chr 97) m)) -> x = chr 97 \/ x = BS \/ x = DQ.
Proof.
  induction k as [|k IH]; cbn [wrapped]; [intros I; apply repeat_spec in I; auto|]. intros [<-|I]; auto. apply in_app_or in I as [I|[<-|[]]]; auto. apply escaped_in in I as [I| ->]; auto.
Qed.
Lemma wrapped_work k m : forall d, k <= d -> k * m <= pal_work true d (wrapped k (repeat (chr 97) m)).
Proof.
  induction k as [|k IH]; intros d L; [lia|]. destruct d as [|d]; [lia|]. specialize (IH d ltac:(lia)). cbn [wrapped].
  assert (B := as_quoted_work d (wrapped k (repeat (chr 97) m)) ltac:(intros X; apply wrapped_in in X as [X|[X|X]]; discriminate X) ltac:(intros X; apply wrapped_in in X as [X|[X|X]]; discriminate X)).
  destruct (wrapped_size k m) as [_ SZ]. pose proof (pow_above (S k)). assert (2 <= 2 ^ (S k)) by (rewrite Nat.pow_succ_r by lia; pose proof (pow_above k); lia). lia.
Qed.
Lemma address_tight k : exists t, ~ In CR t /\ marks t + 2 = 2 ^ S k /\ k * length t <= 2 * address_work true t.
Proof.
  exists (wrapped k (repeat (chr 97) (2 ^ S k))). destruct (wrapped_size k (2 ^ S k)) as [S1 S2]. split; [intros X; apply wrapped_in in X as [X|[X|X]]; discriminate X|]. split; auto.
  pose proof (pow_above (S k)) as P. unfold address_work. pose proof (wrapped_work k (2 ^ S k) (S (length (wrapped k (repeat (chr 97) (2 ^ S k))))) ltac:(lia)) as W. nia.
Qed.
Lemma no_linear_address k : exists t, ~ In CR t /\ k * length t < address_work true t.
Proof.
  destruct (address_tight (2 * k + 1)) as (t & N & M & W). exists t. split; auto.
  assert (L : 0 < length t). { pose proof (marks_length t). pose proof (pow_above (S (2 * k + 1))). rewrite !Nat.pow_succ_r in * by lia. pose proof (pow_above (2 * k + 1)). lia. }
  nia.
Qed.
Lemma stray_next n : forall f s p token, St s p (stray n) -> length (stray n) < f -> n * n <= next_work true f s token + 9 * n.
Proof.
  induction n as [|n IH]; intros f s p token H L; [lia|]. destruct f as [|f]; [lia|]. cbn [next_work]. pose proof (stray_fws _ _ _ H) as K.
  pose proof (read_fws_St _ _ _ H) as R. rewrite stray_read in R. change (stray (S n)) with (SP :: stray n) in *. rewrite (peek_cons _ _ _ _ H).
  destruct R as (s1 & -> & H1). cbn [rev app] in H1. rewrite (peek_cons _ _ _ _ H1). change (SP =?c DQUOTE) with false. change (SP =?c LPAREN) with false.
  change ((SP =?c LANGLE) || (SP =?c RANGLE) || (SP =?c COMMA) || (SP =?c SEMI)) with false. cbv iota.
  destruct (get_cons _ _ _ _ H1) as (s3 & -> & H3). cbn [length] in L. specialize (IH f s3 _ (token ++ [as_char (Some SP)]) H3 ltac:(lia)). destruct token; nia.
Qed.
Lemma stray_address n : length (stray n) = n + 3 /\ n * n <= address_work true (stray n) + 9 * n.
Proof.
  split; [unfold stray; rewrite app_length, repeat_length; reflexivity|]. unfold address_work. cbn [pal_work]. generalize (pal true (length (stray n))) (pal_work true (length (stray n))). intros rec rw.
  assert (FW : forall f, next_work true (fuel_of (open_str (stray n))) (open_str (stray n)) [] <= pal_loop_work true rec rw (S f) (open_str (stray n)) TOK_SEPARATOR [] false) by (intros f; cbn [pal_loop_work]; lia).
  specialize (FW (fuel_of (open_str (stray n)))).
  pose proof (stray_next n (fuel_of (open_str (stray n))) (open_str (stray n)) [] [] (St_open _) ltac:(rewrite (St_fuel _ _ _ (St_open _)); lia)). lia.
Qed.

(** ** Cases *)

Definition quoted_name : bytes := DQ :: str "Ann" ++ [DQ] ++ str " <a@b.c>".
Lemma address_work_cases : address_work true (str "Ann <a@b.c>, (x) d@e") = 96 /\ address_work true quoted_name = 51 /\ marks quoted_name = 2 /\
  ~ In CR quoted_name /\ ~ In CR (str "Ann <a@b.c>, (x) d@e") /\ ~ In DQ (str "Ann <a@b.c>, (x) d@e") /\ ~ In BS (str "Ann <a@b.c>, (x) d@e").
Proof.
  split; [vm_compute; reflexivity |]. split; [vm_compute; reflexivity |]. split; [vm_compute; reflexivity |].
  assert (D : forall (c : ascii) t, existsb (Ascii.eqb c) t = false -> ~ In c t).
  { intros c t E H. rewrite <- not_true_iff_false in E. apply E, existsb_exists. exists c. split; [exact H | apply Ascii.eqb_refl]. }
  split; [apply D; vm_compute; reflexivity |]. split; [apply D; vm_compute; reflexivity |]. split; apply D; vm_compute; reflexivity.
Qed.
