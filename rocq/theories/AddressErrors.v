(** C99: the texts of the exceptions of ParseAddressList. *)
From Verif Require Import Bytes Outcome Stream Tokenizer ErrorText AddressText SpecText SpecError SpecAddress SpecAddressAll SpecAddressError
  BytesFacts StreamFacts TokenizerFacts QPFacts ListFacts ErrorFacts ShownFacts ErrorList AddressFacts AddressParse ListExact ListWide AddressWide.

(** ** The same outcome *)
Lemma quoted_same cs f : forall s t, silent (quoted_loop_says cs f s t) = quoted_loop cs f s t.
Proof.
  induction f as [|f IH]; intros s t; [reflexivity|]. cbn [quoted_loop_says quoted_loop]. destruct (get s) as [g s1].
  destruct (cs && (as_char g =?c chr 255)); [reflexivity|]. destruct (as_char g =?c BSLASH).
  - destruct (peek s1) as [[c|] s2]; [|reflexivity]. destruct (get s2). apply IH.
  - destruct (as_char g =?c DQUOTE); [reflexivity|apply IH].
Qed.
Lemma comment_same f : forall d s t, silent (comment_loop_says f d s t) = comment_loop f d s t.
Proof.
  induction f as [|f IH]; intros d s t; [reflexivity|]. cbn [comment_loop_says comment_loop]. destruct d as [|d]; [reflexivity|].
  destruct (peek s) as [[c|] s1]; [|reflexivity].
  set (A := if c =?c BSLASH then _ else Fine _). set (B := if c =?c BSLASH then _ else Ok _).
  replace B with (silent A).
  2:{ unfold A, B. destruct (c =?c BSLASH); [|reflexivity]. destruct (get s1) as [g s2]. destruct (peek s2) as [[o|] s3]; [|reflexivity]. destruct (get s3). reflexivity. }
  apply silent_bind. intros [t1 s2]. destruct (peek s2) as [o3 s5]. destruct (get s5) as [g s6]. destruct (match o3 with Some _ => _ | None => _ end); apply IH.
Qed.
Lemma next_tok_same cs f : forall s t, silent (next_tok_says cs f s t) = next_tok cs f s t.
Proof.
  induction f as [|f IH]; intros s t; [reflexivity|]. cbn [next_tok_says next_tok]. destruct (peek s) as [[o|] s0]; [|reflexivity].
  rewrite <- fws_same. apply silent_bind. intros [w s1].
  assert (K : forall m m', silent m = m' -> silent match w, t with _ :: _, _ :: _ => Fine (match t with [] => TOK_EOF | _ => TOK_ATOM end, t, s1) | _, _ => m end =
    match w, t with _ :: _, _ :: _ => Ok (match t with [] => TOK_EOF | _ => TOK_ATOM end, t, s1) | _, _ => m' end).
  { intros m m' <-. destruct w, t; reflexivity. }
  apply K. clear K. destruct (peek s1) as [[c|] s2]; [|reflexivity].
  destruct (c =?c DQUOTE).
  { destruct t; [|reflexivity]. destruct (get s2) as [g s3]. rewrite <- quoted_same. apply silent_bind. intros [t4 s4]. reflexivity. }
  destruct (c =?c LPAREN).
  { destruct t; [|reflexivity]. destruct (get s2) as [g s3]. rewrite <- comment_same. apply silent_bind. intros [t4 s4]. reflexivity. }
  destruct (c =?c LANGLE). { destruct t; [|reflexivity]. destruct (get s2). reflexivity. }
  destruct (c =?c RANGLE). { destruct t; [|reflexivity]. destruct (get s2). reflexivity. }
  destruct ((c =?c COMMA) || (c =?c SEMI)). { destruct t; [|reflexivity]. destruct (get s2). reflexivity. }
  destruct (get s2). apply IH.
Qed.
Lemma next_same cs s : silent (NextAddressListToken_says cs s) = NextAddressListToken cs s.
Proof. apply next_tok_same. Qed.
Lemma pal_loop_same cs rec rec' : (forall t, silent (rec t) = rec' t) -> forall f s ty tk op res,
  silent (pal_loop_says cs rec f s ty tk op res) = pal_loop cs rec' f s ty tk op res.
Proof.
  intros R. induction f as [|f IH]; intros s ty tk op res; [reflexivity|]. cbn [pal_loop_says pal_loop].
  assert (K : forall m m' (z : says (list bytes)) (z' : outcome (list bytes)), silent m = m' -> silent z = z' -> silent match ty with TOK_EOF => z | _ => m end = match ty with TOK_EOF => z' | _ => m' end).
  { intros m m' z z' <- <-. destruct ty; reflexivity. }
  apply K; [|reflexivity]. clear K. rewrite <- next_same. apply silent_bind. intros [[t2 tk2] s1]. destruct (has_char NUL tk2); [reflexivity|].
  assert (FL : forall op', silent (if (op' : bool) then Says (str "unclosed < addr-spec >") else match tk with
      | [] => pal_loop_says cs rec f s1 t2 [] op' res
      | tok0 :: rest =>
          if (match t2 with TOK_SEPARATOR => true | _ => false end) && negb (match ty with TOK_TAG_CLOSE => true | _ => false end) && negb (has_char AT (last tk []))
          then pal_loop_says cs rec f s1 t2 [] op' res
          else match ty, rest with
               | TOK_QUOTED, [] => let? addrs := rec tok0 in pal_loop_says cs rec f s1 t2 [] op' (res ++ addrs)
               | _, _ => pal_loop_says cs rec f s1 t2 [] op' (res ++ [concat tk])
               end
      end) = if op' then perm else match tk with
      | [] => pal_loop cs rec' f s1 t2 [] op' res
      | tok0 :: rest =>
          if (match t2 with TOK_SEPARATOR => true | _ => false end) && negb (match ty with TOK_TAG_CLOSE => true | _ => false end) && negb (has_char AT (last tk []))
          then pal_loop cs rec' f s1 t2 [] op' res
          else match ty, rest with
               | TOK_QUOTED, [] => let* addrs := rec' tok0 in pal_loop cs rec' f s1 t2 [] op' (res ++ addrs)
               | _, _ => pal_loop cs rec' f s1 t2 [] op' (res ++ [concat tk])
               end
      end).
  { intros [|]; [reflexivity|]. destruct tk as [|t0 rest]; [apply IH|]. destruct (_ && _); [apply IH|].
    destruct ty; try apply IH. destruct rest; [|apply IH]. rewrite <- R. apply silent_bind. intros l. apply IH. }
  destruct t2; solve [apply IH|apply FL|apply (FL false)].
Qed.
Lemma pal_same cs d : forall t, silent (pal_says cs d t) = pal cs d t.
Proof. induction d as [|d IH]; intros t; [reflexivity|]. cbn [pal_says pal]. apply pal_loop_same. exact IH. Qed.
Lemma address_same cs t : silent (AddressList_says cs t) = ParseAddressList cs t.
Proof. apply pal_same. Qed.
Lemma silent_Ok {A} (x : says A) y a : silent x = y -> y = Ok a -> x = Fine a.
Proof. intros <-. destruct x; cbn; intros X; try discriminate X. injection X as ->. reflexivity. Qed.

(** ** What is said: of whitespace *)
Definition tells {A} (P : bytes -> Prop) (x : says A) : Prop := forall m, x = Says m <-> P m.
Lemma tells_iff {A} P Q (x : says A) : (forall m, P m <-> Q m) -> tells P x -> tells Q x.
Proof. intros E T m. rewrite <- E. apply T. Qed.
Lemma tells_none {A} P (x : says A) : (forall m, x <> Says m) -> (forall m, ~ P m) -> tells P x.
Proof. intros X Y m. split; intros Z; [destruct (X m Z)|destruct (Y m Z)]. Qed.
Lemma tells_some {A} (P : bytes -> Prop) m0 : P m0 -> (forall m, P m -> m = m0) -> tells P (Says m0 : says A).
Proof. intros X Y m. split; [intros E; injection E as <-; exact X|intros Z; rewrite (Y m Z); reflexivity]. Qed.
Lemma cr_fws n r m : cr_bad n r m -> l_fws r = None.
Proof.
  intros [u U|u c x m' U N _]; unfold l_fws.
  - rewrite (span_wsps u [CR] U (CR_no_wsp _)). cbv iota beta. rewrite ceqb_refl. reflexivity.
  - rewrite (span_wsps u (CR :: c :: x) U (CR_no_wsp _)). cbv iota beta. rewrite ceqb_refl.
    replace (c =?c LF) with false by (symmetry; apply ceqb_neq; exact N). reflexivity.
Qed.
Lemma cr_gap n r m w r' : cr_bad n r m -> ~ gap r w r'.
Proof. intros C G. apply cr_fws in C. apply gap_fws in G. congruence. Qed.
Lemma cr_one n r m m' : cr_bad n r m -> cr_bad n r m' -> m = m'.
Proof.
  assert (CS : forall u r, Forall WSP u -> span is_wsp (u ++ CR :: r) = (u, CR :: r)) by (intros; apply span_wsps; auto; apply CR_no_wsp).
  intros A B. inversion A as [u U E E1|u c x m0 U N M E E1]; subst; inversion B as [u' U' E' E2|u' c' x' m0' U' N' M' E' E2]; subst; auto;
    pose proof (f_equal (span is_wsp) E') as SP; rewrite !CS in SP by auto; injection SP; try discriminate.
  intros -> -> _. eapply byte_at_fun; eauto.
Qed.
Lemma cr_said n s p r : St s p r -> n = length p + length r -> l_fws r = None -> exists m, read_fws_says s = Says m /\ cr_bad n r m.
Proof.
  intros H -> W. destruct (fws_Says s p r H W) as (m & w & E & F & [(-> & ->)|(c & u & -> & N & B)]); exists m || eexists; (split; [exact E|]).
  - apply cb_last. exact F.
  - apply cb_byte; auto. replace (_ - _) with (length p + length w + 1); auto. rewrite app_length. cbn [length]. lia.
Qed.

(** ** Of strings *)
Lemma string_tells cs f : forall s p r t, St s p r -> length r < f -> tells (string_bad cs r) (quoted_loop_says cs f s t).
Proof.
  induction f as [|f IH]; intros s p r t H L; [lia|].
  destruct r as [|c r].
  { destruct cs.
    - cbn [quoted_loop_says]. get_at H. cbn [as_char andb]. rewrite ceqb_refl. apply tells_some; [constructor; auto|]. intros m B. inversion B; auto.
    - apply tells_none.
      + intros m E. pose proof (quoted_same false (S f) s t) as Q. rewrite E, (quoted_loop_forever _ _ _ _ H) in Q. discriminate Q.
      + intros m B. inversion B; discriminate. }
  cbn [quoted_loop_says]. get_at H. cbn [as_char length] in *.
  destruct (cs && (c =?c chr 255)) eqn:Y.
  { apply Bool.andb_true_iff in Y as [-> Y]. apply ceqb_eq in Y. subst c. apply tells_some; [constructor; auto|].
    intros m B. inversion B; subst; auto; try discriminate. match goal with X : ?a = ?a -> _ <> _ |- _ => destruct (X eq_refl eq_refl) end. }
  destruct (c =?c BSLASH) eqn:B.
  - apply ceqb_eq in B. subst c. destruct r as [|d r]; peek_at H0.
    + apply tells_some; [apply sb_half|]. intros m Q. inversion Q; subst; auto; try contradiction.
    + get_at H0. cbn [length as_char] in *. eapply tells_iff; [|exact (IH s1 _ r (t ++ [d]) H1 ltac:(lia))].
      intros m. split; intros Q; [apply sb_escape; auto|]. inversion Q; subst; auto; try contradiction.
  - destruct (c =?c DQUOTE) eqn:D.
    + apply ceqb_eq in D. subst c. apply tells_none; [discriminate|]. intros m Q. inversion Q; subst; try contradiction.
    + eapply tells_iff; [|exact (IH s0 _ r (t ++ [c]) H0 ltac:(lia))]. apply ceqb_neq in B, D. intros m. split; intros Q.
      * apply sb_byte; auto. intros -> ->. discriminate Y.
      * inversion Q; subst; auto; [discriminate Y|destruct B; reflexivity|destruct B; reflexivity].
Qed.

(** ** Of comments *)
Definition comment_step_says (f depth : nat) (s2 : istream) (token1 : bytes) : says (bytes * istream) :=
  let '(o3, s5) := peek s2 in
  let d1 := match o3 with
            | Some c3 => if c3 =?c LPAREN then S depth else if c3 =?c RPAREN then pred depth else depth
            | None => depth
            end in
  let '(g, s6) := get s5 in
  match d1 with
  | O => comment_loop_says f O s6 token1
  | _ => comment_loop_says f d1 s6 (token1 ++ [as_char g])
  end.
Lemma comment_says_S f d s token :
  comment_loop_says (S f) (S d) s token =
  let '(o, s1) := peek s in
  match o with
  | None => Says (str "unclosed comment")
  | Some c =>
      if c =?c BSLASH then
        let '(_, s2) := get s1 in
        let '(o2, s3) := peek s2 in
        match o2 with
        | None => Says (str "incomplete escape sequence")
        | Some _ => let '(g, s4) := get s3 in comment_step_says f (S d) s4 (token ++ [as_char g])
        end
      else comment_step_says f (S d) s1 token
  end.
Proof.
  cbn [comment_loop_says]. unfold comment_step_says. destruct (peek s) as [[c|] s1]; [|reflexivity]. destruct (c =?c BSLASH); [|reflexivity].
  destruct (get s1) as [g s2]. destruct (peek s2) as [[o|] s3]; [|reflexivity]. destruct (get s3). reflexivity.
Qed.
Definition in_comment_says (b : bool) (f d : nat) (s : istream) (token : bytes) : says (bytes * istream) :=
  if b then comment_step_says f d s token else comment_loop_says (S f) d s token.
Lemma comment_tells f : forall (b : bool) d s p r token, St s p r -> length r + (if b then 1 else 0) <= f ->
  tells (comment_bad b (S d) r) (in_comment_says b f (S d) s token).
Proof.
  induction f as [|f IH].
  { intros b d s p r token H L. destruct r as [|c r]; [|cbn in L; destruct b; lia]. destruct b; [cbn in L; lia|]. cbn [in_comment_says].
    rewrite comment_says_S. peek_at H. apply tells_some; [constructor|]. intros m B. inversion B; auto. }
  assert (STEP : forall (b : bool) d s p r token, St s p r -> length r <= S f -> (b = false -> exists c r', r = c :: r' /\ c <> BS) ->
     tells (comment_bad b (S d) r) (comment_step_says (S f) (S d) s token)).
  { intros b d s p r token H L NB. unfold comment_step_says. destruct r as [|c r].
    - destruct b; [|destruct (NB eq_refl) as (c & r' & X & _); discriminate X].
      peek_at H. get_at H0. rewrite comment_says_S. peek_at H1. apply tells_some; [constructor|]. intros m B. inversion B; auto.
    - assert (NB' : b = false -> c <> BS). { intros X. destruct (NB X) as (c' & r' & E & N). injection E as -> _. exact N. }
      clear NB. peek_at H. get_at H. cbn [as_char length] in *. destruct (c =?c LPAREN) eqn:LPE.
      + apply ceqb_eq in LPE. subst c. eapply tells_iff; [|exact (IH false (S d) s0 _ r (token ++ [LPAREN]) H0 ltac:(cbn; lia))].
        intros m. split; intros B; [apply ob_open; exact B|]. inversion B; subst; auto; try discriminate. contradiction.
      + destruct (c =?c RPAREN) eqn:RPE.
        * apply ceqb_eq in RPE. subst c. cbn [pred]. destruct d as [|d].
          -- cbn [comment_loop_says]. apply tells_none; [discriminate|]. intros m B. inversion B; subst; try discriminate. contradiction.
          -- eapply tells_iff; [|exact (IH false d s0 _ r (token ++ [RPAREN]) H0 ltac:(cbn; lia))].
             intros m. split; intros B; [apply ob_close; exact B|]. inversion B; subst; auto; try discriminate. contradiction.
        * apply ceqb_neq in LPE, RPE. eapply tells_iff; [|exact (IH false d s0 _ r (token ++ [c]) H0 ltac:(cbn; lia))].
          intros m. split; intros B; [apply ob_byte; auto|]. inversion B; subst; auto; try contradiction; try (destruct (NB' eq_refl eq_refl)). }
  intros b d s p r token H L. destruct b; cbn [in_comment_says]; [apply (STEP true d s p r); auto; [cbn in L; lia|discriminate]|].
  rewrite comment_says_S. destruct r as [|c r]; peek_at H.
  { apply tells_some; [constructor|]. intros m B. inversion B; auto. }
  destruct (c =?c BSLASH) eqn:B.
  - apply ceqb_eq in B. subst c. get_at H. destruct r as [|c2 r]; peek_at H0.
    + apply tells_some; [constructor|]. intros m B. inversion B; subst; auto; try discriminate. match goal with X : ?a = ?a -> _ <> _ |- _ => destruct (X eq_refl eq_refl) end.
    + get_at H0. cbn [as_char length] in *. eapply tells_iff; [|exact (STEP true d s1 _ r (token ++ [c2]) H1 ltac:(lia) ltac:(discriminate))].
      intros m. split; intros B; [apply ob_escape; exact B|]. inversion B; subst; auto. match goal with X : ?a = ?a -> _ <> _ |- _ => destruct (X eq_refl eq_refl) end.
  - cbn [length] in L. apply ceqb_neq in B. apply (STEP false d s p (c :: r)); auto; [cbn [length]; lia|]. intros _. exists c, r. auto.
Qed.

(** ** Of words *)
Lemma word_bad_inv n c r m : word_bad n (c :: r) m <-> cr_bad n (c :: r) m \/ gap (c :: r) [] (c :: r) /\ ~ special c /\ word_bad n r m.
Proof.
  split.
  - intros W. inversion W; subst; auto.
  - intros [C|(G & X & W)]; [apply wb_cr|apply wb_byte]; auto.
Qed.
Lemma special_says c : special c -> (c =?c DQUOTE) = true \/ (c =?c DQUOTE) = false /\ ((c =?c LPAREN) = true \/ (c =?c LPAREN) = false /\
  ((c =?c LANGLE) = true \/ (c =?c LANGLE) = false /\ ((c =?c RANGLE) = true \/ (c =?c RANGLE) = false /\ (c =?c COMMA) || (c =?c SEMI) = true))).
Proof. intros X. repeat (destruct X as [<-|X]; [vm_compute; tauto|]). destruct X. Qed.
Lemma word_tells cs n f : forall s p r x token, St s p r -> n = length p + length r -> length r < f -> tells (word_bad n r) (next_tok_says cs f s (x :: token)).
Proof.
  induction f as [|f IH]; intros s p r x token H N L; [lia|]. cbn [next_tok_says]. destruct r as [|c r].
  { peek_at H. apply tells_none; [discriminate|]. intros m W. inversion W as [r' m' C|]; subst. apply cr_fws in C. discriminate C. }
  peek_at H. destruct (l_fws (c :: r)) as [[w r1]|] eqn:W.
  2:{ destruct (cr_said n s p _ H N W) as (m0 & -> & C). cbn [sbind]. apply tells_some; [apply wb_cr; exact C|].
      intros m B. apply word_bad_inv in B as [B|(G & _)]; [exact (cr_one _ _ _ _ B C)|]. destruct (cr_gap _ _ _ _ _ C G). }
  destruct (fws_Fine s p _ w r1 H W) as (s1 & -> & H1). cbn [sbind]. pose proof (fws_gap _ _ _ W) as G.
  assert (NC : forall m, ~ cr_bad n (c :: r) m). { intros m C. apply cr_fws in C. congruence. }
  destruct w as [|y w].
  2:{ apply tells_none; [discriminate|]. intros m B. apply word_bad_inv in B as [B|(G2 & _)]; [exact (NC m B)|]. apply gap_fws in G2. congruence. }
  pose proof (gap_app _ _ _ G) as A. cbn [app] in A. subst r1. cbn [rev app] in H1. peek_at H1.
  destruct (special_dec c) as [X|X].
  - apply tells_none.
    + intros m. destruct (special_says c X) as [->|(-> & [->|(-> & [->|(-> & [->|(-> & ->)])])])]; discriminate.
    + intros m B. apply word_bad_inv in B as [B|(_ & B & _)]; [exact (NC m B)|contradiction].
  - destruct (special_tests c X) as (-> & -> & -> & -> & ->). get_at H1. cbn [as_char app length] in *.
    eapply tells_iff; [|apply (IH s0 (c :: p) r x (token ++ [c])); [exact H0|cbn [length]; lia|lia]].
    intros m. rewrite word_bad_inv. split; [auto|]. intros [B|(_ & _ & B)]; [destruct (NC m B)|exact B].
Qed.

(** ** Of a token *)
Lemma gap_same r w r1 w' r1' : gap r w r1 -> gap r w' r1' -> w' = w /\ r1' = r1.
Proof. intros A B. apply gap_fws in A, B. rewrite A in B. injection B as -> ->. auto. Qed.
Lemma half_inv cs n r w r1 m : gap r w r1 -> half_token cs n r m <->
  exists c q, r1 = c :: q /\ (~ special c /\ word_bad n q m \/ c = DQ /\ string_bad cs q m \/ c = LP /\ comment_bad false 1 q m).
Proof.
  intros G. split.
  - intros [C|w' c q G' X B|w' q G' B|w' q G' B]; [destruct (cr_gap _ _ _ _ _ C G)| | |]; destruct (gap_same _ _ _ _ _ G G') as [-> <-];
      eexists _, q; (split; [reflexivity|]); auto.
  - intros (c & q & -> & [(X & B)|[(-> & B)|(-> & B)]]).
    + eapply ht_word; eauto.
    + eapply ht_string; eauto.
    + eapply ht_comment; eauto.
Qed.
Lemma next_tells cs n s p r : St s p r -> n = length p + length r -> tells (half_token cs n r) (NextAddressListToken_says cs s).
Proof.
  intros H N. unfold NextAddressListToken_says. rewrite (St_fuel _ _ _ H). cbn [next_tok_says]. destruct (l_fws r) as [[w r1]|] eqn:W.
  2:{ destruct r as [|c r]; [discriminate W|]. peek_at H. destruct (cr_said n s p _ H N W) as (m0 & -> & C). cbn [sbind].
      apply tells_some; [apply ht_cr; exact C|]. intros m [B|w c' q G X B|w q G B|w q G B]; [exact (cr_one _ _ _ _ B C)| | |]; destruct (cr_gap _ _ _ _ _ C G). }
  pose proof (fws_gap _ _ _ W) as G. pose proof (gap_app _ _ _ G) as A.
  assert (GO : tells (half_token cs n r)
     (let? (w, s1) := read_fws_says s in
      match w, ([] : bytes) with
      | _ :: _, _ :: _ => Fine (TOK_EOF, ([] : bytes), s1)
      | _, _ =>
          let '(o1, s2) := peek s1 in
          match o1 with
          | None => Fine (TOK_EOF, [], s2)
          | Some c =>
              if c =?c DQUOTE then let '(_, s3) := get s2 in let? (t, s4) := quoted_loop_says cs (fuel_of s3) s3 [] in Fine (TOK_QUOTED, t, s4)
              else if c =?c LPAREN then let '(_, s3) := get s2 in let? (t, s4) := comment_loop_says (fuel_of s3) 1 s3 [] in Fine (TOK_COMMENT, t, s4)
              else if c =?c LANGLE then let '(_, s3) := get s2 in Fine (TOK_TAG_OPEN, [], s3)
              else if c =?c RANGLE then let '(_, s3) := get s2 in Fine (TOK_TAG_CLOSE, [], s3)
              else if (c =?c COMMA) || (c =?c SEMI) then let '(_, s3) := get s2 in Fine (TOK_SEPARATOR, [], s3)
              else let '(g, s3) := get s2 in next_tok_says cs (length r) s3 [as_char g]
          end
      end)).
  { destruct (fws_Fine s p r w r1 H W) as (s1 & -> & H1). cbn [sbind].
    assert (LN : length p + length r = length (rev w ++ p) + length r1). { rewrite A, !app_length, rev_length. lia. }
    pose proof (gap_shorter _ _ _ G) as LE. rewrite LN in N. clear LN A W. eapply tells_iff; [intros m; symmetry; apply (half_inv cs n r w r1 m G)|].
    assert (T : tells (fun m => exists c q, r1 = c :: q /\ (~ special c /\ word_bad n q m \/ c = DQ /\ string_bad cs q m \/ c = LP /\ comment_bad false 1 q m))
      (let '(o1, s2) := peek s1 in
          match o1 with
          | None => Fine (TOK_EOF, [], s2)
          | Some c =>
              if c =?c DQUOTE then let '(_, s3) := get s2 in let? (t, s4) := quoted_loop_says cs (fuel_of s3) s3 [] in Fine (TOK_QUOTED, t, s4)
              else if c =?c LPAREN then let '(_, s3) := get s2 in let? (t, s4) := comment_loop_says (fuel_of s3) 1 s3 [] in Fine (TOK_COMMENT, t, s4)
              else if c =?c LANGLE then let '(_, s3) := get s2 in Fine (TOK_TAG_OPEN, [], s3)
              else if c =?c RANGLE then let '(_, s3) := get s2 in Fine (TOK_TAG_CLOSE, [], s3)
              else if (c =?c COMMA) || (c =?c SEMI) then let '(_, s3) := get s2 in Fine (TOK_SEPARATOR, [], s3)
              else let '(g, s3) := get s2 in next_tok_says cs (length r) s3 [as_char g]
          end)); [|destruct w; exact T].
    destruct r1 as [|c q]; peek_at H1.
    { apply tells_none; [discriminate|]. intros m (c & q & X & _). discriminate X. }
    assert (INV : forall m, (exists c' q', c :: q = c' :: q' /\ (~ special c' /\ word_bad n q' m \/ c' = DQ /\ string_bad cs q' m \/ c' = LP /\ comment_bad false 1 q' m)) <->
      (~ special c /\ word_bad n q m \/ c = DQ /\ string_bad cs q m \/ c = LP /\ comment_bad false 1 q m)).
    { intros m. split; [intros (c' & q' & X & Y); injection X as <- <-; exact Y|eauto]. }
    eapply tells_iff; [intros m; symmetry; apply INV|]. clear INV.
    destruct (c =?c DQUOTE) eqn:C1.
    { apply ceqb_eq in C1. subst c. get_at H1. rewrite (St_fuel _ _ _ H0). pose proof (string_tells cs (S (length q)) s0 _ q [] H0 ltac:(lia)) as T.
      intros m. transitivity (string_bad cs q m).
      - rewrite <- (T m). destruct (quoted_loop_says cs (S (length q)) s0 []) as [[t s4]|m'|]; cbn [sbind]; split; auto; discriminate || (intros X; injection X as ->; reflexivity).
      - split; [auto|]. intros [(X & _)|[(_ & X)|(X & _)]]; auto; [|discriminate X]. destruct X. left. reflexivity. }
    destruct (c =?c LPAREN) eqn:C2.
    { apply ceqb_eq in C2. subst c. get_at H1. rewrite (St_fuel _ _ _ H0). pose proof (comment_tells (length q) false 0 s0 _ q [] H0 ltac:(cbn; lia)) as T. cbn [in_comment_says] in T.
      intros m. transitivity (comment_bad false 1 q m).
      - rewrite <- (T m). destruct (comment_loop_says (S (length q)) 1 s0 []) as [[t s4]|m'|]; cbn [sbind]; split; auto; discriminate || (intros X; injection X as ->; reflexivity).
      - split; [auto|]. intros [(X & _)|[(X & _)|(_ & X)]]; auto; [|discriminate X]. destruct X. right. left. reflexivity. }
    assert (NQ : c <> DQ /\ c <> LP) by (split; intros ->; discriminate). destruct NQ as [NQ NP].
    assert (SPEC : special c -> forall m, ~ (~ special c /\ word_bad n q m \/ c = DQ /\ string_bad cs q m \/ c = LP /\ comment_bad false 1 q m)).
    { intros X m. intros [(Y & _)|[(Y & _)|(Y & _)]]; auto. }
    destruct (c =?c LANGLE) eqn:C3.
    { get_at H1. apply tells_none; [discriminate|]. apply SPEC. apply ceqb_eq in C3. subst c. do 2 right. left. reflexivity. }
    destruct (c =?c RANGLE) eqn:C4.
    { get_at H1. apply tells_none; [discriminate|]. apply SPEC. apply ceqb_eq in C4. subst c. do 3 right. left. reflexivity. }
    destruct ((c =?c COMMA) || (c =?c SEMI)) eqn:C5.
    { get_at H1. apply tells_none; [discriminate|]. apply SPEC. apply Bool.orb_true_iff in C5 as [C5|C5]; apply ceqb_eq in C5; subst c; [do 4 right|do 5 right]; left; reflexivity. }
    apply Bool.orb_false_iff in C5 as [C5 C6]. apply ceqb_neq in C1, C2, C3, C4, C5, C6.
    assert (X : ~ special c). { intros [X|[X|[X|[X|[X|[X|[]]]]]]]; subst c; contradiction. }
    get_at H1. cbn [as_char length] in *. eapply tells_iff; [|apply (word_tells cs n (length r) s0 _ q c [] H0); [cbn [length]; lia|lia]].
    intros m. split; [auto|]. intros [(_ & Y)|[(Y & _)|(Y & _)]]; auto; contradiction. }
  destruct r as [|c r].
  - cbn in W. injection W as <- <-. peek_at H. apply tells_none; [discriminate|]. intros m B. apply (half_inv cs n [] [] [] m G) in B as (c & q & X & _). discriminate X.
  - peek_at H. exact GO.
Qed.

(** ** Tokens with a NUL *)
Lemma nul_run cs r : nul_token cs r -> forall s p, St s p r -> exists ty tk s', NextAddressListToken cs s = Ok (ty, tk, s') /\ In NUL0 tk.
Proof.
  intros O s p H. unfold NextAddressListToken. rewrite (St_fuel _ _ _ H).
  assert (ST : forall w r1, gap r w r1 -> exists s' p', next_tok cs (S (length r)) s [] = tok_body cs (length r) s' [] /\ St s' p' r1).
  { intros. eapply next_start; eauto. }
  destruct O as [w c r1 a r2 G X W N|w q v r1 G Q N|w a r1 G K N];
    destruct (ST _ _ G) as (s1 & p1 & -> & H1); pose proof (gap_shorter _ _ _ G) as LE; cbn [length] in LE.
  - destruct (plain_next cs (length r) s1 p1 c r1 [] H1 X) as (s2 & -> & H2). cbn [app].
    destruct (word_run cs _ _ _ W (length r) s2 _ c [] H2 ltac:(lia)) as (s3 & p3 & -> & H3). cbn [app]. eauto.
  - unfold tok_body. peek_at H1. replace (DQ =?c DQUOTE) with true by reflexivity. get_at H1. rewrite (St_fuel _ _ _ H0).
    destruct (quoted_run cs q v Q (S (length (q ++ DQ :: r1))) s0 _ r1 [] H0 ltac:(lia)) as (s2 & p2 & -> & H2). cbn [obind app]. eauto.
  - unfold tok_body. peek_at H1. replace (LP =?c DQUOTE) with false by reflexivity. replace (LP =?c LPAREN) with true by reflexivity. get_at H1. rewrite (St_fuel _ _ _ H0).
    destruct (comment_run _ _ _ K (length (a ++ r1)) s0 _ r1 [] H0 ltac:(lia)) as (t & s2 & p2 & E2 & H2 & NU). cbn [in_comment] in E2.
    rewrite E2. cbn [obind]. eexists _, t, s2. split; [reflexivity|]. apply NU. auto.
Qed.
Lemma nul_back cs s p r ty tk s' : St s p r -> NextAddressListToken cs s = Ok (ty, tk, s') -> In NUL0 tk -> nul_token cs r.
Proof.
  intros H. unfold NextAddressListToken. rewrite (St_fuel _ _ _ H).
  destruct (l_fws r) as [[w r1]|] eqn:W.
  2:{ destruct r as [|c r]; [discriminate W|]. rewrite next_tok_S. peek_at H. pose proof (read_fws_St _ _ _ H) as R. rewrite W in R. rewrite R. discriminate. }
  apply fws_gap in W. destruct (next_start cs (length r) s p r w r1 H W) as (s1 & p1 & -> & H1). unfold tok_body. intros E N. revert E.
  destruct r1 as [|c r1]; peek_at H1.
  { intros EQ. unfold finish_tok in EQ. injection EQ as <- <- <-. destruct N. }
  destruct (c =?c DQUOTE) eqn:C1.
  { apply ceqb_eq in C1. subst c. get_at H1. destruct (quoted_loop cs (fuel_of s0) s0 []) as [[t s4]| | |] eqn:Q; try discriminate. cbn [obind]. intros EQ. injection EQ as <- <- <-.
    destruct (quoted_back _ _ _ _ _ _ _ _ H0 Q) as (q & v & r' & p' & -> & Q' & -> & H'). eapply nt_quoted; eauto. }
  destruct (c =?c LPAREN) eqn:C2.
  { apply ceqb_eq in C2. subst c. get_at H1. rewrite (St_fuel _ _ _ H0). destruct (comment_loop (S (length r1)) 1 s0 []) as [[t s4]| | |] eqn:Q; try discriminate. cbn [obind]. intros EQ. injection EQ as <- <- <-.
    destruct (comment_back (length r1) false 0 _ _ _ _ _ _ H0 Q) as (a & r' & p' & -> & K & H' & NU). eapply nt_comment; eauto. apply NU in N as [[]|N]. exact N. }
  destruct (c =?c LANGLE) eqn:C3.
  { get_at H1. intros EQ. injection EQ as <- <- <-. destruct N. }
  destruct (c =?c RANGLE) eqn:C4.
  { get_at H1. intros EQ. injection EQ as <- <- <-. destruct N. }
  destruct ((c =?c COMMA) || (c =?c SEMI)) eqn:C5.
  { get_at H1. intros EQ. injection EQ as <- <- <-. destruct N. }
  apply Bool.orb_false_iff in C5 as [C5 C6].
  assert (X : ~ special c). { apply ceqb_neq in C1, C2, C3, C4, C5, C6. intros [X|[X|[X|[X|[X|[X|[]]]]]]]; subst c; contradiction. }
  get_at H1. cbn [as_char app]. intros EQ. destruct (word_back _ _ _ _ _ _ _ _ _ _ H0 EQ) as (a & r' & p' & WR & -> & -> & H').
  eapply nt_word; eauto.
Qed.

(** ** The end of a segment *)
Definition flushed_says (rec : bytes -> says (list bytes)) (sep : bool) (typ : addr_tok) (tokens : list bytes) (kont : list bytes -> says (list bytes)) :=
  match tokens with
  | [] => kont []
  | tok0 :: rest =>
      if sep && negb (match typ with TOK_TAG_CLOSE => true | _ => false end) && negb (has_char AT (last tokens [])) then kont []
      else match typ, rest with
           | TOK_QUOTED, [] => let? addrs := rec tok0 in kont addrs
           | _, _ => kont [concat tokens]
           end
  end.
Lemma flush_tells rec (sub : bytes -> list bytes -> Prop) (E : bytes -> bytes -> Prop) (P : bytes -> Prop) sep seg typ kont : follows seg typ -> segment seg ->
  (forall v, In (Word true v) seg -> (forall l, rec v = Fine l <-> sub v l) /\ tells (E v) (rec v)) -> (forall l, tells P (kont l)) ->
  tells (fun m => (exists v, (sep = true -> In AT v) /\ lone_quoted seg v /\ E v m) \/ (exists l, yields sub sep seg l) /\ P m) (flushed_says rec sep typ (words seg) kont).
Proof.
  intros FO SE RS KO. unfold flushed_says. destruct (words seg) as [|w0 rest] eqn:W.
  { eapply tells_iff; [|apply KO]. intros m. split.
    - intros p. right. split; auto. exists []. constructor; auto.
    - intros [(v & _ & (X & _) & _)|[_ p]]; auto. congruence. }
  destruct (follows_quoted seg typ FO SE ltac:(rewrite W; discriminate)) as (Q & NC & NE).
  replace (negb match typ with TOK_TAG_CLOSE => true | _ => false end) with true by (destruct typ; solve [reflexivity|congruence]).
  rewrite <- W. rewrite Bool.andb_true_r.
  assert (LQ : forall v, lone_quoted seg v -> typ = TOK_QUOTED /\ rest = [] /\ w0 = v).
  { intros v (X & Y). rewrite W in X. injection X as <- ->. split; auto. apply Q. destruct Y as (s2 & Y). eauto. }
  destruct (sep && negb (has_char AT (last (words seg) []))) eqn:D.
  { apply Bool.andb_true_iff in D as [D1 D2]. apply Bool.negb_true_iff, has_char_false in D2.
    eapply tells_iff; [|apply KO]. intros m. split.
    - intros p. right. split; auto. exists []. apply y_name; auto.
    - intros [(v & A & (X & _) & _)|[_ p]]; auto. rewrite X in D2. destruct (D2 (A D1)). }
  assert (KEEP : sep = true -> In AT (last (words seg) [])).
  { intros ->. cbn in D. apply Bool.negb_false_iff, has_char_in in D. exact D. }
  assert (CASE : (typ = TOK_QUOTED /\ rest = []) \/ ~ (typ = TOK_QUOTED /\ rest = [])).
  { destruct typ; try (right; intros [X _]; discriminate X). destruct rest; [left; auto|right; intros [_ X]; discriminate X]. }
  destruct CASE as [[-> ->]|NL].
  - assert (LO : lone_quoted seg w0).
    { split; auto. destruct Q as [Q _]. destruct (Q eq_refl) as (s2 & v & ->). exists s2. rewrite words_snoc in W. apply (app_inj_tail _ []) in W as [_ ->]. reflexivity. }
    assert (IW : In (Word true w0) seg). { destruct LO as (_ & s2 & ->). apply in_or_app. right. left. reflexivity. }
    assert (KW : sep = true -> In AT w0). { rewrite W in KEEP. exact KEEP. }
    destruct (RS w0 IW) as [RO RT].
    assert (NY : (forall l, rec w0 <> Fine l) -> forall l, ~ yields sub sep seg l).
    { intros NF l Y. destruct Y as [Y|SP Y|v l A L S|A N L].
      - rewrite W in Y. discriminate Y.
      - exact (Y (KEEP SP)).
      - destruct (LQ v L) as (_ & _ & <-). apply RO in S. exact (NF _ S).
      - apply L. eauto. }
    destruct (rec w0) as [addrs|m0|] eqn:R; cbn [sbind].
    + eapply tells_iff; [|apply KO]. intros m. split.
      * intros p. right. split; auto. exists addrs. apply (y_list _ _ _ w0); auto. apply RO. reflexivity.
      * intros [(v & _ & L & e)|[_ p]]; auto. destruct (LQ v L) as (_ & _ & <-). apply RT in e. discriminate e.
    + intros m. split.
      * intros X. left. exists w0. split; auto. split; auto. apply RT. injection X as ->. reflexivity.
      * intros [(v & _ & L & e)|[(l & Y) _]]; [|destruct (NY ltac:(discriminate) l Y)]. destruct (LQ v L) as (_ & _ & <-). apply RT in e. injection e as ->. reflexivity.
    + apply tells_none; [discriminate|]. intros m [(v & _ & L & e)|[(l & Y) _]]; [|destruct (NY ltac:(discriminate) l Y)]. destruct (LQ v L) as (_ & _ & <-). apply RT in e. discriminate e.
  - replace (match typ with TOK_QUOTED => match rest with [] => let? addrs := rec w0 in kont addrs | _ :: _ => kont [concat (words seg)] end | _ => kont [concat (words seg)] end)
      with (kont [concat (words seg)]) by (destruct typ, rest; auto; destruct NL; auto).
    assert (NLO : ~ exists v, lone_quoted seg v). { intros (v & L). destruct (LQ v L) as (X & Y & _). auto. }
    eapply tells_iff; [|apply KO]. intros m. split.
    + intros p. right. split; auto. exists [concat (words seg)]. apply y_address; auto. rewrite W. discriminate.
    + intros [(v & _ & L & e)|[_ p]]; auto. destruct NLO. eauto.
Qed.
