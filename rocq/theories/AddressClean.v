(** What bytes an address can be made of: proofs. *)
From Verif Require Import Bytes Outcome Stream Tokenizer BytesFacts StreamFacts TokenizerFacts
  SpecText SpecAddress QPFacts ListFacts AddressFacts.

Lemma Ok_inj {A} (a b : A) : Ok a = Ok b -> a = b.
Proof. congruence. Qed.

Lemma plain_folds_rest a t : plain_folds (a ++ t) -> plain_folds t.
Proof.
  intros [F N]. split.
  - intros x b ->. apply (F (a ++ x) b). rewrite app_assoc. reflexivity.
  - intros x w b ->. apply (N (a ++ x) w b). rewrite app_assoc. reflexivity.
Qed.
Lemma wsps_WSP w : forallb is_wsp w = true -> Forall WSP w.
Proof. rewrite forallb_forall, Forall_forall. intros H c I. apply is_wsp_WSP. auto. Qed.
Lemma l_fws_no_CR r w c r1 : plain_folds r -> l_fws r = Some (w, c :: r1) -> c <> CR.
Proof.
  intros [F N] E ->. unfold l_fws in E. destruct (span is_wsp r) as [a b] eqn:SP. pose proof (span_app _ _ _ _ SP) as A.
  destruct b as [|x b]; [discriminate|]. destruct (x =?c CR) eqn:X; [|injection E as _ -> _; discriminate X].
  apply ceqb_eq in X. subst x. destruct b as [|y b]; [discriminate|]. destruct (y =?c LF) eqn:Y; [|discriminate]. apply ceqb_eq in Y. subst y.
  destruct (span is_wsp b) as [w2 r4] eqn:S2. pose proof (span_app _ _ _ _ S2) as A2. destruct w2 as [|z w2].
  - cbn in A2. subst r4. specialize (F a b A). destruct b as [|d b]; [exact F|]. pose proof (span_stop _ _ _ _ S2) as ST. cbn in ST. apply is_wsp_WSP in F. congruence.
  - injection E as _ ->. apply (N a (z :: w2) r1); [rewrite A, A2; reflexivity|]. apply wsps_WSP. eapply span_all; eauto.
Qed.

Definition suffix (r' r : bytes) : Prop := exists u, r = u ++ r'.
Lemma suffix_refl r : suffix r r. Proof. exists []. reflexivity. Qed.
Lemma suffix_cons c a b : suffix a b -> suffix a (c :: b). Proof. intros [u ->]. exists (c :: u). reflexivity. Qed.
Lemma suffix_trans a b c : suffix a b -> suffix b c -> suffix a c.
Proof. intros [u ->] [v ->]. exists (v ++ u). rewrite app_assoc. reflexivity. Qed.

Section over.
Variable P : ascii -> Prop.
Lemma quoted_loop_rest f : forall s p r token t s', St s p r -> Forall P r -> Forall P token -> quoted_loop true f s token = Ok (t, s') ->
  Forall P t /\ exists p' r', St s' p' r' /\ suffix r' r.
Proof.
  induction f as [|f IH]; intros s p r token t s' H FR FT E; cbn [quoted_loop] in E; [discriminate|].
  destruct r as [|c r].
  { destruct (get_nil s p H) as (s1 & G & _). rewrite G in E. cbn [as_char andb] in E. rewrite ceqb_refl in E. discriminate. }
  destruct (get_cons s p c r H) as (s1 & G & H1). rewrite G in E. cbn [as_char andb] in E. inversion FR as [|? ? PC FR']; subst.
  destruct (c =?c chr 255); [discriminate|]. destruct (c =?c BSLASH).
  - destruct r as [|d r].
    { destruct (peek_nil s1 _ H1) as (s2 & Q & _). rewrite Q in E. discriminate. }
    rewrite (peek_cons _ _ _ _ H1) in E. destruct (get_cons _ _ _ _ H1) as (s2 & G2 & H2). rewrite G2 in E. cbn [as_char] in E. inversion FR' as [|? ? PD FR2]; subst.
    edestruct IH as (Ft & p' & r' & H' & X); [exact H2|exact FR2| |exact E|]; [apply Forall_app; auto|]. split; auto. exists p', r'. split; auto. do 2 apply suffix_cons. auto.
  - destruct (c =?c DQUOTE).
    + injection E as <- <-. split; auto. exists (c :: p), r. split; auto. apply suffix_cons, suffix_refl.
    + edestruct IH as (Ft & p' & r' & H' & X); [exact H1|exact FR'| |exact E|]; [apply Forall_app; auto|]. split; auto. exists p', r'. split; auto. apply suffix_cons. auto.
Qed.
End over.

Lemma comment_loop_rest f : forall d s p r token t s', St s p r -> comment_loop f d s token = Ok (t, s') -> exists p' r', St s' p' r' /\ suffix r' r.
Proof.
  induction f as [|f IH]; intros d s p r token t s' H E; [discriminate|]. destruct d as [|d].
  { injection E as <- <-. exists p, r. split; auto using suffix_refl. }
  rewrite comment_loop_S in E.
  assert (STEP : forall s p r token, St s p r -> comment_step f (S d) s token = Ok (t, s') -> exists p' r', St s' p' r' /\ suffix r' r).
  { clear - IH. intros s p r token H E. unfold comment_step in E. destruct r as [|c r].
    - destruct (peek_nil s p H) as (s1 & Q & H1 & _). rewrite Q in E. destruct (get_nil s1 p H1) as (s2 & G & H2). rewrite G in E. eapply IH; eauto.
    - rewrite (peek_cons _ _ _ _ H) in E. destruct (get_cons _ _ _ _ H) as (s1 & G & H1). rewrite G in E.
      destruct (if c =?c LPAREN then _ else _); (edestruct IH as (p' & r' & H' & X); [exact H1|exact E|]; exists p', r'; split; auto using suffix_cons). }
  destruct r as [|c r].
  { destruct (peek_nil s p H) as (s1 & Q & _). rewrite Q in E. discriminate. }
  rewrite (peek_cons _ _ _ _ H) in E. destruct (c =?c BSLASH); [|eapply STEP; eauto].
  destruct (get_cons _ _ _ _ H) as (s1 & G & H1). rewrite G in E. destruct r as [|c2 r].
  { destruct (peek_nil s1 _ H1) as (s2 & Q & _). rewrite Q in E. discriminate. }
  rewrite (peek_cons _ _ _ _ H1) in E. destruct (get_cons _ _ _ _ H1) as (s2 & G2 & H2). rewrite G2 in E.
  destruct (STEP _ _ _ _ H2 E) as (p' & r' & H' & X). exists p', r'. split; auto. do 2 apply suffix_cons. auto.
Qed.

(** One token: [K] holds of text that is left, and makes sure of [P] for the byte behind
    folding whitespace. *)
Definition keeps (P : ascii -> Prop) (K : bytes -> Prop) : Prop :=
  (forall r r', suffix r' r -> K r -> K r') /\ (forall r w c r1, K r -> l_fws r = Some (w, c :: r1) -> P c).
Lemma next_tok_rest P K (noq : Prop) cs f : keeps P K ->
  (noq -> forall r, K r -> ~ In DQ r) -> (~ noq -> cs = true /\ forall r, K r -> Forall P r) -> noq \/ ~ noq ->
  forall s p r token ty t s', St s p r -> K r -> Forall P token -> next_tok cs f s token = Ok (ty, t, s') ->
  (ty <> TOK_COMMENT -> Forall P t) /\ (noq -> ty <> TOK_QUOTED) /\ exists p' r', St s' p' r' /\ suffix r' r.
Proof.
  intros [K1 K2] NQ YQ DEC. induction f as [|f IH]; intros s p r token ty t s' H HK FT E; cbn [next_tok] in E; [discriminate|].
  assert (FIN : forall s1 p1 r1, St s1 p1 r1 -> suffix r1 r -> Ok (match token with [] => TOK_EOF | _ => TOK_ATOM end, token, s1) = Ok (ty, t, s') ->
    (ty <> TOK_COMMENT -> Forall P t) /\ (noq -> ty <> TOK_QUOTED) /\ exists p' r', St s' p' r' /\ suffix r' r).
  { intros s1 p1 r1 H1 X Q. apply Ok_inj in Q. injection Q as <- <- <-. split; auto. split; [intros _; destruct token; discriminate|]. exists p1, r1. auto. }
  destruct r as [|c0 r0].
  { destruct (peek_nil s p H) as (s1 & Q & H1 & _). rewrite Q in E. apply (FIN _ _ _ H1 (suffix_refl _) E). }
  rewrite (peek_cons _ _ _ _ H) in E. pose proof (read_fws_St _ _ _ H) as R. remember (c0 :: r0) as r eqn:Er.
  destruct (l_fws r) as [[w r1]|] eqn:LF; [|rewrite R in E; discriminate]. destruct R as (s1 & R & H1). rewrite R in E. cbn [obind] in E.
  assert (X1 : suffix r1 r) by (exists w; apply l_fws_app; auto).
  assert (BODY : forall E0, (let '(o1, s2) := peek s1 in
      match o1 with
      | None => Ok (match token with [] => TOK_EOF | _ => TOK_ATOM end, token, s2)
      | Some c =>
        if c =?c DQUOTE then
          match token with
          | _ :: _ => Ok (TOK_ATOM, token, s2)
          | [] => let '(_, s3) := get s2 in
                  let* (t, s4) := quoted_loop cs (fuel_of s3) s3 [] in
                  Ok (TOK_QUOTED, t, s4)
          end
        else if c =?c LPAREN then
          match token with
          | _ :: _ => Ok (TOK_ATOM, token, s2)
          | [] => let '(_, s3) := get s2 in
                  let* (t, s4) := comment_loop (fuel_of s3) 1 s3 [] in
                  Ok (TOK_COMMENT, t, s4)
          end
        else if c =?c LANGLE then
          match token with
          | _ :: _ => Ok (TOK_ATOM, token, s2)
          | [] => let '(_, s3) := get s2 in Ok (TOK_TAG_OPEN, [], s3)
          end
        else if c =?c RANGLE then
          match token with
          | _ :: _ => Ok (TOK_ATOM, token, s2)
          | [] => let '(_, s3) := get s2 in Ok (TOK_TAG_CLOSE, [], s3)
          end
        else if (c =?c COMMA) || (c =?c SEMI) then
          match token with
          | _ :: _ => Ok (TOK_ATOM, token, s2)
          | [] => let '(_, s3) := get s2 in Ok (TOK_SEPARATOR, [], s3)
          end
        else let '(g, s3) := get s2 in next_tok cs f s3 (token ++ [as_char g])
      end) = E0 -> E0 = Ok (ty, t, s') -> (ty <> TOK_COMMENT -> Forall P t) /\ (noq -> ty <> TOK_QUOTED) /\ exists p' r', St s' p' r' /\ suffix r' r).
  { clear E. intros E0 <- E. destruct r1 as [|c r1].
    { destruct (peek_nil s1 _ H1) as (s2 & Q & H2 & _). rewrite Q in E. apply (FIN _ _ _ H2 X1 E). }
    rewrite (peek_cons _ _ _ _ H1) in E. pose proof (K2 r w c r1 HK LF) as PC. pose proof (K1 _ _ X1 HK) as HK1.
    assert (X2 : suffix r1 r) by (eapply suffix_trans; [|exact X1]; apply suffix_cons, suffix_refl).
    destruct (get_cons _ _ _ _ H1) as (s3 & G & H3). rewrite G in E.
    assert (ATOM : forall x tk, token = x :: tk -> Ok (TOK_ATOM, x :: tk, s1) = Ok (ty, t, s') ->
       (ty <> TOK_COMMENT -> Forall P t) /\ (noq -> ty <> TOK_QUOTED) /\ exists p' r', St s' p' r' /\ suffix r' r).
    { intros x tk -> Q. apply Ok_inj in Q. injection Q as <- <- <-. split; auto. split; [intros _; discriminate|]. eexists _, _. split; [exact H1|auto]. }
    assert (ONE : forall ty0, ty0 <> TOK_QUOTED -> Ok (ty0, [], s3) = Ok (ty, t, s') ->
       (ty <> TOK_COMMENT -> Forall P t) /\ (noq -> ty <> TOK_QUOTED) /\ exists p' r', St s' p' r' /\ suffix r' r).
    { intros ty0 N Q. apply Ok_inj in Q. injection Q as <- <- <-. split; auto. split; auto. eexists _, _. split; [exact H3|auto]. }
    destruct (c =?c DQUOTE) eqn:CQ.
    { destruct token as [|x tk]; [|eapply ATOM; eauto]. apply ceqb_eq in CQ. subst c.
      destruct DEC as [Y|Y]; [destruct (NQ Y _ HK1); left; reflexivity|]. destruct (YQ Y) as [-> FP].
      destruct (quoted_loop _ _ _ _) as [[t4 s4]| | |] eqn:QL; try discriminate. cbn [obind] in E. apply Ok_inj in E. injection E as <- <- <-.
      pose proof (FP _ HK1) as FA. inversion FA; subst.
      edestruct quoted_loop_rest as (Ft & p' & r' & H' & X); [exact H3| | |exact QL|]; eauto. split; auto. split; [tauto|]. exists p', r'. split; auto. eapply suffix_trans; eauto. }
    destruct (c =?c LPAREN).
    { destruct token as [|x tk]; [|eapply ATOM; eauto]. destruct (comment_loop _ _ _ _) as [[t4 s4]| | |] eqn:QL; try discriminate. cbn [obind] in E. apply Ok_inj in E. injection E as <- <- <-.
      edestruct comment_loop_rest as (p' & r' & H' & X); [exact H3|exact QL|]. split; [congruence|]. split; [intros _; discriminate|]. exists p', r'. split; auto. eapply suffix_trans; eauto. }
    destruct (c =?c LANGLE); [destruct token as [|x tk]; [apply (ONE TOK_TAG_OPEN); auto; discriminate|eapply ATOM; eauto]|].
    destruct (c =?c RANGLE); [destruct token as [|x tk]; [apply (ONE TOK_TAG_CLOSE); auto; discriminate|eapply ATOM; eauto]|].
    destruct ((c =?c COMMA) || (c =?c SEMI)); [destruct token as [|x tk]; [apply (ONE TOK_SEPARATOR); auto; discriminate|eapply ATOM; eauto]|].
    cbn [as_char] in E. edestruct IH as (Ft & Q & p' & r' & H' & X); [exact H3| | |exact E|].
    - eapply K1; eauto.
    - apply Forall_app. auto.
    - split; auto. split; auto. exists p', r'. split; auto. eapply suffix_trans; eauto. }
  destruct w as [|x w]; [eapply BODY; [reflexivity|exact E]|]. destruct token as [|y token]; [eapply BODY; [reflexivity|exact E]|].
  apply (FIN _ _ _ H1 X1 E).
Qed.

Lemma pal_loop_rest P K (noq : Prop) cs rec : keeps P K ->
  (noq -> forall r, K r -> ~ In DQ r) -> (~ noq -> cs = true /\ forall r, K r -> Forall P r) -> noq \/ ~ noq ->
  (~ noq -> forall t l, Forall P t -> rec t = Ok l -> Forall (Forall P) l) ->
  forall f s p r typ tokens inOpen res l, St s p r -> K r -> (noq -> typ <> TOK_QUOTED) -> Forall (Forall P) tokens -> Forall (Forall P) res ->
  pal_loop cs rec f s typ tokens inOpen res = Ok l -> Forall (Forall P) l.
Proof.
  intros KP NQ YQ DEC REC. induction f as [|f IH]; intros s p r typ tokens inOpen res l H HK TQ FT FR E; [discriminate|].
  cbn [pal_loop] in E.
  assert (TE : typ = TOK_EOF \/ typ <> TOK_EOF) by (destruct typ; auto; right; discriminate).
  destruct TE as [->|TE]; [apply Ok_inj in E; subst; auto|].
  match type of E with (match _ with TOK_QUOTED => ?x | TOK_ATOM => _ | TOK_COMMENT => _ | TOK_TAG_OPEN => _
      | TOK_TAG_CLOSE => _ | TOK_SEPARATOR => _ | TOK_EOF => _ end) = _ =>
    assert (E' : x = Ok l) by (destruct typ; auto; congruence); clear E; rename E' into E end.
  destruct (NextAddressListToken cs s) as [[[ty t] s']| | |] eqn:NX; try discriminate. cbn [obind] in E. unfold NextAddressListToken in NX.
  destruct (next_tok_rest P K noq cs _ KP NQ YQ DEC _ _ _ _ _ _ _ H HK ltac:(constructor) NX) as (Ft & Q & p' & r' & H' & X).
  destruct (has_char NUL t); [discriminate|]. pose proof (proj1 KP _ _ X HK) as HK'.
  assert (AGAIN : forall tk op rs, Forall (Forall P) tk -> Forall (Forall P) rs -> pal_loop cs rec f s' ty tk op rs = Ok l -> Forall (Forall P) l).
  { intros tk op rs F1 F2 E1. eapply IH with (6 := E1); eauto. }
  assert (FLUSH : forall op : bool, (if op then perm else match tokens with
              | [] => pal_loop cs rec f s' ty [] op res
              | tok0 :: rest =>
                  if (match ty with TOK_SEPARATOR => true | _ => false end)
                     && negb (match typ with TOK_TAG_CLOSE => true | _ => false end)
                     && negb (has_char AT (last tokens []))
                  then pal_loop cs rec f s' ty [] op res
                  else
                    match typ, rest with
                    | TOK_QUOTED, [] =>
                        let* addrs := rec tok0 in pal_loop cs rec f s' ty [] op (res ++ addrs)
                    | _, _ => pal_loop cs rec f s' ty [] op (res ++ [concat tokens])
                    end
              end) = Ok l -> Forall (Forall P) l).
  { clear E. intros op E. destruct op; [discriminate|]. destruct tokens as [|tok0 rest]; [eapply AGAIN with (3 := E); auto|].
    match type of E with (if ?b then _ else _) = _ => destruct b; [eapply AGAIN with (3 := E); auto|] end.
    assert (CC : pal_loop cs rec f s' ty [] false (res ++ [concat (tok0 :: rest)]) = Ok l -> Forall (Forall P) l).
    { intros E1. eapply AGAIN with (3 := E1); auto. apply Forall_app. split; auto. apply Forall_cons; [|apply Forall_nil]. apply Forall_concat. exact FT. }
    destruct typ, rest; auto. destruct (rec tok0) as [addrs| | |] eqn:RC; try discriminate. cbn [obind] in E. eapply AGAIN with (3 := E); auto.
    apply Forall_app. split; auto. destruct DEC as [Y|Y]; [destruct (TQ Y eq_refl)|]. apply (REC Y tok0); auto. eapply Forall_inv; eauto. }
  destruct ty; try (eapply FLUSH; exact E).
  - eapply AGAIN with (3 := E); auto. apply Forall_app. split; auto. apply Forall_cons; [|apply Forall_nil]. apply Ft. discriminate.
  - eapply AGAIN with (3 := E); auto. apply Forall_app. split; auto. apply Forall_cons; [|apply Forall_nil]. apply Ft. discriminate.
  - eapply AGAIN with (3 := E); auto.
  - eapply AGAIN with (3 := E); auto.
  - apply (FLUSH false E).
Qed.

(** Every byte of an address is one of the input. *)
Lemma pal_bytes P d : forall input l, Forall P input -> pal true d input = Ok l -> Forall (Forall P) l.
Proof.
  induction d as [|d IH]; intros input l F E; [discriminate|]. cbn [pal] in E.
  eapply (pal_loop_rest P (Forall P) False) with (7 := F) (11 := E); auto using St_open.
  - split; [intros r r' [u ->] Q; apply Forall_app in Q; tauto|]. intros r w c r1 Q L. apply l_fws_app in L. subst. apply Forall_app in Q as [_ Q]. eapply Forall_inv; eauto.
Qed.
Lemma address_bytes input l : ParseAddressList true input = Ok l -> Forall (Forall (fun c => In c input)) l.
Proof. intros E. eapply pal_bytes; [|exact E]. apply Forall_forall. auto. Qed.
Lemma address_no_CR input l a : ~ In CR input -> ParseAddressList true input = Ok l -> In a l -> ~ In CR a.
Proof. intros N E I J. apply N. apply address_bytes in E. rewrite Forall_forall in E. specialize (E a I). rewrite Forall_forall in E. auto. Qed.

(** No CR where folding is plain and there are no quoted strings. *)
Lemma address_folded cs input l a : plain_folds input -> ~ In DQ input -> ParseAddressList cs input = Ok l -> In a l -> ~ In CR a.
Proof.
  intros PF NQ E I J. unfold ParseAddressList in E. cbn [pal] in E.
  assert (F : Forall (Forall (fun c => c <> CR)) l).
  { eapply (pal_loop_rest (fun c => c <> CR) (fun r => plain_folds r /\ ~ In DQ r) True) with (7 := conj PF NQ) (11 := E); auto using St_open.
    - split.
      + intros r r' [u ->] [Q1 Q2]. split; [eapply plain_folds_rest; eauto|]. intros X. apply Q2, in_or_app. auto.
      + intros r w c r1 [Q1 _] L. eapply l_fws_no_CR; eauto.
    - intros _ r [_ Q]. exact Q.
    - tauto.
    - tauto.
    - discriminate. }
  rewrite Forall_forall in F. specialize (F a I). rewrite Forall_forall in F. apply (F CR J). reflexivity.
Qed.
