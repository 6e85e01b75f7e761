(** The depth of comments as an int (C106). *)
From Verif Require Import Bytes Outcome Stream Tokenizer IntDepth BytesFacts StreamFacts TokenizerFacts SpecText SpecAddress SpecAddressAll SpecOverflow
  QPFacts ListFacts AddressFacts AddressParse AddressClean ListExact ListWide AddressWide AddressEndless.

Definition step_int (f depth : nat) (s2 : istream) (token1 : bytes) : outcome (bytes * istream) :=
  let '(o3, s5) := peek s2 in
  let* d1 := match o3 with
             | Some c3 => if c3 =?c LPAREN then deeper depth
                          else if c3 =?c RPAREN then Ok (pred depth) else Ok depth
             | None => Ok depth
             end in
  let '(g, s6) := get s5 in
  match d1 with
  | O => comment_loop_int f O s6 token1
  | _ => comment_loop_int f d1 s6 (token1 ++ [as_char g])
  end.
Lemma comment_int_S f d s token :
  comment_loop_int (S f) (S d) s token =
  let '(o, s1) := peek s in
  match o with
  | None => perm
  | Some c =>
      if c =?c BSLASH then
        let '(_, s2) := get s1 in
        let '(o2, s3) := peek s2 in
        match o2 with
        | None => perm
        | Some _ => let '(g, s4) := get s3 in step_int f (S d) s4 (token ++ [as_char g])
        end
      else step_int f (S d) s1 token
  end.
Proof.
  cbn [comment_loop_int]. destruct (peek s) as [[c|] s1]; [|reflexivity]. destruct (c =?c BSLASH); [|reflexivity].
  destruct (get s1) as [g s2]. destruct (peek s2) as [[o|] s3]; [|reflexivity]. destruct (get s3). reflexivity.
Qed.
Definition in_int (b : bool) (f d : nat) (s : istream) (token : bytes) : outcome (bytes * istream) :=
  if b then step_int f d s token else comment_loop_int (S f) d s token.
(** The int overflows, or makes no difference. *)
Definition either {A} (P : Prop) (x y : outcome A) : Prop := P /\ x = UB UB_overflow \/ ~ P /\ x = y.
Lemma either_iff {A} P Q (x y : outcome A) : (P <-> Q) -> either P x y -> either Q x y.
Proof. unfold either. tauto. Qed.
Lemma either_bind {A B} P (x y : outcome A) (g : A -> outcome B) : either P x y -> either P (obind x g) (obind y g).
Proof. intros [[p ->]|[n ->]]; [left|right]; auto. Qed.
Ltac deeps D := inversion D; subst; try assumption; try lia; try discriminate; try congruence;
  try match goal with X : false = false -> _ |- _ => exfalso; apply X; reflexivity end;
  try match goal with X : ?a <> ?b |- _ => exfalso; apply X; reflexivity end.
Lemma not_deep_nil b d : ~ deep b d [].
Proof. intros D. inversion D. Qed.
Lemma loop_end f d s p token : St s p [] -> comment_loop_int f (S d) s token = comment_loop f (S d) s token.
Proof. intros H. destruct f as [|f]; [reflexivity|]. rewrite comment_int_S, comment_loop_S. peek_at H. reflexivity. Qed.
Lemma comment_either f : forall b d s p r token, St s p r -> length r <= f -> either (deep b (S d) r) (in_int b f (S d) s token) (in_comment b f (S d) s token).
Proof.
  induction f as [|f IH]; intros b d s p r token H L.
  { destruct r; [|cbn in L; lia]. right. split; [apply not_deep_nil|]. destruct b; cbn [in_int in_comment].
    - unfold step_int, comment_step. peek_at H. cbn [obind]. get_at H0. exact (loop_end _ _ _ _ _ H1).
    - rewrite comment_int_S, comment_loop_S. peek_at H. reflexivity. }
  assert (STEP : forall b d s p r token, St s p r -> length r <= S f -> (b = false -> first_ok (fun c => c <> BS) r) -> either (deep b (S d) r) (step_int (S f) (S d) s token) (comment_step (S f) (S d) s token)).
  { clear b d s p r token H L. intros b d s p r token H L NB. unfold step_int, comment_step. destruct r as [|c r]; peek_at H.
    { right. split; [apply not_deep_nil|]. cbn [obind]. get_at H0. exact (loop_end _ _ _ _ _ H1). }
    cbn [length] in L. assert (NB' : b = false -> c <> BS) by exact NB.
    destruct (c =?c LPAREN) eqn:C1.
    { apply ceqb_eq in C1. subst c. unfold deeper. destruct (Z.ltb_spec (Z.of_nat (S d)) 2147483647) as [Q|Q]; cbn [obind].
      - get_at H. eapply either_iff; [|exact (IH false (S d) s0 _ r (token ++ [LPAREN]) H0 ltac:(lia))].
        split; [apply dp_open|]. intros D. deeps D.
      - left. split; [apply dp_here; lia|reflexivity]. }
    destruct (c =?c RPAREN) eqn:C2; cbn [obind].
    { apply ceqb_eq in C2. subst c. get_at H. cbn [pred]. destruct d as [|d].
      - right. split; [|reflexivity]. intros D. deeps D.
      - eapply either_iff; [|exact (IH false d s0 _ r (token ++ [RPAREN]) H0 ltac:(lia))].
        split; [apply dp_close|]. intros D. deeps D. }
    apply ceqb_neq in C1, C2. get_at H. eapply either_iff; [|exact (IH false d s0 _ r (token ++ [c]) H0 ltac:(lia))].
    split; [apply dp_byte; assumption|]. intros D. deeps D. }
  destruct b; cbn [in_int in_comment]; [apply (STEP true d s p r token H L); discriminate|].
  rewrite comment_int_S, comment_loop_S. destruct r as [|c r]; peek_at H; [right; split; [apply not_deep_nil|reflexivity]|]. cbn [length] in L.
  destruct (c =?c BSLASH) eqn:B.
  - apply ceqb_eq in B. subst c. get_at H. destruct r as [|c2 r]; peek_at H0.
    { right. split; [|reflexivity]. intros D. deeps D. }
    get_at H0. eapply either_iff; [|apply (STEP true d _ _ r (token ++ [c2]) H1); [cbn [length] in L; lia|discriminate]].
    split; [apply dp_escape|]. intros D. deeps D.
  - apply (STEP false d s p (c :: r) token H); [cbn [length]; lia|]. intros _. cbn. apply ceqb_neq. exact B.
Qed.

(** One token. *)
Lemma word_int cs f : forall s x token, next_tok_int cs f s (x :: token) = next_tok cs f s (x :: token).
Proof.
  induction f as [|f IH]; intros s x token; [reflexivity|]. cbn [next_tok_int next_tok]. destruct (peek s) as [[o|] s0]; [|reflexivity].
  destruct (read_fws s0) as [[w s1]| | |]; try reflexivity. cbn [obind]. destruct w; [|reflexivity]. destruct (peek s1) as [[c|] s2]; [|reflexivity].
  destruct (c =?c DQUOTE); [reflexivity|]. destruct (c =?c LPAREN); [reflexivity|]. destruct (c =?c LANGLE); [reflexivity|]. destruct (c =?c RANGLE); [reflexivity|].
  destruct ((c =?c COMMA) || (c =?c SEMI)); [reflexivity|]. destruct (get s2). apply IH.
Qed.
Definition body_int (cs : bool) (f : nat) (s1 : istream) (token : bytes) : outcome (addr_tok * bytes * istream) :=
  let '(o1, s2) := peek s1 in
  match o1 with
  | None => finish_tok token s2
  | Some c =>
      if c =?c DQUOTE then
        match token with
        | _ :: _ => Ok (TOK_ATOM, token, s2)
        | [] => let '(_, s3) := get s2 in
                let* (t, s4) := quoted_loop cs (fuel_of s3) s3 [] in
                Ok (TOK_QUOTED, t, s4)
        end
      else if c =?c LPAREN then
        match token with
        | _ :: _ => Ok (TOK_ATOM, token, s2)
        | [] => let '(_, s3) := get s2 in
                let* (t, s4) := comment_loop_int (fuel_of s3) 1 s3 [] in
                Ok (TOK_COMMENT, t, s4)
        end
      else if c =?c LANGLE then
        match token with
        | _ :: _ => Ok (TOK_ATOM, token, s2)
        | [] => let '(_, s3) := get s2 in Ok (TOK_TAG_OPEN, [], s3)
        end
      else if c =?c RANGLE then
        match token with
        | _ :: _ => Ok (TOK_ATOM, token, s2)
        | [] => let '(_, s3) := get s2 in Ok (TOK_TAG_CLOSE, [], s3)
        end
      else if (c =?c COMMA) || (c =?c SEMI) then
        match token with
        | _ :: _ => Ok (TOK_ATOM, token, s2)
        | [] => let '(_, s3) := get s2 in Ok (TOK_SEPARATOR, [], s3)
        end
      else let '(g, s3) := get s2 in next_tok_int cs f s3 (token ++ [as_char g])
  end.

Lemma next_int_S cs f s token :
  next_tok_int cs (S f) s token =
  let '(o, s0) := peek s in
  match o with
  | None => finish_tok token s0
  | Some _ =>
      let* (w, s1) := read_fws s0 in
      match w, token with
      | _ :: _, _ :: _ => finish_tok token s1
      | _, _ => body_int cs f s1 token
      end
  end.
Proof. reflexivity. Qed.
Lemma int_start cs f s p r w r1 : St s p r -> gap r w r1 -> exists s' p', next_tok_int cs (S f) s [] = body_int cs f s' [] /\ next_tok cs (S f) s [] = tok_body cs f s' [] /\ St s' p' r1.
Proof.
  intros H GG. rewrite next_int_S, next_tok_S. destruct r as [|c r].
  - apply gap_empty in GG as [-> ->]. peek_at H. exists s, p. split; [|split; auto]; unfold body_int, tok_body; rewrite E; reflexivity.
  - peek_at H. pose proof (read_fws_St _ _ _ H) as R. rewrite (gap_fws _ _ _ GG) in R. destruct R as (s' & R & H'). rewrite R. cbn [obind].
    exists s', (rev w ++ p). destruct w; auto.
Qed.
Lemma body_either cs f s p r : St s p r -> either (exists a, r = LP :: a /\ deep false 1 a) (body_int cs f s []) (tok_body cs f s []).
Proof.
  intros H. unfold body_int, tok_body. destruct r as [|c r]; peek_at H.
  { right. split; [|reflexivity]. intros (a & X & _). discriminate X. }
  assert (SAME : c <> LP -> ~ exists a, c :: r = LP :: a /\ deep false 1 a) by (intros N (a & X & _); congruence).
  destruct (c =?c DQUOTE) eqn:C1.
  { right. split; [|reflexivity]. apply ceqb_eq in C1. apply SAME. subst c. discriminate. }
  destruct (c =?c LPAREN) eqn:C2.
  { apply ceqb_eq in C2. subst c. get_at H. apply either_bind. rewrite (St_fuel _ _ _ H0). eapply either_iff; [|exact (comment_either (length r) false 0 s0 _ r [] H0 ltac:(lia))].
    split; [intros D; exists r; auto|]. intros (a & X & D). injection X as ->. exact D. }
  right. split; [apply ceqb_neq in C2; exact (SAME C2)|].
  destruct (c =?c LANGLE); [reflexivity|]. destruct (c =?c RANGLE); [reflexivity|]. destruct ((c =?c COMMA) || (c =?c SEMI)); [reflexivity|].
  destruct (get s) as [g s2]. cbn [app]. apply word_int.
Qed.
Lemma next_either cs s p r : St s p r -> either (deep_comment r) (NextAddressListToken_int cs s) (NextAddressListToken cs s).
Proof.
  intros H. unfold NextAddressListToken_int, NextAddressListToken. rewrite (St_fuel _ _ _ H).
  destruct (l_fws r) as [[w r1]|] eqn:W.
  - destruct (int_start cs (length r) s p r w r1 H (fws_gap _ _ _ W)) as (s' & p' & E1 & E2 & H'). rewrite E1, E2. eapply either_iff; [|exact (body_either cs _ s' p' r1 H')].
    split; [intros (a & -> & D); exists w, a; split; [apply fws_gap; exact W|exact D]|]. intros (w2 & a & GG & D). apply gap_fws in GG. rewrite W in GG. injection GG as _ ->. eauto.
  - right. split; [intros (w & a & GG & _); apply gap_fws in GG; congruence|].
    rewrite next_int_S, next_tok_S. destruct r as [|c r]; [discriminate W|]. peek_at H. pose proof (read_fws_St _ _ _ H) as R. rewrite W in R. rewrite R. transitivity (@perm (addr_tok * bytes * istream)); reflexivity.
Qed.

(** Texts of less than 2 GiB. *)
Lemma deep_long b d r : deep b d r -> (2147483648 <= Z.of_nat d + Z.of_nat (length r))%Z.
Proof. induction 1; cbn [length] in *; lia. Qed.
Lemma short_comment r : (Z.of_nat (length r) < 2147483648)%Z -> ~ deep_comment r.
Proof. intros L (w & a & GG & D). apply gap_shorter in GG. apply deep_long in D. cbn [length] in GG. lia. Qed.
Lemma next_short cs s p r : St s p r -> (Z.of_nat (length r) < 2147483648)%Z -> NextAddressListToken_int cs s = NextAddressListToken cs s.
Proof. intros H L. destruct (next_either cs s p r H) as [[D _]|[_ E]]; [destruct (short_comment r L D)|exact E]. Qed.
Lemma word_length r a r' : word_rest r a r' -> length a <= length r.
Proof. induction 1; cbn [length]; lia. Qed.
Lemma one_size cs r o r' : one cs r o r' -> length r' <= length r /\ match o with Some (Word _ v) => length v <= length r | _ => True end.
Proof.
  intros O. destruct o as [t|].
  - pose proof (one_shorter _ _ _ _ O) as [L1 L2]. split; [lia|]. destruct t as [[|] v| | | |]; auto; [lia|].
    inversion O; subst; match goal with G : gap _ _ _ |- _ => apply gap_shorter in G; cbn [length] in G end. match goal with W : word_rest _ _ _ |- _ => apply word_length in W end. cbn [length]. lia.
  - inversion O; subst. split; [cbn; lia|exact I].
Qed.
Lemma loop_short cs rec rec' n : (Z.of_nat n < 2147483648)%Z -> (forall v, length v <= n -> rec v = rec' v) -> forall f s p r typ tokens op res, St s p r -> length r <= n ->
  Forall (fun v => length v <= n) tokens -> pal_loop_int cs rec f s typ tokens op res = pal_loop cs rec' f s typ tokens op res.
Proof.
  intros N R. induction f as [|f IH]; intros s p r typ tokens op res H L FT; [reflexivity|]. cbn [pal_loop_int pal_loop].
  rewrite (next_short cs s p r H) by lia. destruct (NextAddressListToken cs s) as [[[ty tk] s']| | |] eqn:NX; cbn [obind]; [|reflexivity|reflexivity|reflexivity].
  assert (TE : typ = TOK_EOF \/ typ <> TOK_EOF) by (destruct typ; auto; right; discriminate). destruct TE as [->|TE]; [reflexivity|].
  destruct (has_char NUL tk) eqn:HN; [reflexivity|]. apply has_char_false in HN.
  destruct (one_back cs s p r ty tk s' H NX HN) as (o & r' & p' & O & EK & SH & H'). destruct (one_size _ _ _ _ O) as [L1 L2].
  assert (AG : forall tks op' res', Forall (fun v => length v <= n) tks -> pal_loop_int cs rec f s' ty tks op' res' = pal_loop cs rec' f s' ty tks op' res').
  { intros. apply (IH s' p' r'); auto. lia. }
  assert (FL : forall op', (if (op' : bool) then perm else match tokens with
      | [] => pal_loop_int cs rec f s' ty [] op' res
      | tok0 :: rest =>
          if (match ty with TOK_SEPARATOR => true | _ => false end) && negb (match typ with TOK_TAG_CLOSE => true | _ => false end) && negb (has_char AT (last tokens []))
          then pal_loop_int cs rec f s' ty [] op' res
          else match typ, rest with
               | TOK_QUOTED, [] => let* addrs := rec tok0 in pal_loop_int cs rec f s' ty [] op' (res ++ addrs)
               | _, _ => pal_loop_int cs rec f s' ty [] op' (res ++ [concat tokens])
               end
      end) = if op' then perm else match tokens with
      | [] => pal_loop cs rec' f s' ty [] op' res
      | tok0 :: rest =>
          if (match ty with TOK_SEPARATOR => true | _ => false end) && negb (match typ with TOK_TAG_CLOSE => true | _ => false end) && negb (has_char AT (last tokens []))
          then pal_loop cs rec' f s' ty [] op' res
          else match typ, rest with
               | TOK_QUOTED, [] => let* addrs := rec' tok0 in pal_loop cs rec' f s' ty [] op' (res ++ addrs)
               | _, _ => pal_loop cs rec' f s' ty [] op' (res ++ [concat tokens])
               end
      end).
  { intros [|]; [reflexivity|]. destruct tokens as [|t0 rest]; [apply AG; constructor|]. inversion FT as [|? ? F1 F2]; subst. destruct (_ && _); [apply AG; constructor|].
    destruct typ; try (apply AG; constructor). destruct rest; [|apply AG; constructor]. rewrite (R t0 F1). destruct (rec' t0) as [l| | |]; cbn [obind]; [|reflexivity|reflexivity|reflexivity]. apply AG. constructor. }
  assert (MORE : ty = TOK_QUOTED \/ ty = TOK_ATOM -> Forall (fun v => length v <= n) (tokens ++ [tk])).
  { intros T. apply Forall_app. split; [exact FT|]. constructor; [|constructor]. destruct o as [[q v| | | |]|]; cbn in EK; try (destruct T; congruence). cbn in SH. subst tk. lia. }
  assert (G : forall x y : outcome (list bytes), x = y -> match typ with TOK_EOF => Ok res | _ => x end = match typ with TOK_EOF => Ok res | _ => y end) by (intros x y ->; reflexivity).
  apply G. clear G. destruct ty; [apply AG, MORE; auto|apply AG, MORE; auto|apply AG, FT|apply AG; constructor|apply (FL false)|apply (FL op)|apply (FL op)].
Qed.
Lemma pal_short cs d n : (Z.of_nat n < 2147483648)%Z -> forall t, length t <= n -> pal_int cs d t = pal cs d t.
Proof.
  intros N. induction d as [|d IH]; intros t L; [reflexivity|]. cbn [pal_int pal].
  apply (loop_short cs _ _ n N IH _ _ [] t); [apply St_open|exact L|constructor].
Qed.
Lemma short_same cs t : (Z.of_nat (length t) < 2147483648)%Z -> ParseAddressList_int cs t = ParseAddressList cs t.
Proof. intros L. apply (pal_short cs _ (length t) L). lia. Qed.

(** 2^31 parentheses. *)
Lemma parens_deep n : forall d r, (2147483648 <= Z.of_nat n + Z.of_nat d)%Z -> n <> 0 -> deep false d (repeat LP n ++ r).
Proof.
  induction n as [|n IH]; intros d r L N; [congruence|]. cbn [repeat app]. destruct (Z.leb_spec 2147483647 (Z.of_nat d)) as [G|G]; [apply dp_here; exact G|].
  apply dp_open. apply IH; lia.
Qed.
Lemma parens_overflow cs n : (2147483648 <= Z.of_nat n)%Z -> ParseAddressList_int cs (repeat LP n) = UB UB_overflow.
Proof.
  intros L. unfold ParseAddressList_int. cbn [pal_int pal_loop_int].
  destruct (next_either cs (open_str (repeat LP n)) [] (repeat LP n) (St_open _)) as [[_ E]|[N _]]; [rewrite E; reflexivity|].
  exfalso. apply N. destruct n as [|n]; [lia|]. exists [], (repeat LP n). split; [apply gap_none; cbn; split; [intros [X|X]; discriminate X|discriminate]|].
  rewrite <- (app_nil_r (repeat LP n)). apply parens_deep; [lia|]. intros ->. cbn in L. lia.
Qed.
