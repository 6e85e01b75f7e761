(** How deep ParseAddressList recurses (for C79). *)
From Verif Require Import Bytes Outcome Stream Tokenizer BytesFacts StreamFacts TokenizerFacts SpecText SpecAddress SpecAddressAll SpecDepth
  QPFacts ListFacts AddressFacts AddressParse AddressClean ListExact ListWide AddressWide.

Lemma marks_app a b : marks (a ++ b) = marks a + marks b.
Proof. induction a as [|c a IH]; cbn [marks app]; [reflexivity|]. rewrite IH. lia. Qed.
Lemma marks_length t : marks t <= length t.
Proof. induction t as [|c t IH]; cbn [marks length]; auto. destruct (ascii_dec c DQ); [lia|]. destruct (ascii_dec c BS); lia. Qed.
Lemma marks_DQ r : marks (DQ :: r) = S (marks r).
Proof. reflexivity. Qed.
Lemma marks_BS r : marks (BS :: r) = S (marks r).
Proof. reflexivity. Qed.
(** A quote or backslash inside of a quoted string was escaped. *)
Lemma quoted_marks cs q v : quoted cs q v -> 2 * marks v <= marks q.
Proof.
  induction 1 as [|c q v D B Y Q IH|c q v Q IH]; auto.
  - cbn [marks]. destruct (ascii_dec c DQ); [contradiction|]. destruct (ascii_dec c BS); [contradiction|]. lia.
  - rewrite marks_BS. cbn [marks]. destruct (ascii_dec c DQ); [lia|]. destruct (ascii_dec c BS); lia.
Qed.
Lemma gap_marks r w r1 : gap r w r1 -> marks r1 <= marks r.
Proof. intros G. rewrite (gap_app _ _ _ G), marks_app. lia. Qed.
Lemma word_marks r a r' : word_rest r a r' -> marks r' <= marks r.
Proof. induction 1 as [|r w r' G N|c r X|c r a r' G X W IH]; cbn [marks]; auto; [apply gap_marks in G; exact G|lia]. Qed.
Lemma one_marks cs r t r' : one cs r (Some t) r' -> match t with Word true v => 2 * marks v + 2 + marks r' <= marks r | _ => marks r' <= marks r end.
Proof.
  intros O. inversion O; subst; match goal with G : gap _ _ _ |- _ => apply gap_marks in G end; rewrite ?marks_DQ, ?marks_app, ?marks_DQ in *; cbn [marks] in *; try lia.
  - match goal with W : word_rest _ _ _ |- _ => apply word_marks in W end. lia.
  - match goal with W : quoted _ _ _ |- _ => apply quoted_marks in W end. lia.
  - rewrite marks_app in *. lia.
Qed.

(** The loop asks only about quoted strings of the text. *)
Lemma loop_depth cs rec1 rec2 n : (forall v, 2 * marks v + 2 <= n -> rec1 v = rec2 v) ->
  forall f s p r typ tokens op res, St s p r -> marks r <= n ->
  (typ = TOK_QUOTED -> forall v, tokens = [v] -> 2 * marks v + 2 <= n) ->
  pal_loop cs rec1 f s typ tokens op res = pal_loop cs rec2 f s typ tokens op res.
Proof.
  intros REC. induction f as [|f IH]; intros s p r typ tokens op res H LN Q; [reflexivity|].
  assert (D : typ = TOK_EOF \/ typ <> TOK_EOF) by (destruct typ; auto; right; discriminate). destruct D as [->|TE]; [reflexivity|].
  destruct (NextAddressListToken cs s) as [[[ty tk] s']| | |] eqn:NX.
  2,3,4: cbn [pal_loop]; rewrite NX; destruct typ; reflexivity.
  assert (NX' : next_tok cs (S (length r)) s [] = Ok (ty, tk, s')). { unfold NextAddressListToken in NX. rewrite (St_fuel _ _ _ H) in NX. exact NX. }
  rewrite !(pal_loop_tok cs _ f s p r typ tokens op res ty tk s' H TE NX'). unfold pal_next.
  destruct (has_char NUL tk) eqn:NU; [reflexivity|].
  assert (N0 : ~ In NUL0 tk). { intros X. apply has_char_in in X. change NUL0 with NUL in X. congruence. }
  destruct (one_back cs s p r ty tk s' H NX N0) as (o & r' & p' & O & -> & SH & H').
  assert (M : marks r' <= n). { destruct o as [t|]; [|inversion O; subst; cbn; lia]. apply one_marks in O. destruct t as [[|] v| | | |]; lia. }
  assert (GO : forall ty' toks op' res', (ty' = TOK_QUOTED -> forall v, toks = [v] -> 2 * marks v + 2 <= n) ->
    pal_loop cs rec1 f s' ty' toks op' res' = pal_loop cs rec2 f s' ty' toks op' res') by (intros; eapply IH; eauto).
  assert (FL : forall ty' op', ty' <> TOK_QUOTED ->
    (if (op' : bool) then perm
     else match tokens with
      | [] => pal_loop cs rec1 f s' ty' [] op' res
      | tok0 :: rest =>
          if (match ty' with TOK_SEPARATOR => true | _ => false end)
             && negb (match typ with TOK_TAG_CLOSE => true | _ => false end)
             && negb (has_char AT (last tokens []))
          then pal_loop cs rec1 f s' ty' [] op' res
          else
            match typ, rest with
            | TOK_QUOTED, [] => let* addrs := rec1 tok0 in pal_loop cs rec1 f s' ty' [] op' (res ++ addrs)
            | _, _ => pal_loop cs rec1 f s' ty' [] op' (res ++ [concat tokens])
            end
      end) =
    (if op' then perm
     else match tokens with
      | [] => pal_loop cs rec2 f s' ty' [] op' res
      | tok0 :: rest =>
          if (match ty' with TOK_SEPARATOR => true | _ => false end)
             && negb (match typ with TOK_TAG_CLOSE => true | _ => false end)
             && negb (has_char AT (last tokens []))
          then pal_loop cs rec2 f s' ty' [] op' res
          else
            match typ, rest with
            | TOK_QUOTED, [] => let* addrs := rec2 tok0 in pal_loop cs rec2 f s' ty' [] op' (res ++ addrs)
            | _, _ => pal_loop cs rec2 f s' ty' [] op' (res ++ [concat tokens])
            end
      end)).
  { intros ty' op' NQ. destruct op'; [reflexivity|]. destruct tokens as [|tok0 rest]; [apply GO; congruence|].
    destruct (_ && _ && _); [apply GO; congruence|]. destruct typ; try (apply GO; congruence). destruct rest; [|apply GO; congruence].
    rewrite (REC tok0) by (apply Q; auto). destruct (rec2 tok0); cbn [obind]; auto. apply GO. congruence. }
  destruct o as [[[|] v| | | |]|]; cbn [kind].
  - cbn [shows] in SH. subst tk. apply GO. intros _ v' E. destruct tokens as [|t0 [|? ?]]; try discriminate E. injection E as <-. apply one_marks in O. lia.
  - apply GO. discriminate.
  - apply GO. discriminate.
  - apply GO. discriminate.
  - exact (FL TOK_TAG_CLOSE false ltac:(discriminate)).
  - exact (FL TOK_SEPARATOR op ltac:(discriminate)).
  - exact (FL TOK_EOF op ltac:(discriminate)).
Qed.
Lemma pal_depth cs : forall d d' t, marks t + 2 < 2 ^ S d -> d <= d' -> pal cs d t = pal cs d' t.
Proof.
  induction d as [|d IH]; intros d' t M L; [cbn in M; lia|]. destruct d' as [|d']; [lia|]. cbn [pal].
  apply (loop_depth cs _ _ (marks t)) with (p := []) (r := t); auto.
  - intros v K. apply IH; [|lia]. rewrite (Nat.pow_succ_r 2 (S d)) in M by lia. lia.
  - apply St_open.
  - discriminate.
Qed.
Lemma pow_above n : n < 2 ^ n.
Proof. apply Nat.pow_gt_lin_r. lia. Qed.
Lemma ParseAddressList_depth cs d t : marks t + 2 < 2 ^ S d -> pal cs d t = ParseAddressList cs t.
Proof.
  intros M. unfold ParseAddressList. destruct (Nat.le_gt_cases d (S (length t))) as [L|L]; [apply pal_depth; auto|].
  symmetry. apply pal_depth; [|lia]. pose proof (marks_length t). pose proof (pow_above (S (S (length t)))). pose proof (pow_above (length t)). rewrite !Nat.pow_succ_r in * by lia.  lia.
Qed.

(** ** Nested quoted strings *)
Lemma escaped_quoted cs v : ~ In (chr 255) v -> quoted cs (escaped v) v.
Proof.
  induction v as [|c v IH]; intros N; cbn [escaped]; [constructor|].
  assert (Q : quoted cs (escaped v) v). { apply IH. intros X. apply N. right. exact X. }
  destruct (ascii_dec c DQ); [constructor; auto|]. destruct (ascii_dec c BS); [constructor; auto|]. cbn [app]. constructor; auto.
  intros _ ->. apply N. left. reflexivity.
Qed.
Lemma escaped_in x v : In x (escaped v) -> In x v \/ x = BS.
Proof.
  induction v as [|c v IH]; cbn [escaped]; [intros []|]. intros I. apply in_app_or in I as [I|I]; [|destruct (IH I); cbn; auto].
  destruct (ascii_dec c DQ); [|destruct (ascii_dec c BS)]; cbn in I; cbn [In]; intuition auto.
Qed.
Lemma nested_in x n : In x (nested n) -> In x (str "a@b") \/ x = BS \/ x = DQ.
Proof.
  induction n as [|n IH]; cbn [nested]; auto. intros [<-|I]; auto. apply in_app_or in I as [I|[<-|[]]]; auto. apply escaped_in in I as [I| ->]; auto.
Qed.
Lemma as_quoted_pal cs d t : ~ In (chr 255) t -> ~ In NUL0 t -> pal cs (S d) (as_quoted t) = pal cs d t.
Proof.
  intros N NU. cbn [pal]. set (q := as_quoted t).
  assert (O : one cs q (Some (Word true t)) []).
  { apply one_quoted with (w := []) (q := escaped t); auto; [|apply escaped_quoted; auto]. constructor. cbn. split; [intros [X|X]; discriminate X|discriminate]. }
  assert (H : St (open_str q) [] q) by apply St_open. rewrite (St_fuel _ _ _ H).
  destruct (one_run _ _ _ _ O _ _ H) as (tk & s1 & p1 & E1 & N1 & S1 & H1). cbn [shows] in S1. subst tk.
  assert (E1' : next_tok cs (S (length q)) (open_str q) [] = Ok (kind (Some (Word true t)), t, s1)). { unfold NextAddressListToken in E1. rewrite (St_fuel _ _ _ H) in E1. exact E1. }
  rewrite (pal_loop_tok cs _ _ _ _ _ TOK_SEPARATOR [] false [] _ _ _ H ltac:(discriminate) E1').
  unfold pal_next. rewrite (NUL_no t N1). cbn [kind app].
  assert (O2 : one cs [] None []). { apply one_end with (w := []). constructor. exact I. }
  destruct (one_run _ _ _ _ O2 _ _ H1) as (tk & s2 & p2 & E2 & N2 & _ & H2).
  assert (LQ : exists k, length q = S (S k)) by (exists (length (escaped t)); unfold q, as_quoted; cbn [length]; rewrite app_length; cbn; lia). destruct LQ as [k ->].
  assert (E2' : next_tok cs (S (length (@nil ascii))) s1 [] = Ok (TOK_EOF, tk, s2)). { unfold NextAddressListToken in E2. rewrite (St_fuel _ _ _ H1) in E2. exact E2. }
  rewrite (pal_loop_tok cs _ _ _ _ _ TOK_QUOTED [t] false [] _ _ _ H1 ltac:(discriminate) E2'). unfold pal_next. rewrite (NUL_no tk N2). cbn [andb].
  destruct (pal cs d t); reflexivity.
Qed.
Lemma nested_pal cs n d : pal cs (n + d) (nested n) = pal cs d (str "a@b").
Proof.
  induction n as [|n IH]; [reflexivity|]. cbn [nested Nat.add]. rewrite as_quoted_pal; auto;
    intros X; apply nested_in in X as [X|[X|X]]; try discriminate X; cbn in X; intuition discriminate.
Qed.
Lemma nested_deep cs n : pal cs n (nested n) = Diverge /\ pal cs (S n) (nested n) = Ok [str "a@b"].
Proof.
  split; [rewrite <- (Nat.add_0_r n) at 1; apply nested_pal|]. replace (S n) with (n + 1) by lia. rewrite nested_pal. destruct cs; reflexivity.
Qed.
Lemma marks_escaped t : marks (escaped t) = 2 * marks t.
Proof.
  induction t as [|c t IH]; [reflexivity|]. cbn [escaped]. rewrite marks_app, IH. cbn [marks].
  destruct (ascii_dec c DQ) as [->|]; [change (marks [BS; DQ]) with 2; lia|]. destruct (ascii_dec c BS) as [->|]; [change (marks [BS; BS]) with 2; lia|].
  cbn [marks]. destruct (ascii_dec c DQ); [contradiction|]. destruct (ascii_dec c BS); [contradiction|]. lia.
Qed.
Lemma marks_nested n : marks (nested n) + 2 = 2 ^ S n.
Proof.
  induction n as [|n IH]; [reflexivity|]. cbn [nested]. unfold as_quoted. rewrite marks_DQ, marks_app, marks_escaped, marks_DQ. rewrite Nat.pow_succ_r by lia. cbn [marks]. lia.
Qed.
Lemma ParseAddressList_log cs d t : length t + 2 < 2 ^ S d -> pal cs d t = ParseAddressList cs t.
Proof. intros L. apply ParseAddressList_depth. pose proof (marks_length t). lia. Qed.
