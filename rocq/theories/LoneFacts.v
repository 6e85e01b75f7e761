(** When header canonicalization is refused: a CR that is not followed by LF, or no colon. *)
From Verif Require Import Bytes Outcome Stream Tokenizer MailParser Canonicalization BytesFacts StreamFacts TokenizerFacts
  SpecText SpecMail SpecCanon SpecOutcome QPFacts ListFacts MailFacts HeaderFacts HeaderProps.

Fixpoint lone (t : bytes) : bool :=
  match t with
  | [] => false
  | c :: r => (if c =?c CR then match r with [] => true | d :: _ => negb (d =?c LF) end else false) || lone r
  end.
Lemma lone_cons c r : lone (c :: r) = (if c =?c CR then match r with [] => true | d :: _ => negb (d =?c LF) end else false) || lone r.
Proof. reflexivity. Qed.
Lemma lone_spec t : lone t = true <-> has_lone_CR t.
Proof.
  induction t as [|c t IH]; [split; [discriminate|intros (a & b & E & L); destruct a; [cbn in E; subst; inversion L|discriminate]]|].
  rewrite lone_cons, orb_true_iff, IH. split.
  - intros [L|(a & b & E & L)]; [|exists (c :: a), b; subst; auto]. exists [], (c :: t). split; auto.
    destruct (c =?c CR) eqn:C; [|discriminate]. apply ceqb_eq in C. subst. destruct t as [|d t]; constructor.
    apply negb_true_iff in L. apply ceqb_neq. exact L.
  - intros (a & b & E & L). destruct a as [|x a].
    + left. cbn in E. subst b. inversion L as [|d r D]; subst; [reflexivity|]. rewrite ceqb_refl, ceqb_false; auto.
    + right. injection E as <- E. exists a, b. auto.
Qed.
Lemma lone_false t : lone t = false <-> ~ has_lone_CR t.
Proof. rewrite <- lone_spec. destruct (lone t); split; congruence. Qed.
Lemma lone_app a b : first_ok (fun c => c <> LF) b -> lone (a ++ b) = lone a || lone b.
Proof.
  intros F. induction a as [|c a IH]; [reflexivity|]. cbn [app]. rewrite !lone_cons, IH, orb_assoc. f_equal. f_equal.
  destruct (c =?c CR); [|reflexivity]. destruct a as [|d a]; cbn [app]; [|reflexivity]. destruct b as [|d b]; [reflexivity|].
  cbn in F. rewrite ceqb_false by auto. reflexivity.
Qed.
Lemma lone_no a : ~ In CR a -> lone a = false.
Proof.
  induction a as [|c a IH]; intros N; [reflexivity|]. rewrite lone_cons, ceqb_false by (intros ->; apply N; left; auto). apply IH. intros K. apply N. right. auto.
Qed.
Lemma lone_skip a b : ~ In CR a -> lone (a ++ b) = lone b.
Proof.
  induction a as [|c a IH]; intros N; [reflexivity|]. cbn [app]. rewrite lone_cons, ceqb_false by (intros ->; apply N; left; auto).
  apply IH. intros K. apply N. right. auto.
Qed.
Lemma lone_crlf b : lone (CRLF ++ b) = lone b.
Proof. reflexivity. Qed.
Lemma lone_lower a b : lone (lower a ++ COLON :: b) = lone (a ++ COLON :: b).
Proof.
  assert (T : forall c d, (d =?c CR) = true \/ (d =?c LF) = true -> (tolower c =?c d) = (c =?c d)).
  { intros c d [D|D]; apply ceqb_eq in D; subst d; apply Bool.eqb_prop; revert c; apply byte_sweep; vm_compute; reflexivity. }
  induction a as [|c a IH]; [reflexivity|]. cbn [lower map app]. fold (lower a). rewrite !lone_cons, IH. f_equal.
  rewrite T by auto. destruct (c =?c CR); [|reflexivity]. destruct a as [|d a]; [reflexivity|]. cbn [lower map app]. rewrite T by auto. reflexivity.
Qed.

(** ** One run of whitespace *)
Lemma lone_wsps w r : forallb is_wsp w = true -> lone (w ++ r) = lone r.
Proof. intros F. apply lone_skip. intros K. rewrite forallb_forall in F. apply F in K. discriminate. Qed.
Lemma l_fws_lone t : match l_fws t with
  | None => lone t = true
  | Some (w, r) => lone t = lone r /\ ~ In COLON w
  end.
Proof.
  unfold l_fws. destruct (span is_wsp t) as [w r] eqn:SP1. pose proof (span_all _ _ _ _ SP1) as FA. apply span_app in SP1. subst t.
  assert (NC : forall w, forallb is_wsp w = true -> ~ In COLON w).
  { intros u F K. rewrite forallb_forall in F. apply F in K. discriminate. }
  destruct r as [|c r]; [rewrite lone_wsps by auto; auto|]. destruct (c =?c CR) eqn:C; [|rewrite lone_wsps by auto; auto].
  destruct r as [|d r]; [rewrite lone_wsps, lone_cons, C by auto; reflexivity|].
  destruct (d =?c LF) eqn:D; [|rewrite lone_wsps, lone_cons, C, D by auto; reflexivity].
  apply ceqb_eq in C, D. subst c d. destruct (span is_wsp r) as [w2 r4] eqn:SP2.
  pose proof (span_all _ _ _ _ SP2) as FA2. apply span_app in SP2. subst r.
  destruct w2 as [|x w2]; [auto|]. rewrite lone_wsps by auto. split.
  - change (lone (CRLF ++ (x :: w2) ++ r4) = lone r4). rewrite lone_crlf. apply lone_wsps. auto.
  - intros K. apply in_app_or in K as [K|K]; [exact (NC _ FA K)|]. destruct K as [K|[K|K]]; [discriminate..|exact (NC _ FA2 K)].
Qed.
Lemma skip_lone f : forall s p r, St s p r -> length r < f ->
  (skip_fws f s = perm /\ lone r = true) \/
  exists s' p' r', skip_fws f s = Ok s' /\ St s' p' r' /\ lone r = lone r' /\ (In COLON r -> In COLON r') /\ length r' <= length r /\ l_fws r' = Some ([], r').
Proof.
  induction f as [|f IH]; intros s p r H L; [lia|]. cbn [skip_fws].
  pose proof (read_fws_St _ _ _ H) as R. pose proof (l_fws_lone r) as LL.
  destruct (l_fws r) as [[w r']|] eqn:E; [|left; rewrite R; auto].
  destruct R as (s' & R & H'). rewrite R. cbn [obind]. pose proof (l_fws_app _ _ _ E) as EA. destruct LL as [LL NC].
  destruct w as [|c w].
  - right. cbn in EA. subst r'. exists s', p, r. auto 8.
  - assert (LR : length r = length (c :: w) + length r') by (rewrite EA; apply app_length). cbn [length] in *.
    destruct (IH _ _ _ H' ltac:(lia)) as [[P Q]|(s2 & p2 & r2 & P & H2 & EQ & K & LE & F)]; [left; split; congruence|right].
    exists s2, p2, r2. split; auto. split; auto. split; [congruence|]. split; [|split; [lia|auto]]. intros I1. apply K. rewrite EA in I1.
    apply in_app_or in I1 as [I1|I1]; [contradiction|auto].
Qed.
Lemma fh_lone f : forall s p t x, St s p t -> length t < f ->
  (fh_loop f s x = perm /\ lone t = true) \/ exists y, fh_loop f s x = Ok (x ++ y) /\ lone t = false /\ (In COLON t -> In COLON y).
Proof.
  induction f as [|f IH]; intros s p t x H L; [lia|]. rewrite fh_step.
  pose proof (read_fws_St _ _ _ H) as R. pose proof (l_fws_lone t) as LL.
  destruct (l_fws t) as [[w r1]|] eqn:LF1; [|rewrite R; left; auto].
  destruct R as (s1 & R & H1). rewrite R. cbn [obind]. pose proof (l_fws_app _ _ _ LF1) as E. destruct LL as [LL NC].
  assert (STEP : forall (fd : bool) s2 p2 r2, St s2 p2 r2 -> length r2 <= length t -> l_fws r2 = Some ([], r2) ->
    let K := (let '(o, s3) := peek s2 in
      match o with
      | None => Ok x
      | Some _ => let '(g, s4) := get s3 in fh_loop f s4 (x ++ (if fd then [SP] else []) ++ [as_char g])
      end) in (K = perm /\ lone r2 = true) \/ exists y, K = Ok (x ++ y) /\ lone r2 = false /\ (In COLON r2 -> In COLON y)).
  { intros fd s2 p2 r2 H2 L2 F2. cbv zeta. destruct r2 as [|c r2].
    - peek_at H2. right. exists []. rewrite app_nil_r. auto.
    - peek_at H2. get_at H2. cbn [as_char]. cbn [length] in L2.
      assert (LC : lone (c :: r2) = lone r2).
      { rewrite lone_cons. destruct (c =?c CR) eqn:C; [|reflexivity]. apply ceqb_eq in C. subst c. unfold l_fws in F2. cbn [span] in F2.
        change (is_wsp CR) with false in F2. cbn iota in F2. rewrite ceqb_refl in F2. destruct r2 as [|d r2]; [discriminate|].
        destruct (d =?c LF); [reflexivity|discriminate]. }
      match goal with |- context [fh_loop f ?s0 ?x0] => destruct (IH s0 _ r2 x0 ltac:(eassumption) ltac:(lia)) as [[P Q]|(y & P & Q & K)] end.
      + left. split; congruence.
      + right. exists ((if fd then [SP] else []) ++ c :: y). rewrite P, <- !app_assoc. split; [reflexivity|]. split; [congruence|].
        intros [->|I1]; apply in_or_app; right; [left; auto|right; auto]. }
  destruct w as [|c w]; cbn [obind].
  - cbn in E. subst r1. apply (STEP false s1 _ t H1); auto.
  - destruct (skip_lone (fuel_of s1) s1 _ r1 H1) as [[P Q]|(s2 & p2 & r2 & P & H2 & EQ & K & LE & F2)].
    + rewrite (St_fuel _ _ _ H1). lia.
    + left. rewrite P. split; [reflexivity|congruence].
    + rewrite P. cbn [obind]. rewrite LL, EQ.
      assert (LR : length r2 <= length t) by (subst t; rewrite app_length; lia).
      assert (KK : In COLON t -> In COLON r2) by (intros I1; apply K; subst t; apply in_app_or in I1 as [I1|I1]; [contradiction|auto]).
      destruct (STEP true s2 p2 r2 H2 LR F2) as [A|(y & A & B & D)]; [left; auto|right]. exists y. auto.
Qed.

(** ** The whole function *)
Lemma FilterHeader_exact t : (FilterHeader false RELAXED t = perm /\ (lone t = true \/ ~ In COLON t)) \/
  (exists out, FilterHeader false RELAXED t = Ok out) /\ lone t = false /\ In COLON t.
Proof.
  unfold FilterHeader, lower_str. destruct (find_char COLON t) as [k|] eqn:FC; [|left; apply find_char_None in FC; auto].
  apply find_char_Some in FC as (pre & post & -> & <- & NC). rewrite firstn_app_exact, skipn_app_exact. cbn [andb obind].
  destruct (fh_lone (fuel_of (open_str (lower pre ++ COLON :: post))) _ _ _ [] (St_open (lower pre ++ COLON :: post))) as [[P Q]|(y & P & Q & K)].
  - rewrite (St_fuel _ _ _ (St_open _)). lia.
  - left. rewrite P. rewrite lone_lower in Q. auto.
  - right. rewrite P. cbn [obind app]. rewrite lone_lower in Q. split; [|split; [auto|apply in_or_app; right; left; auto]].
    destruct (find_char COLON y) eqn:FY.
    + destruct find_last_not; [destruct Nat.eqb|]; eauto.
    + apply find_char_None in FY. destruct FY. apply K. apply in_or_app. right. left. auto.
Qed.
Lemma header_exact t : ((exists out, FilterHeader false RELAXED t = Ok out) <-> In COLON t /\ ~ has_lone_CR t) /\
  ((exists out, FilterHeader false RELAXED t = Ok out) \/ FilterHeader false RELAXED t = Throw (PermanentError AR_PERMERROR)).
Proof.
  destruct (FilterHeader_exact t) as [[E X]|(E & L & IC)].
  - rewrite E. split; [|auto]. split; [intros (out & K); discriminate|]. intros [IC NL]. exfalso. apply lone_false in NL. destruct X; [congruence|contradiction].
  - split; [|auto]. split; auto. intros _. split; auto. apply lone_false. auto.
Qed.
