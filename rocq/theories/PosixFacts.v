(** The order of options and files, with POSIXLY_CORRECT. *)
From Verif Require Import Bytes Outcome Stream TagList MailParser Canonicalization Util CStdlib Crypto
  Signature PublicKey SignatoryOptions Signatory Validatory Tool Reasons SignReasons BytesFacts Program
  SpecText SpecTool SpecProgram ToolArgs ProgramFacts Posix SpecPosix Outcome.

Lemma program_same : program_with getopt = program. Proof. reflexivity. Qed.
Lemma operand_dec w : operand w \/ exists d text, w = DASH :: d :: text.
Proof.
  destruct w as [|a w]; [left; right; exact I|]. destruct (ascii_dec a DASH) as [->|N].
  - destruct w as [|d text]; [left; left; reflexivity|]. right. eauto.
  - left. right. exact N.
Qed.
Lemma posix_operand w r : operand w -> getopt_posix (w :: r) = ([], w :: r).
Proof.
  intros [->|F]; [reflexivity|]. destruct w as [|c [|d text]]; [reflexivity..|]. cbn in F. cbn [getopt_posix]. apply ceqb_neq in F. rewrite F. reflexivity.
Qed.
Lemma posix_end r : getopt_posix ([DASH; DASH] :: r) = ([], r). Proof. reflexivity. Qed.
Lemma posix_short c text (r : list bytes) : c <> DASH ->
  getopt_posix ((DASH :: c :: text) :: r) =
  let '(es, used) := short_events (c :: text) (hd_error r) in
  let '(es', files) := (if used then match r with _ :: r' => getopt_posix r' | [] => ([], []) end else getopt_posix r) in (es ++ es', files).
Proof.
  intros N. cbn [getopt_posix]. rewrite ceqb_refl. assert (X : beqb (DASH :: c :: text) [DASH; DASH] = false).
  { destruct (beqb _ _) eqn:E; auto. apply beqb_eq in E. injection E as -> _. congruence. }
  rewrite X. apply ceqb_neq in N. rewrite N. reflexivity.
Qed.
Lemma posix_long n (r : list bytes) : n <> [] ->
  getopt_posix ((DASH :: DASH :: n) :: r) =
  let '(e, used) := long_event n (hd_error r) in
  let '(es', files) := (if used then match r with _ :: r' => getopt_posix r' | [] => ([], []) end else getopt_posix r) in (e :: es', files).
Proof.
  intros N. cbn [getopt_posix]. rewrite !ceqb_refl. assert (X : beqb (DASH :: DASH :: n) [DASH; DASH] = false).
  { destruct (beqb _ _) eqn:E; auto. apply beqb_eq in E. injection E as ->. congruence. }
  rewrite X. destruct (long_event n (hd_error r)) as [e u]. reflexivity.
Qed.
Lemma item_posix ws ss r es files : item ws ss [] -> getopt_posix r = (es, files) -> getopt_posix (ws ++ r) = (map event ss ++ es, files).
Proof.
  intros I G. remember [] as fl eqn:Efl in I. destruct I as [w W|chars ss N CU|chars ss mk v CU|n full s L W|n full mk v L W|n full mk v L W]; cbn [app map]; [discriminate Efl|..].
  - pose proof (cluster_starts _ _ _ CU) as CS. destruct chars as [|c text]; [congruence|]. rewrite posix_short by auto.
    rewrite (cluster_events _ _ _ CU), G. reflexivity.
  - pose proof (cluster_starts _ _ _ CU) as CS. destruct chars as [|c text]; [destruct CS; discriminate|]. rewrite posix_short by auto.
    rewrite (cluster_events _ _ _ CU). cbn [hd_error]. rewrite G, map_app. reflexivity.
  - assert (LN : long_name full) by (left; eauto). destruct (written_plain _ _ LN W) as [N _]. rewrite posix_long by auto.
    rewrite (long_flag_event _ _ _ _ L W), G. reflexivity.
  - rewrite posix_long by (destruct n; discriminate). rewrite (long_is_event _ _ _ _ _ L W), G. reflexivity.
  - assert (LN : long_name full) by (right; eauto). destruct (written_plain _ _ LN W) as [N _]. rewrite posix_long by auto. cbn [hd_error].
    rewrite (long_next_event _ _ _ _ L W), G. reflexivity.
Qed.
Lemma options_posix opts ss : options_only opts ss -> forall r es files, getopt_posix r = (es, files) -> getopt_posix (opts ++ r) = (map event ss ++ es, files).
Proof.
  induction 1 as [|ws ss r0 ss' I O IH]; intros r es files G; [exact G|]. rewrite <- app_assoc, map_app, <- app_assoc. apply item_posix; auto.
Qed.
Lemma options_plain opts ss : options_only opts ss -> forall r es files, getopt r = (es, files) -> getopt (opts ++ r) = (map event ss ++ es, files).
Proof.
  induction 1 as [|ws ss r0 ss' I O IH]; intros r es files G; [exact G|]. rewrite <- app_assoc, map_app, <- app_assoc.
  exact (item_getopt _ _ _ _ _ _ I (IH _ _ _ G)).
Qed.
Lemma with_same f g C strict clock res fs d name args args' : args <> [] -> args' <> [] -> f args = g args' ->
  program_with f C strict clock res fs d (name :: args) = program_with g C strict clock res fs d (name :: args').
Proof. intros N N' E. unfold program_with. destruct args as [|a args]; [congruence|]. destruct args' as [|a' args']; [congruence|]. rewrite E. reflexivity. Qed.

Lemma posix_dashes C strict clock res fs d name opts ss f r : options_only opts ss -> operand f ->
  program_posix C strict clock res fs d (name :: opts ++ f :: r) = program C strict clock res fs d (name :: opts ++ [DASH; DASH] :: f :: r).
Proof.
  intros O F. rewrite <- program_same. apply with_same; [destruct opts; discriminate..|].
  rewrite (options_posix _ _ O _ _ _ (posix_operand f r F)). rewrite (options_plain _ _ O ([DASH; DASH] :: f :: r) [] (f :: r)) by reflexivity. reflexivity.
Qed.
Lemma operands_only r : Forall operand r -> getopt r = ([], r).
Proof. induction 1 as [|w r W F IH]; [reflexivity|]. rewrite getopt_operand by exact W. rewrite IH. reflexivity. Qed.
Lemma posix_documented C strict clock res fs d name opts ss files : options_only opts ss -> Forall operand files ->
  program_posix C strict clock res fs d (name :: opts ++ files) = program C strict clock res fs d (name :: opts ++ files).
Proof.
  intros O F. destruct (opts ++ files) as [|w ws] eqn:E; [reflexivity|]. rewrite <- program_same. apply with_same; [discriminate..|]. rewrite <- E. clear E.
  assert (G : getopt_posix files = ([], files)) by (destruct F; [reflexivity|apply posix_operand; auto]).
  rewrite (options_posix _ _ O _ _ _ G). rewrite (options_plain _ _ O _ _ _ (operands_only _ F)). reflexivity.
Qed.

(** ** All command lines *)
Lemma short_next t x y es : short_events t (Some x) = (es, false) -> short_events t (Some y) = (es, false).
Proof.
  revert es. induction t as [|c r IH]; intros es; [exact (fun E => E)|]. cbn [short_events]. destruct (shortopt c) as [[|]|].
  - destruct r; [discriminate|exact (fun E => E)].
  - destruct (short_events r (Some x)) as [l u]. intros E. injection E as <- ->. rewrite (IH l eq_refl). reflexivity.
  - destruct (short_events r (Some x)) as [l u]. intros E. injection E as <- ->. rewrite (IH l eq_refl). reflexivity.
Qed.
Lemma long_next t x y e : long_event t (Some x) = (e, false) -> long_event t (Some y) = (e, false).
Proof.
  unfold long_event. destruct (find_char EQUALS t) as [i|]; cbv beta iota; destruct (find_long _) as [[[|] c]|]; try exact (fun E => E). discriminate.
Qed.
Definition word_events (d : ascii) (text : bytes) (next : option bytes) : list opt_event * bool :=
  if d =?c DASH then let '(e, u) := long_event text next in ([e], u) else short_events (d :: text) next.
Lemma word_next d t x y es : word_events d t (Some x) = (es, false) -> word_events d t (Some y) = (es, false).
Proof.
  unfold word_events. destruct (d =?c DASH); [|apply short_next]. destruct (long_event t (Some x)) as [e u] eqn:E. intros X. injection X as <- ->.
  rewrite (long_next _ _ y _ E). reflexivity.
Qed.
Lemma posix_word d text (r : list bytes) : DASH :: d :: text <> [DASH; DASH] -> getopt_posix ((DASH :: d :: text) :: r) =
  let '(es, used) := word_events d text (hd_error r) in
  let '(es', files) := (if used then match r with _ :: r' => getopt_posix r' | [] => ([], []) end else getopt_posix r) in (es ++ es', files).
Proof.
  intros N. cbn [getopt_posix]. rewrite ceqb_refl. destruct (beqb (DASH :: d :: text) [DASH; DASH]) eqn:B; [apply beqb_eq in B; congruence|]. reflexivity.
Qed.
Lemma plain_word d text (r : list bytes) : DASH :: d :: text <> [DASH; DASH] -> getopt ((DASH :: d :: text) :: r) =
  let '(es, used) := word_events d text (hd_error r) in
  let '(es', files) := (if used then match r with _ :: r' => getopt r' | [] => ([], []) end else getopt r) in (es ++ es', files).
Proof.
  intros N. cbn [getopt]. rewrite ceqb_refl. destruct (beqb (DASH :: d :: text) [DASH; DASH]) eqn:B; [apply beqb_eq in B; congruence|]. reflexivity.
Qed.
Lemma posix_all : forall k args, length args <= k -> getopt_posix args = getopt args \/
  exists pre f r, args = pre ++ f :: r /\ operand f /\ getopt_posix args = getopt (pre ++ [DASH; DASH] :: f :: r).
Proof.
  induction k as [|k IH]; intros args L; (destruct args as [|w r]; [left; reflexivity|]); cbn [length] in L; [lia|].
  destruct (operand_dec w) as [W|(d & text & ->)].
  { right. exists [], w, r. split; [reflexivity|]. split; [exact W|]. rewrite posix_operand by exact W. reflexivity. }
  destruct (list_eq_dec ascii_dec (DASH :: d :: text) [DASH; DASH]) as [E|N]; [left; rewrite E; reflexivity|].
  rewrite posix_word, plain_word by exact N. destruct (word_events d text (hd_error r)) as [es used] eqn:WE. destruct used.
  - destruct r as [|b r]; [left; reflexivity|]. cbn [hd_error] in WE. destruct (IH r) as [E|(pre & f & r' & -> & F & E)]; [cbn [length] in L; lia|left; rewrite E; reflexivity|].
    right. exists ((DASH :: d :: text) :: b :: pre), f, r'. split; [reflexivity|]. split; [exact F|]. cbn [app]. rewrite plain_word by exact N. cbn [hd_error]. rewrite WE, E. reflexivity.
  - destruct (IH r) as [E|(pre & f & r' & -> & F & E)]; [lia|left; rewrite E; reflexivity|].
    right. exists ((DASH :: d :: text) :: pre), f, r'. split; [reflexivity|]. split; [exact F|]. cbn [app]. rewrite plain_word by exact N.
    assert (X : word_events d text (hd_error (pre ++ [DASH; DASH] :: f :: r')) = (es, false)).
    { destruct pre as [|p pre]; cbn [app hd_error] in *; [eapply word_next; exact WE|exact WE]. }
    rewrite X, E. reflexivity.
Qed.
Lemma posix_program C strict clock res fs d argv : program_posix C strict clock res fs d argv = program C strict clock res fs d argv \/
  exists pre f r, argv = pre ++ f :: r /\ pre <> [] /\ operand f /\
    program_posix C strict clock res fs d argv = program C strict clock res fs d (pre ++ [DASH; DASH] :: f :: r).
Proof.
  destruct argv as [|name args]; [left; reflexivity|]. destruct args as [|a args]; [left; reflexivity|]. rewrite <- program_same.
  destruct (posix_all _ (a :: args) (le_n _)) as [E|(pre & f & r & E & F & G)]; [left; apply with_same; [discriminate..|exact E]|].
  right. exists (name :: pre), f, r. rewrite E in *. split; [reflexivity|]. split; [discriminate|]. split; [exact F|]. cbn [app]. apply with_same; [destruct pre; discriminate..|exact G].
Qed.
