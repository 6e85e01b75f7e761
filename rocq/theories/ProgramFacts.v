(** Runs of the program: proofs (for C102). *)
From Verif Require Import Bytes Outcome Stream TagList MailParser Canonicalization Util CStdlib Crypto Signature PublicKey
  SignatoryOptions Signatory Validatory Tool Reasons SignReasons Program SpecText SpecSig SpecTags SpecTool SpecSignTool SpecVerdict SpecProgram
  BytesFacts SigFacts ToolArgs ToolNumbers VerdictCore VerdictRun StopTool.
From Verif Require Import Outcome.
Local Open Scope string_scope. Local Open Scope list_scope.

(** ** Stopping *)
Definition halt_end (x : halt) : ending := match x with Helps => Exit 0 | Lacks => Undefined UB_null | Wrong => Exit 2 end.
Lemma take_usual ss : Forall usual ss -> forall a, exists a1, take_options (map event ss) a = inl a1.
Proof.
  induction 1 as [|s ss US U IH]; intros a; [eexists; reflexivity|]. destruct US as [U1 U2]. cbn [map take_options].
  destruct s; try congruence; apply IH.
Qed.
Lemma flag_help c s : short_flag c s -> ~ usual s -> c = chr 104.
Proof. intros F NU. destruct F; auto; destruct NU; split; discriminate. Qed.
Lemma letters_take r chars x : letters_halt r chars x -> exists es u, short_events chars (hd_error r) = (es, u) /\ forall a es', take_options (es ++ es') a = inr (halt_end x).
Proof.
  induction 1 as [c s chars x F U L IH|chars|c chars NF NV|c mk V ->]; cbn [short_events].
  - destruct IH as (es & u & SE & T). apply flag_letter in F as (-> & E & _). rewrite SE. do 2 eexists. split; [reflexivity|]. intros a es'. cbn [app]. rewrite <- E.
    destruct (take_usual [s] ltac:(repeat constructor; apply U) a) as (a1 & T1). cbn [map take_options] in *. destruct (take_option (event s) a) as [a2|z]; [apply T|discriminate].
  - change (shortopt (chr 104)) with (Some false). cbv iota. destruct (short_events chars (hd_error r)) as [l u]. do 2 eexists. split; [reflexivity|]. intros a es'. reflexivity.
  - destruct (shortopt c) as [[|]|] eqn:SO.
    + apply shortopt_value in SO as (mk & V & _). destruct (NV _ V).
    + apply shortopt_flag in SO as (s & F & _). destruct (NF _ F).
    + destruct (short_events chars (hd_error r)) as [l u]. do 2 eexists. split; [reflexivity|]. intros a es'. reflexivity.
  - apply value_letter in V as (-> & _). cbn [hd_error]. do 2 eexists. split; [reflexivity|]. intros a es'. reflexivity.
Qed.
Lemma long_take r n x : long_halt r n x -> forall a, exists e u, long_event n (hd_error r) = (e, u) /\ take_option e a = inr (halt_end x).
Proof.
  intros [W|W|NF NI NN] a.
  - do 2 eexists. split; [apply (long_flag_event n (str "help") Help _ lf_help W)|reflexivity].
  - do 2 eexists. split; [apply (long_flag_event n (str "arcinstance") NoInstance _ lf_instance W)|reflexivity].
  - destruct (long_event n (hd_error r)) as [e u] eqn:LE. exists e, u. split; auto.
    assert (X : e = Bad).
    { destruct e as [c arg|]; auto. exfalso.
      destruct (event_long _ _ _ _ LE ltac:(discriminate)) as [(_ & full & s & L & W & _)|[(_ & m & full & mk & v & E & L & W & _)|(_ & full & mk & v & N & L & W & _)]].
      - exact (NF _ _ L W).
      - exact (NI _ _ _ _ L W E).
      - rewrite (NN _ _ L W) in N. discriminate. }
    subst e. reflexivity.
Qed.
Lemma item_getopt ws ss fl r es files : item ws ss fl -> getopt r = (es, files) -> getopt (ws ++ r) = (map event ss ++ es, fl ++ files).
Proof.
  intros I G. destruct I as [w W|chars ss N CU|chars ss mk v CU|n full s L W|n full mk v L W|n full mk v L W]; cbn [app map].
  - rewrite getopt_operand by auto. rewrite G. reflexivity.
  - pose proof (cluster_starts _ _ _ CU) as CS. destruct chars as [|c text]; [congruence|]. rewrite getopt_short by auto.
    rewrite (cluster_events _ _ _ CU), G. reflexivity.
  - pose proof (cluster_starts _ _ _ CU) as CS. destruct chars as [|c text]; [destruct CS; discriminate|]. rewrite getopt_short by auto.
    rewrite (cluster_events _ _ _ CU). cbn [hd_error]. rewrite G, map_app. reflexivity.
  - assert (LN : long_name full) by (left; eauto). destruct (written_plain _ _ LN W) as [N _]. rewrite getopt_long by auto.
    rewrite (long_flag_event _ _ _ _ L W), G. reflexivity.
  - rewrite getopt_long by (destruct n; discriminate). rewrite (long_is_event _ _ _ _ _ L W), G. reflexivity.
  - assert (LN : long_name full) by (right; eauto). destruct (written_plain _ _ LN W) as [N _]. rewrite getopt_long by auto. cbn [hd_error].
    rewrite (long_next_event _ _ _ _ L W), G. reflexivity.
Qed.
Lemma halts_take args x : halts args x -> forall a, take_options (fst (getopt args)) a = inr (halt_end x).
Proof.
  induction 1 as [c chars r x N L|n r x N L|ws ss fl r x I U H IH]; intros a.
  - rewrite getopt_short by auto. destruct (letters_take _ _ _ L) as (es & u & -> & T). destruct (if u then _ else _) as [es' files]. apply T.
  - rewrite getopt_long by auto. destruct (long_take _ _ _ L a) as (e & u & -> & T). destruct (if u then _ else _) as [es' files]. cbn [fst take_options]. rewrite T. reflexivity.
  - destruct (getopt r) as [es files] eqn:G. rewrite (item_getopt _ _ _ _ _ _ I G). cbn [fst]. rewrite take_app. destruct (take_usual ss U a) as (a1 & ->). apply IH.
Qed.

(** ** Every command line is one or the other *)
Lemma letters_cases r chars : (exists ss, cluster chars ss None /\ Forall usual ss) \/ (exists ss mk, cluster chars ss (Some mk) /\ Forall usual ss /\ r <> []) \/ exists x, letters_halt r chars x.
Proof.
  induction chars as [|c chars IH]; [left; exists []; split; constructor|].
  destruct (shortopt c) as [[|]|] eqn:SO.
  - apply shortopt_value in SO as (mk & V & _). destruct chars as [|x chars].
    + destruct r as [|v r]; [right; right; exists Wrong; eapply lh_end; eauto|]. right. left. exists [], mk. split; [constructor; auto|]. split; [constructor|discriminate].
    + left. exists [mk (x :: chars)]. split; [constructor; [auto|discriminate]|]. repeat constructor; destruct V; discriminate.
  - apply shortopt_flag in SO as (s & F & _).
    assert (D : usual s \/ s = Help) by (destruct F; [left; split; discriminate|right; reflexivity|left; split; discriminate]).
    destruct D as [U| ->]; [|inversion F; subst; right; right; exists Helps; apply lh_help].
    destruct IH as [(ss & CU & US)|[(ss & mk & CU & US & N)|(x & L)]].
    + left. exists (s :: ss). split; constructor; auto.
    + right. left. exists (s :: ss), mk. split; [constructor; auto|]. split; [constructor; auto|auto].
    + right. right. exists x. eapply lh_flag; eauto.
  - right. right. exists Wrong. apply lh_unknown.
    + intros s F. apply flag_letter in F as [E _]. congruence.
    + intros mk V. apply value_letter in V as [E _]. congruence.
Qed.
Lemma long_cases r n : n <> [] ->
  (exists full s, long_flag full s /\ usual s /\ written n full) \/ (exists m full mk v, n = m ++ EQUALS :: v /\ long_value full mk /\ written m full) \/
  (exists full mk, long_value full mk /\ written n full /\ r <> []) \/ exists x, long_halt r n x.
Proof.
  intros N. destruct (long_event n (hd_error r)) as [e u] eqn:LE. destruct e as [c arg|].
  - destruct (event_long _ _ _ _ LE ltac:(discriminate)) as [(_ & full & s & L & W & _)|[(_ & m & full & mk & v & E & L & W & _)|(_ & full & mk & v & H & L & W & _)]].
    + destruct L; try (left; do 2 eexists; split; [constructor|]; split; [split; discriminate|exact W]); right; right; right; eexists; [apply gh_lacks|apply gh_help]; exact W.
    + right. left. exists m, full, mk, v. auto.
    + right. right. left. exists full, mk. split; auto. split; auto. intros ->. discriminate.
  - right. right. right. exists Wrong. apply gh_wrong.
    + intros full s L W. rewrite (long_flag_event _ _ _ _ L W) in LE. destruct s; discriminate.
    + intros m full mk v L W ->. rewrite (long_is_event _ _ _ _ _ L W) in LE. destruct (value_char _ _ L) as (c & X). rewrite X in LE. discriminate.
    + intros full mk L W. destruct r as [|v r]; auto. cbn [hd_error] in LE. rewrite (long_next_event _ _ _ _ L W) in LE. destruct (value_char _ _ L) as (c & X). rewrite X in LE. discriminate LE.
Qed.
Lemma item_command ws ss fl r ss' files : item ws ss fl -> command_line r ss' files -> command_line (ws ++ r) (ss ++ ss') (fl ++ files).
Proof.
  intros I CL. destruct I as [w W|chars ss N CU|chars ss mk v CU|n full s L W|n full mk v L W|n full mk v L W]; cbn [app].
  - apply cl_operand; auto.
  - apply cl_short; auto.
  - rewrite <- app_assoc. apply cl_short_next; auto.
  - eapply cl_long; eauto.
  - eapply cl_long_is; eauto.
  - eapply cl_long_next; eauto.
Qed.
Lemma value_usual full mk v : long_value full mk -> usual (mk v).
Proof. intros L. destruct L; split; discriminate. Qed.
Lemma short_usual c mk v : short_value c mk -> usual (mk v).
Proof. intros L. destruct L; split; discriminate. Qed.
Lemma cluster_usual chars ss mk v : cluster chars ss (Some mk) -> usual (mk v).
Proof. intros CU. remember (Some mk) as p eqn:P. revert P. induction CU as [|c s chars ss p F CU IH|c m w V N|c m V]; intros P; try discriminate P; [auto|]. injection P as ->. eapply short_usual; eauto. Qed.
Lemma line_cases : forall k args, length args <= k -> (exists ss files, command_line args ss files /\ Forall usual ss) \/ exists x, halts args x.
Proof.
  induction k as [|k IH]; intros args LK; (destruct args as [|w r]; [left; exists [], []; split; constructor|]); cbn [length] in LK; [lia|].
  assert (ST : forall ws ss fl r', ws ++ r' = w :: r -> ws <> [] -> item ws ss fl -> Forall usual ss ->
    (exists ss files, command_line (w :: r) ss files /\ Forall usual ss) \/ exists x, halts (w :: r) x).
  { intros ws ss fl r' E NW I U. rewrite <- E. assert (L : length r' <= k).
    { apply (f_equal (@length _)) in E. rewrite app_length in E. cbn [length] in E. destruct ws; [congruence|]. cbn [length] in E. lia. }
    destruct (IH r' L) as [(ss' & files & CL & U')|(x & H)].
    - left. exists (ss ++ ss'), (fl ++ files). split; [apply item_command; auto|apply Forall_app; auto].
    - right. exists x. eapply ht_later; eauto. }
  assert (OP : w = [DASH] \/ first_ok (fun c => c <> DASH) w -> (exists ss files, command_line (w :: r) ss files /\ Forall usual ss) \/ exists x, halts (w :: r) x).
  { intros W. apply (ST [w] [] [w] r); auto; [discriminate|constructor; auto]. }
  destruct w as [|c [|d text]]; [apply OP; right; exact I| |].
  { destruct (ascii_dec c DASH) as [->|N]; apply OP; [left; auto|right; exact N]. }
  destruct (ascii_dec c DASH) as [->|N]; [|apply OP; right; exact N]. clear OP.
  destruct (ascii_dec d DASH) as [->|ND].
  - destruct text as [|x text]; [left; exists [], r; split; constructor|].
    destruct (long_cases r (x :: text) ltac:(discriminate)) as [(full & s & L & U & W)|[(m & full & mk & v & E & L & W)|[(full & mk & L & W & NR)|(y & H)]]].
    + apply (ST [DASH :: DASH :: x :: text] [s] [] r); auto; [discriminate|eapply it_long; eauto].
    + apply (ST [DASH :: DASH :: x :: text] [mk v] [] r); auto; [discriminate|rewrite E; eapply it_long_is; eauto|repeat constructor; eapply value_usual; eauto].
    + destruct r as [|v r]; [congruence|]. apply (ST [DASH :: DASH :: x :: text; v] [mk v] [] r); auto; [discriminate|eapply it_long_next; eauto|repeat constructor; eapply value_usual; eauto].
    + right. exists y. apply ht_long; auto. discriminate.
  - destruct (letters_cases r (d :: text)) as [(ss & CU & U)|[(ss & mk & CU & U & NR)|(x & L)]].
    + apply (ST [DASH :: d :: text] ss [] r); auto; [discriminate|constructor; [discriminate|auto]].
    + destruct r as [|v r]; [congruence|]. apply (ST [DASH :: d :: text; v] (ss ++ [mk v]) [] r); auto; [discriminate|constructor; auto|].
      apply Forall_app. split; auto. repeat constructor; eapply cluster_usual; eauto.
    + right. exists x. apply ht_short; auto.
Qed.

(** ** The help *)
Lemma format_plain x y args : ~ In (chr 37) x -> format (x ++ y) args = x ++ format y args.
Proof.
  intros N. induction x as [|c x IH]; [reflexivity|]. cbn [app format]. destruct (c =?c chr 37) eqn:E; [apply ceqb_eq in E; subst; destruct N; left; auto|].
  rewrite IH; [reflexivity|]. intros I. apply N. right. auto.
Qed.
Lemma usage_says built name : ~ In (chr 37) built -> usage built name = help_says built name.
Proof.
  intros N. unfold usage, usage_format, help_says, line_end.
  rewrite (format_plain [LF]) by (intros [X|[]]; discriminate X).
  rewrite (format_plain (str " libdkimtest build on ")) by (apply find_char_None; reflexivity). rewrite (format_plain built) by auto.
  rewrite <- !app_assoc. vm_compute. reflexivity.
Qed.

(** ** The program *)
Lemma program_exact C strict clock r fs built argv : ~ In (chr 37) built -> (forall name args ss files, argv = name :: args -> command_line args ss files -> In Validate ss -> small_files fs files) ->
  forall out err z, program C strict clock (fun n => Ok (r n)) fs built argv = (out, err, z) <-> program_run C strict clock r fs built argv out err z.
Proof.
  intros NB SM.
  assert (TOT : exists out err z, program_run C strict clock r fs built argv out err z).
  { destruct argv as [|name args]; [do 3 eexists; apply pr_nothing|].
    destruct (line_cases _ args (le_n _)) as [(ss & files & CL & U)|([| |] & H)];
      [|do 3 eexists; apply pr_help; auto|do 3 eexists; apply pr_lacks; auto|do 3 eexists; apply pr_wrong; auto].
    destruct (settings_exist ss U) as (a & AS & _). pose proof (as_settings _ _ AS) as ST.
    destruct files as [|f files]; [do 3 eexists; eapply pr_few; eauto|].
    destruct (a_validate a) eqn:VA.
    - assert (TY : a_type a <> V_NONE) by (destruct (st_type _ _ ST) as [[_ ->]|[_ ->]]; discriminate).
      apply (st_validate _ _ ST) in VA.
      destruct (verifying_one C strict clock r fs (a_type a) (f :: files) 0 (a_errno a) TY (SM _ _ _ _ eq_refl CL VA)) as (out & z & V & _).
      do 3 eexists. eapply pr_verify; eauto. discriminate.
    - assert (NV : ~ In Validate ss) by (intros I; apply (st_validate _ _ ST) in I; congruence).
      destruct (a_selector a) as [|c1 s1] eqn:E1; [do 3 eexists; eapply pr_few; eauto|].
      destruct (a_domain a) as [|c2 s2] eqn:E2; [do 3 eexists; eapply pr_few; eauto|].
      destruct (a_keyfile a) as [|c3 s3] eqn:E3; [do 3 eexists; eapply pr_few; eauto 6|].
      destruct (tool_sign C strict clock a (fs (a_keyfile a)) (fs f)) as [out z] eqn:TS.
      do 3 eexists. eapply pr_sign; eauto; try congruence. apply StopTool.run_exact. split; [exact TS|reflexivity]. }
  assert (SND : forall out err z, program_run C strict clock r fs built argv out err z -> program C strict clock (fun n => Ok (r n)) fs built argv = (out, err, z)).
  { intros out err z R. destruct R as [|name|name args H|name args H|name args H|name args ss files a CL U AS FEW|name args ss files a out z CL U AS NF IV V|name args ss f files a out err z CL U AS NV N1 N2 N3 S].
    - reflexivity.
    - cbn [program]. rewrite usage_says by auto. reflexivity.
    - unfold program. pose proof (halts_take _ _ H new_args) as T. destruct args as [|w args]; [discriminate T|].
      destruct (getopt (w :: args)) as [es files]. cbn [fst] in T. rewrite T. cbn [halt_end]. rewrite usage_says by auto. reflexivity.
    - unfold program. pose proof (halts_take _ _ H new_args) as T. destruct args as [|w args]; [discriminate T|].
      destruct (getopt (w :: args)) as [es files]. cbn [fst] in T. rewrite T. reflexivity.
    - unfold program. pose proof (halts_take _ _ H new_args) as T. destruct args as [|w args]; [discriminate T|].
      destruct (getopt (w :: args)) as [es files]. cbn [fst] in T. rewrite T. cbn [halt_end]. rewrite usage_says by auto. reflexivity.
    - unfold program. rewrite <- (usage_says built name) by auto. destruct args as [|w args]; [reflexivity|].
      rewrite (command_getopt _ _ _ CL). destruct (take_all ss U) as (a' & TK & AS'). pose proof (settings_one _ _ _ AS AS'). subst a'. rewrite TK.
      destruct files as [|f files]; [reflexivity|]. destruct FEW as [X|[NV FEW]]; [discriminate X|]. pose proof (as_settings _ _ AS) as ST.
      destruct (a_validate a) eqn:VA; [destruct NV; apply (st_validate _ _ ST); auto|].
      assert (X : (match a_selector a with [] => true | _ => false end) || (match a_domain a with [] => true | _ => false end) || (match a_keyfile a with [] => true | _ => false end) = true).
      { destruct FEW as [->|[->| ->]]; [reflexivity| |]; rewrite ?orb_true_r; reflexivity. }
      cbv zeta. rewrite X. reflexivity.
    - unfold program. destruct args as [|w args]; [inversion CL; subst; destruct IV|].
      rewrite (command_getopt _ _ _ CL). destruct (take_all ss U) as (a' & TK & AS'). pose proof (settings_one _ _ _ AS AS'). subst a'. rewrite TK.
      destruct files as [|f files]; [congruence|]. pose proof (as_settings _ _ AS) as ST. rewrite (proj2 (st_validate _ _ ST) IV).
      assert (TY : a_type a <> V_NONE) by (destruct (st_type _ _ ST) as [[_ ->]|[_ ->]]; discriminate).
      apply (files_exact C strict clock r fs (a_type a) (f :: files) TY (SM _ _ _ _ eq_refl CL IV) 0 (a_errno a) out z) in V as [V1 V2].
      rewrite V1, V2. reflexivity.
    - unfold program. destruct args as [|w args]; [inversion CL|].
      rewrite (command_getopt _ _ _ CL). destruct (take_all ss U) as (a' & TK & AS'). pose proof (settings_one _ _ _ AS AS'). subst a'. rewrite TK.
      pose proof (as_settings _ _ AS) as ST. destruct (a_validate a) eqn:VA; [destruct NV; apply (st_validate _ _ ST); auto|].
      assert (X : (match a_selector a with [] => true | _ => false end) || (match a_domain a with [] => true | _ => false end) || (match a_keyfile a with [] => true | _ => false end) = false).
      { destruct (a_selector a); [congruence|]. destruct (a_domain a); [congruence|]. destruct (a_keyfile a); [congruence|]. reflexivity. }
      cbv zeta. rewrite X. apply StopTool.run_exact in S as [-> ->]. reflexivity. }
  intros out err z. split; [|apply SND]. intros E. destruct TOT as (o & e & y & R). rewrite (SND _ _ _ R) in E. injection E as -> -> ->. exact R.
Qed.
Lemma program_one C strict clock r fs built argv : ~ In (chr 37) built -> (forall name args ss files, argv = name :: args -> command_line args ss files -> In Validate ss -> small_files fs files) ->
  exists out err z, program_run C strict clock r fs built argv out err z /\ forall out' err' z', program_run C strict clock r fs built argv out' err' z' -> out' = out /\ err' = err /\ z' = z.
Proof.
  intros NB SM. destruct (program C strict clock (fun n => Ok (r n)) fs built argv) as [[out err] z] eqn:E. exists out, err, z.
  split; [apply program_exact; auto|]. intros out' err' z' R. apply program_exact in R; auto. rewrite E in R. injection R as -> -> ->. auto.
Qed.
(** Every command line is one of the grammar, with usual settings, or has a first reason to stop, and not both. *)
Lemma line_or_halt args : ((exists ss files, command_line args ss files /\ Forall usual ss) /\ forall x, ~ halts args x) \/
  ((forall ss files, command_line args ss files -> ~ Forall usual ss) /\ exists x, halts args x /\ forall y, halts args y -> y = x).
Proof.
  assert (EX : forall ss files, command_line args ss files -> Forall usual ss -> forall x, ~ halts args x).
  { intros ss files CL U x H. pose proof (halts_take _ _ H new_args) as T. rewrite (command_getopt _ _ _ CL) in T. destruct (take_usual ss U new_args) as (a & X). cbn [fst] in T. congruence. }
  destruct (line_cases _ args (le_n _)) as [(ss & files & CL & U)|(x & H)].
  - left. split; eauto.
  - right. split; [intros ss files CL U; exact (EX _ _ CL U _ H)|]. exists x. split; auto. intros y H'.
    pose proof (halts_take _ _ H new_args) as T. pose proof (halts_take _ _ H' new_args) as T'. rewrite T in T'. destruct x, y; auto; discriminate T'.
Qed.
(** The same run as in Tool.v. *)
Lemma take_inr es : forall a x, take_options es a = inr x -> x = Exit 0 \/ x = Exit 2 \/ x = Undefined UB_null.
Proof.
  induction es as [|e es IH]; intros a x; cbn [take_options]; [discriminate|].
  destruct (take_option e a) as [a1|y] eqn:T; [apply IH|]. intros E. injection E as <-. revert T. unfold take_option. destruct e as [c arg|]; [|intros E; injection E as <-; auto].
  repeat match goal with |- context [if ?b then _ else _] => destruct b end; try (destruct arg as [v|]; [try (destruct (strtoul v) as [[? ?] ?])|]); intros E; first [discriminate E|injection E as <-; auto].
Qed.
Lemma program_tool C strict clock resolve fs built name args : forall out err z, program C strict clock resolve fs built (name :: args) = (out, err, z) ->
  snd (tool_main C strict clock resolve fs args) = z /\
  match fst (tool_main C strict clock resolve fs args) with
  | P_nothing => out = []
  | P_usage => out = usage built name
  | P_header t => out = t
  | P_lines _ => out = main_text C strict clock resolve fs args
  end.
Proof.
  intros out err z. unfold program, tool_main, main_text. destruct args as [|w args]; [intros E; injection E as <- <- <-; split; reflexivity|].
  destruct (getopt (w :: args)) as [es files]. destruct (take_options es new_args) as [a|x] eqn:T.
  2: { destruct (take_inr _ _ _ T) as [->|[->| ->]]; intros E; injection E as <- <- <-; split; reflexivity. }
  destruct files as [|f files]; [intros E; injection E as <- <- <-; split; reflexivity|]. destruct (a_validate a).
  - destruct (tool_files C strict clock resolve fs (a_type a) (f :: files) 0 (a_errno a)) as [ls e]. intros E. injection E as <- <- <-. split; reflexivity.
  - cbv zeta. destruct (_ || _); [intros E; injection E as <- <- <-; split; reflexivity|].
    destruct (tool_sign C strict clock a (fs (a_keyfile a)) (fs f)) as [t e]. intros E. injection E as <- <- <-. split; [reflexivity|]. destruct t; reflexivity.
Qed.
(** Exit status and streams. *)
Lemma verifying_ends C strict clock res files ty names n e out z : verifying_run C strict clock res files ty names n e out z -> z = Exit 0 \/ exists u, z = Undefined u.
Proof. induction 1; eauto. Qed.
Lemma program_status C strict clock r fs built argv out err z : program_run C strict clock r fs built argv out err z ->
  z = Exit 0 /\ err = [] \/ (z = Exit 1 \/ z = Exit 2) /\ out = [] /\ (exists x, err = x ++ [LF]) \/ (exists u, z = Undefined u) /\ err = [].
Proof.
  assert (HL : forall d n, exists x, help_says d n = x ++ [LF]).
  { intros d n. unfold help_says. change (line_end []) with ([] ++ [LF]). rewrite !app_assoc. eexists. reflexivity. }
  intros R. destruct R as [|name|name args H|name args H|name args H|name args ss files a CL U AS FEW|name args ss files a out z CL U AS NF IV V|name args ss f files a out err z CL U AS NV N1 N2 N3 S]; eauto 8.
  - apply verifying_ends in V as [->|(u & ->)]; eauto 8.
  - destruct S; eauto 8. right. left. split; auto. split; auto. exists (str "keyfile " ++ x ++ str " could not be open"). rewrite <- !app_assoc. reflexivity.
Qed.
