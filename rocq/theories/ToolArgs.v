(** The command line of the program. *)
From Verif Require Import Bytes Outcome Stream TagList MailParser Canonicalization Util CStdlib Crypto Signature PublicKey
  SignatoryOptions Signatory Validatory SpecText SpecSig SpecTags Tool SpecTool BytesFacts SigFacts.

Definition event (s : setting) : opt_event :=
  match s with
  | Arc => Opt (chr 97) None
  | Help => Opt (chr 104) None
  | Validate => Opt (chr 118) None
  | NoInstance => Opt (chr 65) None
  | Instance v => Opt (chr 65) (Some v)
  | Selector v => Opt (chr 115) (Some v)
  | Domain v => Opt (chr 100) (Some v)
  | Keyfile v => Opt (chr 107) (Some v)
  | Keyformat v => Opt (chr 75) (Some v)
  end.

(** ** Names *)
Lemma is_prefix_spec p s : is_prefix p s = true <-> exists r, s = p ++ r.
Proof.
  revert s. induction p as [|x p IH]; intros s; cbn [is_prefix app]; [split; eauto|]. destruct s as [|y s].
  - split; [discriminate|]. intros (r & X). discriminate.
  - rewrite andb_true_iff, IH, ceqb_eq. split; [intros (-> & r & ->); eauto|]. intros (r & X). injection X as -> ->. eauto.
Qed.
Lemma longopts_flag n c : In (n, false, c) longopts <-> exists s, long_flag n s /\ event s = Opt c None.
Proof.
  split.
  - cbn [In longopts]. intros [X|[X|[X|[X|[X|[X|[X|[X|[]]]]]]]]]; try discriminate X; injection X as <- <-;
      eexists; (split; [constructor|reflexivity]).
  - intros (s & L & E). destruct L; cbn [event] in E; injection E as <-; cbn [In longopts]; auto 10.
Qed.
Lemma longopts_value n c : In (n, true, c) longopts <-> exists mk, long_value n mk /\ forall v, event (mk v) = Opt c (Some v).
Proof.
  split.
  - cbn [In longopts]. intros [X|[X|[X|[X|[X|[X|[X|[X|[]]]]]]]]]; try discriminate X; injection X as <- <-;
      eexists; (split; [constructor|reflexivity]).
  - intros (s & L & E). specialize (E []). destruct L; cbn [event] in E; injection E as <-; cbn [In longopts]; auto 10.
Qed.
Lemma long_name_In n : long_name n <-> exists a c, In (n, a, c) longopts.
Proof.
  split.
  - intros [(s & L)|(s & L)].
    + assert (X : exists c, event s = Opt c None) by (destruct L; eexists; reflexivity). destruct X as (c & X). exists false, c. apply longopts_flag. eauto.
    + assert (X : exists c, forall v, event (s v) = Opt c (Some v)) by (destruct L; eexists; intros; reflexivity).
      destruct X as (c & X). exists true, c. apply longopts_value. eauto.
  - intros ([|] & c & I); [right; apply longopts_value in I as (mk & L & _)|left; apply longopts_flag in I as (s & L & _)]; eauto.
Qed.
Lemma longopts_once n a c a' c' : In (n, a, c) longopts -> In (n, a', c') longopts -> a = a' /\ c = c'.
Proof.
  assert (K : forallb (fun e => forallb (fun e' => negb (beqb (fst (fst e)) (fst (fst e'))) || (Bool.eqb (snd (fst e)) (snd (fst e')) && (snd e =?c snd e'))) longopts) longopts = true)
    by (vm_compute; reflexivity).
  rewrite forallb_forall in K. intros I I'. apply K in I. rewrite forallb_forall in I. apply I in I'. cbn [fst snd] in I'. rewrite beqb_refl in I'.
  cbn [negb orb] in I'. apply andb_true_iff in I' as [A B]. apply eqb_prop in A. apply ceqb_eq in B. auto.
Qed.
Lemma longopts_nodup : NoDup longopts.
Proof.
  unfold longopts. repeat (constructor; [cbn [In]; intros X; repeat (destruct X as [X|X]; [discriminate X|]); exact X|]). constructor.
Qed.
Lemma filter_one {A} (P : A -> bool) (l : list A) x : NoDup l -> In x l -> P x = true -> (forall y, In y l -> P y = true -> y = x) -> filter P l = [x].
Proof.
  induction 1 as [|a l NI ND IH]; [intros []|]. intros I PX U. cbn [filter]. destruct I as [->|I].
  - rewrite PX. f_equal. destruct (filter P l) as [|y r] eqn:E; [reflexivity|]. exfalso.
    assert (K : In y (filter P l)) by (rewrite E; left; auto). apply filter_In in K as [K1 K2].
    rewrite (U y (or_intror K1) K2) in K1. auto.
  - destruct (P a) eqn:PA; [exfalso; rewrite (U a (or_introl eq_refl) PA) in NI; auto|]. apply IH; auto. intros y Y. apply U. right. auto.
Qed.
Lemma find_long_spec n a c : find_long n = Some (a, c) <-> exists full, In (full, a, c) longopts /\ written n full.
Proof.
  unfold find_long. destruct (find (fun e => beqb (fst (fst e)) n) longopts) as [[[n' a'] c']|] eqn:F.
  - apply find_some in F as [I E]. cbn [fst] in E. apply beqb_eq in E. subst n'. split.
    + intros X. injection X as <- <-. exists n. split; auto. left. auto.
    + intros (full & I2 & W). assert (full = n).
      { destruct W as [->|[_ U]]; auto. symmetry. apply (U n []); [apply long_name_In; eauto|rewrite app_nil_r; auto]. }
      subst full. destruct (longopts_once _ _ _ _ _ I I2) as [-> ->]. reflexivity.
  - assert (NF : forall a c, ~ In (n, a, c) longopts).
    { intros a0 c0 I. apply (find_none _ _ F) in I. cbn [fst] in I. rewrite beqb_refl in I. discriminate. }
    split.
    + destruct (filter _ longopts) as [|[[n1 a1] c1] [|]] eqn:E; try discriminate. intros X. injection X as <- <-. exists n1.
      assert (I1 : In (n1, a1, c1) (filter (fun e => is_prefix n (fst (fst e))) longopts)) by (rewrite E; left; auto).
      apply filter_In in I1 as [I1 P1]. cbn [fst] in P1. apply is_prefix_spec in P1. split; auto. right. split; auto.
      intros other r L EO. apply long_name_In in L as (a2 & c2 & I2).
      assert (I3 : In (other, a2, c2) (filter (fun e => is_prefix n (fst (fst e))) longopts)).
      { apply filter_In. split; auto. cbn [fst]. apply is_prefix_spec. eauto. }
      rewrite E in I3. destruct I3 as [X|[]]. congruence.
    + intros (full & I & W). destruct W as [->|[(r & ->) U]]; [destruct (NF _ _ I)|].
      rewrite (filter_one _ longopts (n ++ r, a, c)); auto using longopts_nodup.
      * cbn [fst]. apply is_prefix_spec. eauto.
      * intros [[n2 a2] c2] I2 P2. cbn [fst] in P2. apply is_prefix_spec in P2 as (r2 & ->).
        assert (E : n ++ r2 = n ++ r) by (apply (U _ r2); [apply long_name_In; eauto|auto]). rewrite E in I2 |- *.
        destruct (longopts_once _ _ _ _ _ I I2) as [-> ->]. reflexivity.
Qed.
Lemma written_plain n full : long_name full -> written n full -> n <> [] /\ ~ In EQUALS n.
Proof.
  intros L W. assert (K : forall x, long_name x -> x <> [] /\ ~ In EQUALS x).
  { intros x LX. apply long_name_In in LX as (a & c & I).
    assert (Z : forallb (fun e => negb (beqb (fst (fst e)) []) && match find_char EQUALS (fst (fst e)) with None => true | _ => false end) longopts = true)
      by (vm_compute; reflexivity).
    rewrite forallb_forall in Z. apply Z in I. cbn [fst] in I. apply andb_true_iff in I as [A B]. split.
    - intros ->. discriminate.
    - apply find_char_None. destruct (find_char EQUALS x); [discriminate|auto]. }
  destruct W as [->|[(r & E) U]]; [auto|]. split.
  - intros ->. cbn [app] in *. assert (A : str "arc" = full) by (apply (U _ (str "arc")); auto; left; eexists; constructor).
    assert (B : str "help" = full) by (apply (U _ (str "help")); auto; left; eexists; constructor). rewrite <- A in B. discriminate B.
  - intros I. apply (K full L). rewrite E. apply in_or_app. auto.
Qed.

(** ** Letters *)
Lemma in_set_In set c : in_set set c = true -> In c set.
Proof.
  unfold in_set. destruct (find_char c set) eqn:E; [intros _|discriminate]. destruct (in_dec ascii_dec c set) as [I|N]; auto.
  apply find_char_None in N. congruence.
Qed.
Lemma shortopt_flag c : shortopt c = Some false <-> exists s, short_flag c s /\ event s = Opt c None.
Proof.
  split.
  - unfold shortopt. destruct (in_set (str "ahv") c) eqn:E; [intros _|destruct (in_set (str "Asdk" ++ str "K") c); intros; discriminate].
    apply in_set_In in E. rename E into I.
    destruct I as [<-|[<-|[<-|[]]]]; eexists; (split; [constructor|reflexivity]).
  - intros (s & L & _). destruct L; reflexivity.
Qed.
Lemma shortopt_value c : shortopt c = Some true <-> exists mk, short_value c mk /\ forall v, event (mk v) = Opt c (Some v).
Proof.
  split.
  - unfold shortopt. destruct (in_set (str "ahv") c); [discriminate|]. destruct (in_set (str "Asdk" ++ str "K") c) eqn:E; [intros _|discriminate].
    apply in_set_In in E. rename E into I.
    destruct I as [<-|[<-|[<-|[<-|[<-|[]]]]]]; eexists; (split; [constructor|reflexivity]).
  - intros (s & L & _). destruct L; reflexivity.
Qed.
Lemma flag_letter c s : short_flag c s -> shortopt c = Some false /\ event s = Opt c None /\ c <> DASH.
Proof. intros L. destruct L; repeat split; discriminate. Qed.
Lemma value_letter c mk : short_value c mk -> shortopt c = Some true /\ (forall v, event (mk v) = Opt c (Some v)) /\ c <> DASH.
Proof. intros L. destruct L; repeat split; discriminate. Qed.
Lemma cluster_events chars ss p : cluster chars ss p -> forall next,
  short_events chars next = match p, next with
                            | None, _ => (map event ss, false)
                            | Some mk, Some v => (map event ss ++ [event (mk v)], true)
                            | Some mk, None => (map event ss ++ [Bad], false)
                            end.
Proof.
  induction 1 as [|c s chars ss p F CL IH|c mk v V N|c mk V]; intros next; cbn [short_events].
  - reflexivity.
  - apply flag_letter in F as (-> & E & _). rewrite IH. cbn [map]. rewrite E. destruct p as [mk|]; [destruct next|]; reflexivity.
  - apply value_letter in V as (-> & E & _). destruct v as [|x v]; [congruence|]. cbn [map]. rewrite E. reflexivity.
  - apply value_letter in V as (-> & E & _). destruct next as [v|]; cbn [map app]; [rewrite E|]; reflexivity.
Qed.
Lemma cluster_starts chars ss p : cluster chars ss p -> match chars with [] => ss = [] /\ p = None | c :: _ => c <> DASH end.
Proof. destruct 1 as [|c s chars ss p F CL|c mk v V N|c mk V]; auto; [apply flag_letter in F|apply value_letter in V|apply value_letter in V]; tauto. Qed.
Lemma events_cluster chars next : forall es u, short_events chars next = (es, u) -> ~ In Bad es ->
  (u = false /\ exists ss, cluster chars ss None /\ es = map event ss) \/
  (u = true /\ exists ss mk v, next = Some v /\ cluster chars ss (Some mk) /\ es = map event ss ++ [event (mk v)]).
Proof.
  induction chars as [|c chars IH]; intros es u; cbn [short_events].
  - intros X _. injection X as <- <-. left. split; auto. exists []. split; [constructor|reflexivity].
  - destruct (shortopt c) as [[|]|] eqn:SO.
    + apply shortopt_value in SO as (mk & V & E). destruct chars as [|x chars].
      * destruct next as [v|]; intros X NB; injection X as <- <-; [|destruct NB; left; auto].
        right. split; auto. exists [], mk, v. split; auto. split; [constructor; auto|]. cbn [map app]. rewrite E. reflexivity.
      * intros X NB. injection X as <- <-. left. split; auto. exists [mk (x :: chars)]. split; [constructor; [auto|discriminate]|].
        cbn [map]. rewrite E. reflexivity.
    + apply shortopt_flag in SO as (s & F & E). destruct (short_events chars next) as [l w] eqn:SE. intros X NB. injection X as <- <-.
      destruct (IH l w eq_refl) as [(-> & ss & CL & ->)|(-> & ss & mk & v & -> & CL & ->)]; [intros I; apply NB; right; auto| |].
      * left. split; auto. exists (s :: ss). split; [constructor; auto|]. cbn [map]. rewrite E. reflexivity.
      * right. split; auto. exists (s :: ss), mk, v. split; auto. split; [constructor; auto|]. cbn [map app]. rewrite E. reflexivity.
    + destruct (short_events chars next) as [l w]. intros X NB. injection X as <- <-. destruct NB. left. auto.
Qed.

(** ** Long options *)
Lemma find_equals n v : ~ In EQUALS n -> find_char EQUALS (n ++ EQUALS :: v) = Some (length n).
Proof. apply find_char_app. Qed.
Lemma long_flag_event n full s next : long_flag full s -> written n full -> long_event n next = (event s, false).
Proof.
  intros L W. assert (LN : long_name full) by (left; eauto). destruct (written_plain _ _ LN W) as [_ NE].
  unfold long_event. apply find_char_None in NE. rewrite NE.
  assert (X : exists c, event s = Opt c None) by (destruct L; eexists; reflexivity). destruct X as (c & X).
  assert (F : find_long n = Some (false, c)) by (apply find_long_spec; exists full; split; auto; apply longopts_flag; eauto). rewrite F, X. reflexivity.
Qed.
Lemma value_char full mk : long_value full mk -> exists c, forall v, event (mk v) = Opt c (Some v).
Proof. intros L. destruct L; eexists; intros; reflexivity. Qed.
Lemma long_is_event n full mk v next : long_value full mk -> written n full -> long_event (n ++ EQUALS :: v) next = (event (mk v), false).
Proof.
  intros L W. assert (LN : long_name full) by (right; eauto). destruct (written_plain _ _ LN W) as [_ NE].
  unfold long_event. rewrite find_equals by auto. rewrite firstn_app_exact.
  replace (skipn (S (length n)) (n ++ EQUALS :: v)) with v.
  2: { replace (n ++ EQUALS :: v) with ((n ++ [EQUALS]) ++ v) by (rewrite <- app_assoc; reflexivity).
       replace (S (length n)) with (length (n ++ [EQUALS])) by (rewrite app_length; cbn; lia). rewrite skipn_app_exact. reflexivity. }
  destruct (value_char full mk L) as (c & X).
  assert (F : find_long n = Some (true, c)) by (apply find_long_spec; exists full; split; auto; apply longopts_value; eauto). rewrite F, X. reflexivity.
Qed.
Lemma long_next_event n full mk v : long_value full mk -> written n full -> long_event n (Some v) = (event (mk v), true).
Proof.
  intros L W. assert (LN : long_name full) by (right; eauto). destruct (written_plain _ _ LN W) as [_ NE].
  unfold long_event. apply find_char_None in NE. rewrite NE. destruct (value_char full mk L) as (c & X).
  assert (F : find_long n = Some (true, c)) by (apply find_long_spec; exists full; split; auto; apply longopts_value; eauto). rewrite F, X. reflexivity.
Qed.
Lemma event_long text next e u : long_event text next = (e, u) -> e <> Bad ->
  (u = false /\ exists full s, long_flag full s /\ written text full /\ e = event s) \/
  (u = false /\ exists n full mk v, text = n ++ EQUALS :: v /\ long_value full mk /\ written n full /\ e = event (mk v)) \/
  (u = true /\ exists full mk v, next = Some v /\ long_value full mk /\ written text full /\ e = event (mk v)).
Proof.
  unfold long_event. intros E NB.
  assert (X : (find_char EQUALS text = None /\ exists name, name = text) \/ exists i, find_char EQUALS text = Some i /\ text = firstn i text ++ EQUALS :: skipn (S i) text).
  { destruct (find_char EQUALS text) as [i|] eqn:F; [right; exists i; split; auto|left; eauto]. apply find_char_Some in F as (a & b & -> & L & _). subst i.
    rewrite firstn_app_exact. f_equal. f_equal. replace (a ++ EQUALS :: b) with ((a ++ [EQUALS]) ++ b) by (rewrite <- app_assoc; reflexivity).
    replace (S (length a)) with (length (a ++ [EQUALS])) by (rewrite app_length; cbn; lia). rewrite skipn_app_exact. reflexivity. }
  destruct X as [[F _]|(i & F & ET)]; rewrite F in E.
  - destruct (find_long text) as [[[|] c]|] eqn:FL; [| |congruence]; apply find_long_spec in FL as (full & I & W).
    + apply longopts_value in I as (mk & L & X). destruct next as [v|]; [|congruence]. injection E as <- <-. right. right. split; auto.
      exists full, mk, v. rewrite X. auto.
    + apply longopts_flag in I as (s & L & X). injection E as <- <-. left. split; auto. exists full, s. rewrite X. auto.
  - set (n := firstn i text) in *. set (v := skipn (S i) text) in *.
    destruct (find_long n) as [[[|] c]|] eqn:FL; [|congruence..]. apply find_long_spec in FL as (full & I & W).
    apply longopts_value in I as (mk & L & X). injection E as <- <-. right. left. split; auto. exists n, full, mk, v. rewrite X. auto.
Qed.

(** ** All words *)
Lemma getopt_short c text (r : list bytes) : c <> DASH ->
  getopt ((DASH :: c :: text) :: r) =
  let '(es, used) := short_events (c :: text) (hd_error r) in
  let '(es', files) := (if used then match r with _ :: r' => getopt r' | [] => ([], []) end else getopt r) in (es ++ es', files).
Proof.
  intros N. cbn [getopt]. rewrite ceqb_refl. assert (X : beqb (DASH :: c :: text) [DASH; DASH] = false).
  { destruct (beqb _ _) eqn:E; auto. apply beqb_eq in E. injection E as -> _. congruence. }
  rewrite X. apply ceqb_neq in N. rewrite N. reflexivity.
Qed.
Lemma getopt_long n (r : list bytes) : n <> [] ->
  getopt ((DASH :: DASH :: n) :: r) =
  let '(e, used) := long_event n (hd_error r) in
  let '(es', files) := (if used then match r with _ :: r' => getopt r' | [] => ([], []) end else getopt r) in (e :: es', files).
Proof.
  intros N. cbn [getopt]. rewrite !ceqb_refl. assert (X : beqb (DASH :: DASH :: n) [DASH; DASH] = false).
  { destruct (beqb _ _) eqn:E; auto. apply beqb_eq in E. injection E as ->. congruence. }
  rewrite X. destruct (long_event n (hd_error r)) as [e u]. reflexivity.
Qed.
Lemma getopt_operand w r : w = [DASH] \/ first_ok (fun c => c <> DASH) w -> getopt (w :: r) = let '(es, files) := getopt r in (es, w :: files).
Proof.
  intros [->|F]; [reflexivity|]. destruct w as [|c [|d text]]; [reflexivity..|]. cbn in F. cbn [getopt]. apply ceqb_neq in F. rewrite F. reflexivity.
Qed.
Lemma command_getopt args ss files : command_line args ss files -> getopt args = (map event ss, files).
Proof.
  induction 1 as [|files|w r ss files W CL IH|chars ss r ss' files N CU CL IH|chars ss mk v r ss' files CU CL IH|n full s r ss files L W CL IH
                 |n full mk v r ss files L W CL IH|n full mk v r ss files L W CL IH].
  - reflexivity.
  - reflexivity.
  - rewrite getopt_operand by auto. rewrite IH. reflexivity.
  - pose proof (cluster_starts _ _ _ CU) as CS. destruct chars as [|c text]; [congruence|]. rewrite getopt_short by auto.
    rewrite (cluster_events _ _ _ CU). rewrite IH, map_app. reflexivity.
  - pose proof (cluster_starts _ _ _ CU) as CS. destruct chars as [|c text]; [destruct CS; discriminate|]. rewrite getopt_short by auto.
    rewrite (cluster_events _ _ _ CU). cbn [hd_error]. rewrite IH, map_app, <- app_assoc. reflexivity.
  - assert (LN : long_name full) by (left; eauto). destruct (written_plain _ _ LN W) as [N _]. rewrite getopt_long by auto.
    rewrite (long_flag_event _ _ _ _ L W), IH. reflexivity.
  - rewrite getopt_long by (destruct n; discriminate). rewrite (long_is_event _ _ _ _ _ L W), IH. reflexivity.
  - assert (LN : long_name full) by (right; eauto). destruct (written_plain _ _ LN W) as [N _]. rewrite getopt_long by auto. cbn [hd_error].
    rewrite (long_next_event _ _ _ _ L W), IH. reflexivity.
Qed.
Lemma getopt_command : forall k args, length args <= k -> forall es files, getopt args = (es, files) -> ~ In Bad es ->
  exists ss, es = map event ss /\ command_line args ss files.
Proof.
  induction k as [|k IH]; intros args LK es files E NB; (destruct args as [|w r]; [injection E as <- <-; exists []; split; [reflexivity|constructor]|]);
    cbn [length] in LK; [lia|].
  assert (OP : w = [DASH] \/ first_ok (fun c => c <> DASH) w -> exists ss, es = map event ss /\ command_line (w :: r) ss files).
  { intros W. rewrite getopt_operand in E by auto. destruct (getopt r) as [es1 f1] eqn:G. injection E as <- <-.
    destruct (IH r ltac:(lia) _ _ G NB) as (ss & -> & CL). exists ss. split; auto. constructor; auto. }
  destruct w as [|c [|d text]]; [apply OP; right; exact I| |].
  { destruct (ascii_dec c DASH) as [->|N]; apply OP; [left; auto|right; exact N]. }
  destruct (ascii_dec c DASH) as [->|N]; [|apply OP; right; exact N]. clear OP.
  destruct (ascii_dec d DASH) as [->|ND].
  - destruct text as [|x text].
    + injection E as <- <-. exists []. split; [reflexivity|constructor].
    + rewrite getopt_long in E by discriminate. set (n := x :: text) in *. destruct (long_event n (hd_error r)) as [e u] eqn:LE.
      assert (G : exists es1 f1, (if u then match r with _ :: r' => getopt r' | [] => ([], []) end else getopt r) = (es1, f1)).
      { destruct (if u then _ else _). eauto. }
      destruct G as (es1 & f1 & G). rewrite G in E. injection E as <- <-.
      destruct (event_long _ _ _ _ LE) as [(-> & full & s & L & W & ->)|[(-> & n0 & full & mk & v & EN & L & W & ->)|(-> & full & mk & v & H & L & W & ->)]].
      * intros ->. apply NB. left. auto.
      * destruct (IH r ltac:(lia) _ _ G) as (ss & -> & CL); [intros I; apply NB; right; auto|]. exists (s :: ss). split; auto. eapply cl_long; eauto.
      * destruct (IH r ltac:(lia) _ _ G) as (ss & -> & CL); [intros I; apply NB; right; auto|]. exists (mk v :: ss). split; auto. rewrite EN. eapply cl_long_is; eauto.
      * destruct r as [|v' r]; [discriminate|]. injection H as ->. cbn [length] in LK.
        destruct (IH r ltac:(lia) _ _ G) as (ss & -> & CL); [intros I; apply NB; right; auto|]. exists (mk v :: ss). split; auto. eapply cl_long_next; eauto.
  - rewrite getopt_short in E by auto. destruct (short_events (d :: text) (hd_error r)) as [es0 u] eqn:SE.
    assert (G : exists es1 f1, (if u then match r with _ :: r' => getopt r' | [] => ([], []) end else getopt r) = (es1, f1)).
    { destruct (if u then _ else _). eauto. }
    destruct G as (es1 & f1 & G). rewrite G in E. injection E as <- <-.
    destruct (events_cluster _ _ _ _ SE) as [(-> & ss0 & CU & ->)|(-> & ss0 & mk & v & H & CU & ->)].
    + intros I. apply NB. apply in_or_app. auto.
    + destruct (IH r ltac:(lia) _ _ G) as (ss & -> & CL); [intros I; apply NB; apply in_or_app; auto|]. exists (ss0 ++ ss). rewrite map_app. split; auto.
      apply cl_short; auto. discriminate.
    + destruct r as [|v' r]; [discriminate|]. injection H as ->. cbn [length] in LK.
      destruct (IH r ltac:(lia) _ _ G) as (ss & -> & CL); [intros I; apply NB; apply in_or_app; auto|]. exists (ss0 ++ mk v :: ss).
      rewrite map_app, <- app_assoc. split; auto. apply cl_short_next; auto.
Qed.

(** ** What the settings do *)
Lemma take_app es1 es2 a : take_options (es1 ++ es2) a = match take_options es1 a with inl a1 => take_options es2 a1 | inr x => inr x end.
Proof. revert a. induction es1 as [|e es IH]; intros a; cbn [take_options app]; [reflexivity|]. destruct (take_option e a); auto. Qed.
Lemma given_snoc {A} (gives : setting -> A -> Prop) d l x s y : given gives d l x ->
  (gives s y \/ (y = x /\ forall a, ~ gives s a)) -> given gives d (l ++ [s]) y.
Proof.
  intros G [H|[-> N]].
  - apply given_last; [auto|intros ? ? []].
  - inversion G as [l' K|l1 s1 l2 a K1 K2]; subst.
    + apply given_none. intros s0 a I. apply in_app_or in I as [I|[<-|[]]]; auto.
    + rewrite <- app_assoc. cbn [app]. apply given_last; auto. intros s' b I. apply in_app_or in I as [I|[<-|[]]]; eauto.
Qed.
Lemma take_settings ss : Forall usual ss -> exists a, take_options (map event ss) new_args = inl a /\ settings ss a.
Proof.
  induction ss as [|s ss IH] using rev_ind; intros F.
  - exists new_args. split; [reflexivity|]. constructor; cbn; try (apply given_none; intros ? ? []).
    + split; [discriminate|intros []].
    + right. split; [intros []|reflexivity].
    + exists (str "0"). split; [apply given_none; intros ? ? []|]. intros _ _. reflexivity.
    + reflexivity.
  - apply Forall_app in F as [F1 F2]. apply Forall_inv in F2 as [NH NI]. destruct (IH F1) as (a & T & S).
    rewrite map_app. cbn [map]. rewrite take_app, T. cbn [take_options].
    assert (IO : forall x, In x (ss ++ [s]) <-> In x ss \/ x = s).
    { intros x. rewrite in_app_iff. cbn. intuition congruence. }
    destruct S as [S1 S2 S3 S4 S5 S6 (iv & S7 & S7') S8].
    assert (K : forall v, given (fun s v => s = Instance v) (str "0") ss v -> (forall x, s <> Instance x) -> given (fun s v => s = Instance v) (str "0") (ss ++ [s]) v).
    { intros v G N. eapply given_snoc; eauto. }
    assert (E : (forall v, In (Instance v) (ss ++ [s]) -> digits v /\ (dec_value v < 18446744073709551616)%N) -> a_errno a = false).
    { intros H. apply S8. intros v I. apply H. apply IO. auto. }
    assert (GN : forall (mk : bytes -> setting) d x, given (fun s v => s = mk v) d ss x -> (forall v, s <> mk v) -> given (fun s v => s = mk v) d (ss ++ [s]) x).
    { intros mk d x G N. eapply given_snoc; eauto. }
    assert (GS : forall (mk : bytes -> setting) d x v, given (fun s v => s = mk v) d ss x -> s = mk v -> given (fun s v => s = mk v) d (ss ++ [s]) v).
    { intros mk d x v G N. eapply given_snoc; eauto. }
    destruct s as [| | | |v|v|v|v|v]; try congruence; cbn [event];
    [ (* Arc *) exists (mkArgs (a_validate a) (a_selector a) (a_domain a) (a_keyfile a) (a_keytype a) V_ARC (a_instance a) (a_errno a))
    | exists (mkArgs true (a_selector a) (a_domain a) (a_keyfile a) (a_keytype a) (a_type a) (a_instance a) (a_errno a))
    | exists (let '(n, _, er) := strtoul v in mkArgs (a_validate a) (a_selector a) (a_domain a) (a_keyfile a) (a_keytype a) (a_type a) n (a_errno a || er))
    | exists (mkArgs (a_validate a) v (a_domain a) (a_keyfile a) (a_keytype a) (a_type a) (a_instance a) (a_errno a))
    | exists (mkArgs (a_validate a) (a_selector a) v (a_keyfile a) (a_keytype a) (a_type a) (a_instance a) (a_errno a))
    | exists (mkArgs (a_validate a) (a_selector a) (a_domain a) v (a_keytype a) (a_type a) (a_instance a) (a_errno a))
    | exists (mkArgs (a_validate a) (a_selector a) (a_domain a) (a_keyfile a) v (a_type a) (a_instance a) (a_errno a))];
    (split; [reflexivity|]);
    try (destruct (strtoul v) as [[n rest] er] eqn:U);
    constructor; cbn [a_validate a_selector a_domain a_keyfile a_keytype a_type a_instance a_errno];
    try (apply GN; [assumption|intros; discriminate]); try (eapply GS; [eassumption|reflexivity]); try assumption;
    try (rewrite IO, S1; split; [auto|intros [X|X]; [auto|discriminate X]]);
    try (destruct S2 as [[X Y]|[X Y]]; [left; split; [apply IO; auto|auto]|right; split; [intros Z; apply IO in Z as [Z|Z]; [auto|discriminate Z]|auto]]);
    try (exists iv; split; [apply K; [assumption|intros; discriminate]|assumption]).
    + left. split; [apply IO; auto|reflexivity].
    + split; [intros _; apply IO; auto|reflexivity].
    + exists v. split; [eapply GS; [eassumption|reflexivity]|]. intros D B. rewrite (strtoul_digits v D) in U. unfold ULONG_MAX in U.
      destruct (N.ltb_spec 18446744073709551615 (dec_value v)); [lia|]. congruence.
    + intros H. rewrite (E H). destruct (H v) as [D B]; [apply IO; auto|]. rewrite (strtoul_digits v D) in U. unfold ULONG_MAX in U.
      destruct (N.ltb_spec 18446744073709551615 (dec_value v)); [lia|]. injection U as _ _ <-. reflexivity.
Qed.

(** ** The whole program *)
Lemma main_command C strict clock resolve fs args ss files : command_line args ss files -> Forall usual ss ->
  exists a, settings ss a /\
  tool_main C strict clock resolve fs args =
    match files with
    | [] => (P_nothing, Exit 2)
    | f :: _ =>
        if a_validate a then let '(ls, e) := tool_files C strict clock resolve fs (a_type a) files 0 (a_errno a) in (P_lines ls, e)
        else if blank (a_selector a) || blank (a_domain a) || blank (a_keyfile a) then (P_nothing, Exit 2)
        else let '(t, e) := tool_sign C strict clock a (fs (a_keyfile a)) (fs f) in
             (match t with [] => P_nothing | _ => P_header t end, e)
    end.
Proof.
  intros CL U. destruct (take_settings ss U) as (a & T & S). exists a. split; auto. unfold tool_main. apply command_getopt in CL.
  destruct args as [|w r].
  - injection CL as E <-. reflexivity.
  - rewrite CL, T. destruct files; reflexivity.
Qed.
Lemma first_unusual ss : ~ Forall usual ss -> exists s1 s s2, ss = s1 ++ s :: s2 /\ Forall usual s1 /\ (s = Help \/ s = NoInstance).
Proof.
  induction ss as [|s ss IH]; intros N; [destruct N; constructor|].
  assert (D : usual s \/ s = Help \/ s = NoInstance) by (unfold usual; destruct s; auto; left; split; discriminate).
  destruct D as [D|D]; [|exists [], s, ss; auto]. destruct IH as (s1 & x & s2 & -> & F & X); [intros F; apply N; constructor; auto|].
  exists (s :: s1), x, s2. auto.
Qed.
Lemma take_unusual s1 s s2 a1 : take_options (map event s1) new_args = inl a1 -> s = Help \/ s = NoInstance ->
  take_options (map event (s1 ++ s :: s2)) new_args = inr (match s with Help => Exit 0 | _ => Undefined UB_null end).
Proof. intros T D. rewrite map_app, take_app, T. destruct D as [->| ->]; reflexivity. Qed.
Lemma main_help C strict clock resolve fs args s1 s2 files : command_line args (s1 ++ Help :: s2) files -> Forall usual s1 ->
  tool_main C strict clock resolve fs args = (P_usage, Exit 0).
Proof.
  intros CL U. destruct (take_settings s1 U) as (a & T & _). unfold tool_main. apply command_getopt in CL.
  destruct args as [|w r]; [injection CL as E _; destruct s1; discriminate E|]. rewrite CL, (take_unusual _ _ _ _ T); auto.
Qed.
Lemma main_no_instance C strict clock resolve fs args s1 s2 files : command_line args (s1 ++ NoInstance :: s2) files -> Forall usual s1 ->
  tool_main C strict clock resolve fs args = (P_nothing, Undefined UB_null).
Proof.
  intros CL U. destruct (take_settings s1 U) as (a & T & _). unfold tool_main. apply command_getopt in CL.
  destruct args as [|w r]; [injection CL as E _; destruct s1; discriminate E|]. rewrite CL, (take_unusual _ _ _ _ T); auto.
Qed.
(** Events before the first bad one. *)
Lemma before_bad es : In Bad es -> exists e1 e2, es = e1 ++ Bad :: e2 /\ ~ In Bad e1.
Proof.
  induction es as [|e es IH]; [intros []|]. intros I. destruct e as [c a|]; [|exists [], es; auto].
  destruct I as [I|I]; [discriminate|]. destruct (IH I) as (e1 & e2 & -> & N). exists (Opt c a :: e1), e2. split; auto. intros [X|X]; [discriminate|auto].
Qed.
Lemma take_ends es a : ~ In Bad es -> (exists a1, take_options es a = inl a1) \/ take_options es a = inr (Exit 0) \/ take_options es a = inr (Exit 2) \/
  take_options es a = inr (Undefined UB_null).
Proof.
  revert a. induction es as [|e es IH]; intros a N; cbn [take_options]; [eauto|].
  assert (N' : ~ In Bad es) by (intros I; apply N; right; auto).
  assert (X : (exists a1, take_option e a = inl a1) \/ take_option e a = inr (Exit 0) \/ take_option e a = inr (Exit 2) \/ take_option e a = inr (Undefined UB_null)).
  { unfold take_option. destruct e as [c arg|]; auto.
    repeat match goal with |- context [if ?b then _ else _] => destruct b end; auto; try (left; eexists; reflexivity);
    (destruct arg as [v|]; [left; try (destruct (strtoul v) as [[? ?] ?]); eexists; reflexivity|auto]). }
  destruct X as [(a1 & ->)|[->|[->| ->]]]; auto.
Qed.
Lemma main_bad C strict clock resolve fs args : ~ (exists ss files, command_line args ss files) ->
  tool_main C strict clock resolve fs args = (P_nothing, Exit 2) \/ tool_main C strict clock resolve fs args = (P_usage, Exit 0) \/
  tool_main C strict clock resolve fs args = (P_nothing, Undefined UB_null).
Proof.
  intros N. unfold tool_main. destruct args as [|w r]; [auto|]. destruct (getopt (w :: r)) as [es files] eqn:G.
  assert (B : In Bad es).
  { destruct (in_dec (fun x y : opt_event => ltac:(repeat decide equality) : {x = y} + {x <> y}) Bad es) as [I|NI]; auto.
    destruct (getopt_command _ _ (le_n _) _ _ G NI) as (ss & _ & CL). destruct N. eauto. }
  destruct (before_bad es B) as (e1 & e2 & -> & NB). rewrite take_app.
  destruct (take_ends e1 new_args NB) as [(a1 & ->)|[->|[->| ->]]]; auto.
Qed.
Lemma event_inj s s' : event s = event s' -> s = s'.
Proof. destruct s, s'; intros E; first [discriminate E|reflexivity|injection E as ->; reflexivity]. Qed.
Lemma command_unique args ss files ss' files' : command_line args ss files -> command_line args ss' files' -> ss = ss' /\ files = files'.
Proof.
  intros A B. apply command_getopt in A, B. rewrite A in B. injection B as E ->. split; auto. clear A.
  revert ss' E. induction ss as [|s ss IH]; intros [|s' ss'] E; cbn [map] in E; try discriminate E; auto.
  apply (f_equal (@hd _ Bad)) in E as E1. apply (f_equal (@tl _)) in E. cbn [hd tl] in *. apply event_inj in E1. subst. f_equal. auto.
Qed.
Lemma main_keytype C strict clock resolve fs args : tool_main C strict clock resolve fs (str "--keytype" :: args) = (P_nothing, Exit 2).
Proof.
  assert (G : exists es files, getopt (str "--keytype" :: args) = (Bad :: es, files)).
  { destruct args as [|w r]; [do 2 eexists; reflexivity|]. destruct (getopt (w :: r)) as [es files] eqn:E. exists es, files.
    change (getopt (str "--keytype" :: w :: r)) with (let '(es', files) := getopt (w :: r) in ([Bad] ++ es', files)). rewrite E. reflexivity. }
  destruct G as (es & files & G). unfold tool_main. rewrite G. reflexivity.
Qed.
