(** What the command line program prints when it verifies. *)
From Verif Require Import Bytes Outcome Stream TagList MailParser Canonicalization Util CStdlib Crypto Signature PublicKey
  SignatoryOptions Signatory Validatory SpecText SpecTags SpecMail SpecCanon SpecVerify SpecSig SpecKey SpecOptions SpecSign Tool SpecTool
  BytesFacts BodyFacts BodyProps MailFacts SelectFacts SigFacts SigProps VerifyFacts KeyFacts VerifyProps SpecPass.

Lemma try_in_use C strict ty t v now resolve h e v1 e1 g p o : in_use strict ty t v ->
  try_one C strict now resolve h e v = (v1, e1, g, p, o) -> in_use strict ty t v1.
Proof.
  intros U. unfold try_one. destruct (GetSignature_spec C strict ty t v now h (new_signature, e) U) as (v' & U' & E).
  assert (X : exists st r, GetSignature C strict now h (new_signature, e) v = (v', st, r)).
  { destruct (Signature_Parse _ _ _ _ _) as [st [[]| | |]]; eauto. }
  destruct X as (st & r & ->). destruct r; [|intros [= <- _ _ _ _]; auto..].
  destruct (GetPublicKey _ _ _ _ _) as [p1 [| | |]]; intros [= <- _ _ _ _]; auto.
Qed.

(** The result depends on the Validatory only through the message it was made for. *)
Lemma CheckBodyHash_use C strict ty t v v' g : in_use strict ty t v -> in_use strict ty t v' -> snd (CheckBodyHash C g v) = snd (CheckBodyHash C g v').
Proof.
  intros U U'. destruct (message_body_exists t) as (b & MB). destruct (canonical_exists (is_relaxed (sg_cbody g)) b) as (out & CB).
  destruct (CheckBodyHash_spec C strict ty t v g b out U MB CB) as (? & -> & _).
  destruct (CheckBodyHash_spec C strict ty t v' g b out U' MB CB) as (? & -> & _). reflexivity.
Qed.
Lemma CheckSignature_use C strict ty t v v' h g p : in_use strict ty t v -> in_use strict ty t v' ->
  CheckSignature C strict h g p v = CheckSignature C strict h g p v'.
Proof.
  intros (v0 & N0 & M0 & _) (v0' & N0' & M0' & _). rewrite N0 in N0'. injection N0' as <-. unfold CheckSignature, signed_data. rewrite M0, M0'. reflexivity.
Qed.
Lemma try_use C strict ty t v v' now resolve h e : in_use strict ty t v -> in_use strict ty t v' ->
  forall v1 e1 g p o, try_one C strict now resolve h e v = (v1, e1, g, p, o) ->
  exists v1', try_one C strict now resolve h e v' = (v1', e1, g, p, o) /\ in_use strict ty t v1'.
Proof.
  intros U U' v1 e1 g p o E. assert (X : exists v1', try_one C strict now resolve h e v' = (v1', e1, g, p, o)).
  { revert E. unfold try_one.
    destruct (GetSignature_spec C strict ty t v now h (new_signature, e) U) as (w & W & E).
    destruct (GetSignature_spec C strict ty t v' now h (new_signature, e) U') as (w' & W' & E').
    destruct (Signature_Parse _ _ _ _ _) as [st [[]| | |]]; rewrite E, E'; [|intros [= _ <- <- <- <-]; eauto..].
    rewrite (CheckBodyHash_use C strict ty t v' v) by auto. destruct (snd (CheckBodyHash _ _ _)); [|intros [= _ <- <- <- <-]; eauto..].
    destruct (GetPublicKey _ _ _ _ _) as [p1 [| | |]]; [|intros [= _ <- <- <- <-]; eauto..].
    rewrite (CheckSignature_use C strict ty t w w') by auto. intros [= _ <- <- <- <-]. eauto. }
  destruct X as (v1' & E'). exists v1'. split; auto. eapply try_in_use; eauto.
Qed.

(** errno afterwards. *)
Lemma try_errno C strict now resolve h v v1 e1 g p o : ~ sets_errno h -> try_one C strict now resolve h false v = (v1, e1, g, p, o) -> e1 = false.
Proof.
  intros Q E. pose proof (parse_quiet C strict now h Q) as A. unfold errno_after in A. cbn [fst snd] in A. revert E. unfold try_one, GetSignature.
  destruct (Signature_Parse C strict now h (new_signature, false)) as [st r]. cbn [fst snd] in A.
  assert (X : forall w : validatory, forall r0, (let '(v2, st0, r1) := (w, st, r0) in
     match r1 with
     | Ok _ => let '(p0, r2) := GetPublicKey C strict resolve (fst st0) new_public_key in
               match r2 with Ok _ => (v2, snd st0, fst st0, p0, CheckSignature C strict h (fst st0) p0 v2) | e => (v2, snd st0, fst st0, p0, e) end
     | e => (v2, snd st0, fst st0, new_public_key, e) end) = (v1, e1, g, p, o) -> e1 = false).
  { intros w [u| | |]; [|intros [= _ <- _ _ _]; exact A..]. destruct (GetPublicKey _ _ _ _ _) as [p0 [| | |]]; intros [= _ <- _ _ _]; exact A. }
  destruct r as [u|x|k|]; [|exact (X v (Throw x))|exact (X v (UB k))|exact (X v Diverge)].
  destruct (CheckBodyHash C (fst st) v) as [w r]. exact (X w r).
Qed.

(** OK means genuine. *)
Lemma allows_parts g p : key_allows g p = true ->
  (pk_digests p = [] \/ In (sg_digest g) (pk_digests p)) /\ pk_alg p = sg_alg g /\
  (sg_arc g = false -> In (str "s") (pk_flags p) -> sg_mdomain g = sg_domain g).
Proof.
  unfold key_allows. intros A. apply andb_true_iff in A as [A B]. apply andb_true_iff in A as [A D]. split; [|split].
  - destruct (pk_digests p) as [|x l]; auto. right. apply existsb_exists in A as (y & I & E). apply digest_eqb_eq in E. subst. auto.
  - destruct (sg_alg g), (pk_alg p); auto; discriminate.
  - intros R I. rewrite R in B. apply memb_In in I. rewrite I in B. cbn [orb negb] in B. apply beqb_eq in B. auto.
Qed.
Lemma try_ok C strict ty t v now resolve h e v1 e1 g p : new_validatory strict ty (open_str t) = Ok v -> In h (m_headers (v_msg v)) ->
  small_fields t ->
  try_one C strict now resolve h e v = (v1, e1, g, p, Ok tt) -> genuine C strict resolve t h now g.
Proof.
  intros NV IN B. pose proof (in_use_fresh _ _ _ _ NV) as U. unfold try_one.
  destruct (GetSignature_spec C strict ty t v now h (new_signature, e) U) as (v' & U' & E).
  destruct (Signature_Parse C strict now h (new_signature, e)) as [[g0 e0] [[]| | |]] eqn:SP; rewrite E; [|discriminate..]. cbn [fst snd].
  destruct (message_body_exists t) as (b & MB). destruct (canonical_exists (is_relaxed (sg_cbody g0)) b) as (out & CB).
  destruct (snd (CheckBodyHash C g0 v)) as [[]| | |] eqn:BH; [|discriminate..].
  apply (CheckBodyHash_iff C strict ty t v g0 b out U MB CB) in BH.
  destruct (GetPublicKey C strict resolve g0 new_public_key) as [p0 [[]| | |]] eqn:GP; [|discriminate..].
  intros [= <- <- <- <- CS].
  constructor; [eauto|eauto|].
  revert GP. unfold GetPublicKey. destruct (resolve (key_query g0)) as [[ok r]| | |] eqn:RS; cbn [slift]; try discriminate.
  destruct ok; [|discriminate]. destruct r as [|c r]; [discriminate|]. intros KP.
  pose proof (new_validatory_spec _ _ _ _ NV) as (m & s & P & M & _). pose proof IN as IN0. rewrite M in IN0.
  destruct (small_message t m s h P IN0 B) as [L SF].
  rewrite (CheckSignature_use C strict ty t v' v) in CS by auto. apply CheckSignature_strict in CS.
  destruct (b_position _ _ _ _ _ _ _ SP) as [(pre & bv & post & TA & NB) _].
  pose proof (proj1 (check_iff _ _ _ _ _ _ _ _ _ _ SP SF TA strict (c :: r) new_public_key p0 v KP) CS) as (KA & d & AU & AC).
  destruct (authenticated_form ty strict t v h g0 pre bv post d NV IN L TA NB AU) as (outs & x & F2 & FF & ->). rewrite M in F2.
  destruct (b_only _ _ _ _ _ _ _ _ _ _ SP SF TA) as (_ & EB & _). destruct (allows_parts _ _ KA) as (A1 & A2 & A3).
  exists (c :: r), p0, m, s, pre, bv, post, outs, x. unfold key_query in RS. repeat (split; auto). discriminate.
Qed.

(** ** The loops *)
Lemma file_fields_sigs strict ty f v : new_validatory strict ty (open_file f) = Ok v -> v_sigs v = file_fields ty f.
Proof.
  destruct f as [t|]; cbn [open_file file_fields].
  - intros N. apply listed in N as (m & s & -> & _ & _ & E). exact E.
  - vm_compute. destruct ty, strict; intros [= <-]; reflexivity.
Qed.

Lemma SoftFail_flag p : if SoftFail p then In (str "y") (pk_flags p) else ~ In (str "y") (pk_flags p).
Proof.
  unfold SoftFail. destruct (memb (str "y") (pk_flags p)) eqn:E; [apply memb_In; auto|]. intros I. apply memb_In in I. congruence.
Qed.
Lemma try_judged C strict ty t v now resolve h e v1 e1 g p o name rep : in_use strict ty t v ->
  try_one C strict now resolve h e v = (v1, e1, g, p, o) -> report_of p o = inl rep ->
  judged C strict ty resolve t h now e (mkLine name (sg_domain g) (sg_selector g) rep).
Proof.
  intros U E R. pose proof U as (v0 & N0 & _). destruct (try_use _ _ _ _ _ _ _ resolve _ _ U (in_use_fresh _ _ _ _ N0) _ _ _ _ _ E) as (v1' & E' & U').
  exists v0, g, p, o. split; auto. cbn [l_domain l_selector l_report]. split; [|split; [|split]]; auto.
  - revert E'. unfold try_one. destruct (GetSignature C strict now h (new_signature, e) v0) as [[w [g1 er]] [u| | |]]; cbn [fst snd];
      [|intros [= _ _ <- <- <-]; auto..].
    destruct (GetPublicKey C strict resolve g1 new_public_key) as [p1 r1] eqn:GP. destruct r1; intros [= _ _ <- <- <-]; rewrite GP; auto.
  - destruct o as [[]|[c|c|]| |]; cbn [report_of] in R; try discriminate; [injection R as <-; auto| |injection R as <-; auto].
    pose proof (SoftFail_flag p) as SF. destruct (SoftFail p); injection R as <-; auto.
Qed.
Lemma judged_ok C strict ty resolve t h now e l : judged C strict ty resolve t h now e l -> l_report l = R_OK ->
  In h (file_fields ty (Some t)) -> small_fields t ->
  exists g, genuine C strict resolve t h now g /\ l_domain l = sg_domain g /\ l_selector l = sg_selector g.
Proof.
  intros (v & g & p & o & N & E & D & S & R) RO IN B. rewrite RO in R. subst o. exists g. split; auto.
  assert (INM : In h (m_headers (v_msg v))).
  { rewrite <- (file_fields_sigs strict ty (Some t) v N) in IN. apply new_validatory_spec in N as (m & s & _ & -> & _ & ES). rewrite ES in IN.
    apply filter_In in IN. tauto. }
  destruct (GetSignature C strict now h (new_signature, e) v) as [[v1 [g1 e1]] r] eqn:GS. destruct E as [-> E].
  destruct r as [u| | |]; [|destruct E; discriminate..].
  destruct (GetPublicKey C strict resolve g new_public_key) as [p1 r1] eqn:GP. destruct E as [-> E].
  destruct r1 as [u1| | |]; [|discriminate..].
  apply (try_ok C strict ty t v now resolve h e v1 e1 g p); auto. unfold try_one. rewrite GS. cbn [fst snd]. rewrite GP, <- E. reflexivity.
Qed.

Lemma Forall2_imp {A B} (R Q : A -> B -> Prop) l l' : (forall a b, R a b -> Q a b) -> Forall2 R l l' -> Forall2 Q l l'.
Proof. intros I. induction 1; constructor; auto. Qed.

Section Loops.
  Variables (C : crypto) (strict : bool) (clock : nat -> Z) (resolve : bytes -> outcome (bool * bytes)) (ty : validator_type).
  Definition line_for (fs : bytes -> option bytes) (quiet : Prop) (fh : bytes * header) (l : line) : Prop :=
    l_file l = fst fh /\ exists t k e, fs (fst fh) = Some t /\ judged C strict ty resolve t (snd fh) (clock k) e l /\ (quiet -> e = false).
  Lemma sigs_lines fs name t : fs name = Some t -> forall hs v n e, in_use strict ty t v ->
    let '(ls, n', e', x) := tool_sigs C strict clock resolve name hs v n e in
    let quiet := e = false /\ Forall (fun h => ~ sets_errno h) hs in
    exists did rest, hs = did ++ rest /\ Forall2 (line_for fs quiet) (map (pair name) did) ls /\ (x = None -> rest = []) /\
      (quiet -> x = None -> e' = false).
  Proof.
    intros F. induction hs as [|h hs IH]; intros v n e U; cbn [tool_sigs].
    - exists [], []. split; auto. split; [constructor|]. tauto.
    - destruct (try_one C strict (clock n) resolve h e v) as [[[[v1 e1] g] p] o] eqn:E.
      destruct (report_of p o) as [rep|x] eqn:R.
      + pose proof (IH v1 (S n) e1 (try_in_use _ _ _ _ _ _ _ _ _ _ _ _ _ _ U E)) as J.
        destruct (tool_sigs C strict clock resolve name hs v1 (S n) e1) as [[[ls n'] e'] x]. cbv zeta in *.
        destruct J as (did & rest & -> & F2 & X & Q).
        assert (QQ : e = false /\ Forall (fun h0 => ~ sets_errno h0) (h :: did ++ rest) -> e1 = false /\ Forall (fun h0 => ~ sets_errno h0) (did ++ rest)).
        { intros [-> K]. apply Forall_cons_iff in K as [K1 K2]. split; auto. eapply try_errno; eauto. }
        exists (h :: did), rest. split; auto. split; [|auto]. cbn [map]. constructor.
        * split; [reflexivity|]. exists t, n, e. cbn [fst snd]. split; auto. split; [|tauto]. eapply try_judged; eauto.
        * eapply Forall2_imp; [|exact F2]. intros [a b] l (A1 & t' & k & e2 & A2 & A3 & A4). split; auto. exists t', k, e2. auto.
      + cbv zeta. exists [], (h :: hs). split; auto. split; [constructor|]. split; discriminate.
  Qed.
  Lemma sigs_no_exit name : forall hs v n e ls n' e', tool_sigs C strict clock resolve name hs v n e <> (ls, n', e', Some (Exit 0)).
  Proof.
    induction hs as [|h hs IH]; intros v n e ls n' e' E; cbn [tool_sigs] in E; [discriminate|].
    destruct (try_one C strict (clock n) resolve h e v) as [[[[v1 e1] g] p] o]. destruct (report_of p o) as [rep|y] eqn:R.
    - destruct (tool_sigs C strict clock resolve name hs v1 (S n) e1) as [[[a b] c] d] eqn:J. injection E as _ _ _ ->. exact (IH _ _ _ _ _ _ J).
    - injection E as _ _ _ ->. destruct o as [u|[c|c|]| |]; discriminate.
  Qed.
  Lemma files_lines fs : forall names n e,
    let '(ls, x) := tool_files C strict clock resolve fs ty names n e in
    let quiet := e = false /\ Forall (fun p => ~ sets_errno (snd p)) (all_fields ty fs names) in
    exists did rest, all_fields ty fs names = did ++ rest /\ Forall2 (line_for fs quiet) did ls /\ (x = Exit 0 -> rest = []).
  Proof.
    induction names as [|f names IH]; intros n e; cbn [tool_files].
    - exists [], []. split; auto.
    - destruct (new_validatory strict ty (open_file (fs f))) as [v|x|k|] eqn:N.
      2-4: exists [], (all_fields ty fs (f :: names)); split; [auto|split; [constructor|discriminate]].
      assert (FS : all_fields ty fs (f :: names) = map (pair f) (v_sigs v) ++ all_fields ty fs names).
      { unfold all_fields. cbn [flat_map]. rewrite (file_fields_sigs strict ty (fs f) v N). reflexivity. }
      assert (SL : let '(ls, n', e', x) := tool_sigs C strict clock resolve f (v_sigs v) v n e in
        let quiet := e = false /\ Forall (fun h => ~ sets_errno h) (v_sigs v) in
        exists did rest, v_sigs v = did ++ rest /\ Forall2 (line_for fs quiet) (map (pair f) did) ls /\ (x = None -> rest = []) /\
          (quiet -> x = None -> e' = false)).
      { destruct (fs f) as [t|] eqn:F.
        - apply (sigs_lines fs f t F). apply in_use_fresh. exact N.
        - rewrite (file_fields_sigs strict ty None v N). cbn [file_fields tool_sigs]. exists [], []. split; auto. split; [constructor|]. tauto. }
      destruct (tool_sigs C strict clock resolve f (v_sigs v) v n e) as [[[ls n'] e'] x] eqn:TS. cbv zeta in SL.
      destruct SL as (did & rest & EV & F2 & X & Q). rewrite FS.
      assert (QF : Forall (fun p : bytes * header => ~ sets_errno (snd p)) (map (pair f) (v_sigs v) ++ all_fields ty fs names) ->
                   Forall (fun h => ~ sets_errno h) (v_sigs v) /\ Forall (fun p => ~ sets_errno (snd p)) (all_fields ty fs names)).
      { intros K. apply Forall_app in K as [K1 K2]. split; auto. rewrite Forall_map in K1. exact K1. }
      assert (F2' : Forall2 (line_for fs (e = false /\ Forall (fun p : bytes * header => ~ sets_errno (snd p)) (map (pair f) (v_sigs v) ++ all_fields ty fs names))) (map (pair f) did) ls).
      { eapply Forall2_imp; [|exact F2]. intros [a b] l (A1 & t' & k & e2 & A2 & A3 & A4). split; auto. exists t', k, e2. split; auto. split; auto.
        intros [Q1 Q2]. apply QF in Q2. tauto. }
      destruct x as [x|].
      + cbv zeta. exists (map (pair f) did), (map (pair f) rest ++ all_fields ty fs names). split; [rewrite EV, map_app, <- app_assoc; reflexivity|]. split; auto.
        intros ->. destruct (sigs_no_exit f _ _ _ _ _ _ _ TS).
      + rewrite (X eq_refl), app_nil_r in EV. subst did. specialize (IH n' e').
        destruct (tool_files C strict clock resolve fs ty names n' e') as [ls' y]. cbv zeta in *.
        destruct IH as (did & rest' & EA & F2b & Y). exists (map (pair f) (v_sigs v) ++ did), rest'. split; [rewrite EA, app_assoc; reflexivity|].
        split; [|auto]. apply Forall2_app; auto. eapply Forall2_imp; [|exact F2b].
        intros [a b] l (A1 & t' & k & e2 & A2 & A3 & A4). split; auto. exists t', k, e2. split; auto. split; auto.
        intros [Q1 Q2]. apply QF in Q2. destruct Q2. apply A4. auto.
  Qed.
End Loops.

Lemma all_fields_In ty fs names f h : In (f, h) (all_fields ty fs names) -> In f names /\ In h (file_fields ty (fs f)).
Proof.
  unfold all_fields. intros I. apply in_flat_map in I as (x & I1 & I2). apply in_map_iff in I2 as (y & [= <- <-] & I2). auto.
Qed.
Lemma Forall2_In_r {A B} (R : A -> B -> Prop) l l' b : Forall2 R l l' -> In b l' -> exists a, In a l /\ R a b.
Proof.
  induction 1 as [|x y l l' E F IH]; [intros []|]. intros [<-|I]; [exists x; cbn; auto|]. destruct (IH I) as (a & I1 & I2). exists a. cbn. auto.
Qed.

(** What an OK line means. *)
Lemma ok_genuine C strict clock resolve fs ty names n e ls x l : tool_files C strict clock resolve fs ty names n e = (ls, x) ->
  In l ls -> l_report l = R_OK -> (forall f t, In f names -> fs f = Some t -> small_fields t) ->
  exists t h k g, In (l_file l) names /\ fs (l_file l) = Some t /\ In h (file_fields ty (Some t)) /\
    genuine C strict resolve t h (clock k) g /\ l_domain l = sg_domain g /\ l_selector l = sg_selector g.
Proof.
  intros E I R B. pose proof (files_lines C strict clock resolve ty fs names n e) as X. rewrite E in X. cbv zeta in X.
  destruct X as (did & rest & EA & F2 & _). destruct (Forall2_In_r _ _ _ _ F2 I) as ([f h] & I1 & EF & t & k & e0 & FT & J & _). cbn [fst snd] in *.
  assert (IA : In (f, h) (all_fields ty fs names)) by (rewrite EA; apply in_or_app; auto). apply all_fields_In in IA as [IN IH].
  rewrite FT in IH. destruct (judged_ok _ _ _ _ _ _ _ _ _ J R IH (B f t IN FT)) as (g & G & D & S). rewrite EF. exists t, h, k, g. auto 10.
Qed.
(** One line per signature field. *)
Lemma exit_lines C strict clock resolve fs ty names n e ls : tool_files C strict clock resolve fs ty names n e = (ls, Exit 0) ->
  Forall2 (fun fh l => l_file l = fst fh /\ exists t k e0, fs (fst fh) = Some t /\ judged C strict ty resolve t (snd fh) (clock k) e0 l) (all_fields ty fs names) ls.
Proof.
  intros E. pose proof (files_lines C strict clock resolve ty fs names n e) as X. rewrite E in X. cbv zeta in X.
  destruct X as (did & rest & EA & F2 & R). rewrite (R eq_refl), app_nil_r in EA. rewrite EA. eapply Forall2_imp; [|exact F2].
  intros [f h] l (A & t & k & e0 & B & J & _). split; auto. exists t, k, e0. auto.
Qed.
Lemma quiet_lines C strict clock resolve fs ty names n ls : tool_files C strict clock resolve fs ty names n false = (ls, Exit 0) ->
  Forall (fun p => ~ sets_errno (snd p)) (all_fields ty fs names) ->
  Forall2 (fun fh l => l_file l = fst fh /\ exists t k, fs (fst fh) = Some t /\ judged C strict ty resolve t (snd fh) (clock k) false l) (all_fields ty fs names) ls.
Proof.
  intros E Q. pose proof (files_lines C strict clock resolve ty fs names n false) as X. rewrite E in X. cbv zeta in X.
  destruct X as (did & rest & EA & F2 & R). rewrite (R eq_refl), app_nil_r in EA. rewrite EA at 1. eapply Forall2_imp; [|exact F2].
  intros [f h] l (A & t & k & e0 & B & J & K). rewrite (K (conj eq_refl Q)) in J. split; auto. exists t, k. auto.
Qed.

(** The program ends with status 0. *)
Lemma try_report C ty t v now resolve h e v1 e1 g p o : in_use false ty t v -> In h (file_fields ty (Some t)) ->
  small_fields t -> (forall q, exists r, resolve q = Ok r) -> harmless C h ->
  try_one C false now resolve h e v = (v1, e1, g, p, o) -> exists rep, report_of p o = inl rep.
Proof.
  intros U IN B RS HL E. pose proof U as (v0 & N0 & _).
  destruct (try_use _ _ _ _ _ _ _ resolve _ _ U (in_use_fresh _ _ _ _ N0) _ _ _ _ _ E) as (v1' & E' & U').
  assert (INM : In h (m_headers (v_msg v0))).
  { rewrite <- (file_fields_sigs false ty (Some t) v0 N0) in IN. apply new_validatory_spec in N0 as (m & s & _ & -> & _ & ES). rewrite ES in IN.
    apply filter_In in IN. tauto. }
  assert (SF : small_field h).
  { destruct (new_validatory_spec _ _ _ _ N0) as (m & s & P & M & _). rewrite M in INM. exact (B _ _ (parse_fields _ _ _ P) INM). }
  destruct (failures C false ty t v0 h N0 INM SF) as (F1 & F2 & F3).
  enough (D : dkim_end false o).
  { destruct D as [->|[(c & ->)|[(c & ->)|[? _]]]]; cbn [report_of]; eauto. discriminate. }
  revert E'. unfold try_one. specialize (F1 now (new_signature, e)).
  pose proof (in_use_fresh _ _ _ _ N0) as U0. destruct (GetSignature_spec C false ty t v0 now h (new_signature, e) U0) as (w & W & GS).
  destruct (Signature_Parse C false now h (new_signature, e)) as [[g1 e2] [[]| | |]] eqn:SP; rewrite GS in F1 |- *; cbn [fst snd] in *;
    [|intros [= _ _ _ _ <-]; auto..].
  destruct (snd (CheckBodyHash C g1 v0)) as [u| | |]; [|intros [= _ _ _ _ <-]; auto..].
  specialize (F2 resolve g1 new_public_key (RS (key_query g1))).
  destruct (GetPublicKey C false resolve g1 new_public_key) as [p1 [[]| | |]] eqn:GP; cbn [snd] in F2; [|intros [= _ _ _ _ <-]; auto..].
  intros [= _ _ _ _ <-]. rewrite (CheckSignature_use C false ty t w v0) by auto.
  revert GP. unfold GetPublicKey. destruct (resolve (key_query g1)) as [[ok r]| | |]; cbn [slift]; try discriminate.
  destruct ok; [|discriminate]. destruct r as [|c r]; [discriminate|]. intros KP. exact (F3 now e g1 e2 (c :: r) new_public_key p1 SP KP (HL now e g1 e2 SP)).
Qed.
Lemma files_end C clock resolve fs ty : (forall q, exists r, resolve q = Ok r) -> forall names,
  (forall f t, In f names -> fs f = Some t -> small_fields t /\ Forall (harmless C) (file_fields ty (Some t))) -> forall n e,
  exists ls, tool_files C false clock resolve fs ty names n e = (ls, Exit 0).
Proof.
  intros RS. induction names as [|f names IH]; intros H n e; cbn [tool_files]; [eauto|].
  assert (NV : exists v, new_validatory false ty (open_file (fs f)) = Ok v).
  { destruct (fs f) as [t|]; [apply new_validatory_total; discriminate|]. destruct ty; eexists; vm_compute; reflexivity. }
  destruct NV as (v & NV). rewrite NV.
  assert (X : exists ls n' e', tool_sigs C false clock resolve f (v_sigs v) v n e = (ls, n', e', None)).
  { pose proof (file_fields_sigs false ty (fs f) v NV) as ES. destruct (fs f) as [t|] eqn:F; [|rewrite ES; cbn; eauto].
    destruct (H f t (or_introl eq_refl) F) as [B HL]. rewrite <- ES in HL. assert (SUB : incl (v_sigs v) (file_fields ty (Some t))) by (rewrite ES; intros ?; auto).
    pose proof (in_use_fresh _ _ _ _ NV) as U. revert HL SUB U. generalize (v_sigs v) as hs. intros hs. revert v n e NV ES. intros v n e _ _.
    revert v n e. induction hs as [|h hs IHh]; intros v n e HL SUB U; cbn [tool_sigs]; [eauto|].
    apply Forall_cons_iff in HL as [H1 H2].
    destruct (try_one C false (clock n) resolve h e v) as [[[[v1 e1] g] p] o] eqn:E.
    destruct (try_report C ty t v (clock n) resolve h e v1 e1 g p o U (SUB h (or_introl eq_refl)) B RS H1 E) as (rep & ->).
    destruct (IHh v1 (S n) e1 H2) as (ls & n' & e' & ->); [intros x I; apply SUB; right; auto|eapply try_in_use; eauto|eauto]. }
  destruct X as (ls & n' & e' & ->). destruct (IH (fun f0 t I => H f0 t (or_intror I)) n' e') as (ls' & ->). eauto.
Qed.
