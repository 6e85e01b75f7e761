(** The questions of the program. *)
From Verif Require Import Bytes Outcome Stream TagList MailParser Canonicalization Util CStdlib Crypto Signature PublicKey
  SignatoryOptions Signatory Validatory SpecText SpecTags SpecMail SpecCanon SpecVerify SpecSig SpecKey SpecOptions SpecSign Tool SpecTool
  BytesFacts BodyFacts BodyProps MailFacts SelectFacts SigFacts SigProps VerifyFacts KeyFacts VerifyProps ToolFacts ToolArgs ToolMain
  ToolAsk SpecAsk.

(** One field. *)
Lemma ask_try C strict now answers k h e v : fst (ask_one C strict now answers k h e v) = try_one C strict now (answers k) h e v.
Proof.
  unfold ask_one, try_one. destruct (GetSignature C strict now h (new_signature, e) v) as [[v1 st] [u| | |]]; auto.
  change (GetPublicKey C strict (fun _ => answers k (key_query (fst st))) (fst st) new_public_key) with (GetPublicKey C strict (answers k) (fst st) new_public_key).
  destruct (GetPublicKey C strict (answers k) (fst st) new_public_key) as [p [| | |]]; reflexivity.
Qed.
Lemma ask_question C strict ty t now answers k h e v : in_use strict ty t v ->
  (snd (ask_one C strict now answers k h e v) = [] /\ forall q, ~ asks_for C strict t h now e q) \/
  (exists q, snd (ask_one C strict now answers k h e v) = [q] /\ asks_for C strict t h now e q).
Proof.
  intros U. unfold ask_one. destruct (GetSignature_spec C strict ty t v now h (new_signature, e) U) as (v' & U' & E).
  destruct (Signature_Parse C strict now h (new_signature, e)) as [[g e1] r] eqn:P.
  assert (NO : forall x, r = x -> x <> Ok tt -> forall q, ~ asks_for C strict t h now e q).
  { intros x -> N q (g' & e' & b & out & P' & _). rewrite P in P'. injection P' as _ _ ->. contradiction. }
  destruct r as [[]| | |]; rewrite E; [|left; split; [reflexivity|eapply NO; [reflexivity|discriminate]]..]. clear NO. cbn [fst snd] in *.
  destruct (message_body_exists t) as (b & MB). destruct (canonical_exists (is_relaxed (sg_cbody g)) b) as (out & CB).
  pose proof (CheckBodyHash_iff C strict ty t v g b out U MB CB) as [I F]. destruct (snd (CheckBodyHash C g v)) as [[]| | |] eqn:BH.
  - right. exists (key_query g). split; [|exists g, e1, b, out; split; auto; repeat split; auto; apply I; reflexivity].
    destruct (GetPublicKey _ _ _ _ _) as [p [| | |]]; reflexivity.
  - left. split; [reflexivity|]. intros q (g' & e' & b' & out' & P' & MB' & CB' & H & _). rewrite P in P'. injection P' as <- <-.
    rewrite (message_body_unique t b' b MB' MB) in CB'. apply canonical_pass in CB, CB'. rewrite CB', <- CB in H. apply I in H. discriminate.
  - specialize (F ltac:(discriminate)). discriminate.
  - specialize (F ltac:(discriminate)). discriminate.
Qed.

Section Loops.
  Variables (C : crypto) (strict : bool) (clock : nat -> Z) (answers : nat -> bytes -> outcome (bool * bytes)) (ty : validator_type)
    (fs : bytes -> option bytes).
  Notation looked := (looked_up C strict ty clock answers fs).
  Lemma sigs_asked name t : fs name = Some t -> forall hs v n e k ls qs n' e', in_use strict ty t v ->
    ask_sigs C strict clock answers name hs v n e k = (ls, qs, n', e', None) ->
    forall more ls' qs', looked (k + length qs) more ls' qs' -> looked k (map (pair name) hs ++ more) (ls ++ ls') (qs ++ qs').
  Proof.
    intros F. induction hs as [|h hs IH]; intros v n e k ls qs n' e' U E more ls' qs' L; cbn [ask_sigs] in E.
    - injection E as <- <- _ _. cbn [length] in L. rewrite Nat.add_0_r in L. exact L.
    - pose proof (ask_try C strict (clock n) answers k h e v) as T. pose proof (ask_question C strict ty t (clock n) answers k h e v U) as Q.
      destruct (ask_one C strict (clock n) answers k h e v) as [[[[[v1 e1] g] p] o] q]. cbn [fst snd] in T, Q. symmetry in T.
      destruct (report_of p o) as [rep|x] eqn:R; [|discriminate E].
      destruct (ask_sigs C strict clock answers name hs v1 (S n) e1 (k + length q)) as [[[[ls1 qs1] n1] x1] y] eqn:A. injection E as <- <- _ _ ->.
      pose proof (try_judged C strict ty t v _ _ _ _ _ _ _ _ _ name rep U T R) as J.
      rewrite app_length, Nat.add_assoc in L. specialize (IH v1 (S n) e1 _ _ _ _ _ (try_in_use _ _ _ _ _ _ _ _ _ _ _ _ _ _ U T) A _ _ _ L). cbn [map app].
      destruct Q as [[-> Q]|(q1 & -> & Q)]; cbn [length app] in *; [rewrite Nat.add_0_r in IH|rewrite Nat.add_1_r in IH].
      + eapply lu_not; eauto.
      + eapply lu_asked; eauto.
  Qed.
  Lemma sigs_no_exit name : forall hs v n e k ls qs n' e', ask_sigs C strict clock answers name hs v n e k <> (ls, qs, n', e', Some (Exit 0)).
  Proof.
    induction hs as [|h hs IH]; intros v n e k ls qs n' e' E; cbn [ask_sigs] in E; [discriminate|].
    destruct (ask_one C strict (clock n) answers k h e v) as [[[[[v1 e1] g] p] o] q]. destruct (report_of p o) as [rep|y] eqn:R.
    - destruct (ask_sigs C strict clock answers name hs v1 (S n) e1 (k + length q)) as [[[[a b] c] d] w] eqn:J. injection E as _ _ _ _ ->. exact (IH _ _ _ _ _ _ _ _ J).
    - injection E as _ _ _ _ ->. destruct o as [u|[c|c|]| |]; discriminate.
  Qed.
  Lemma files_asked : forall names n e k ls qs, ask_files C strict clock answers fs ty names n e k = (ls, qs, Exit 0) ->
    looked k (all_fields ty fs names) ls qs.
  Proof.
    induction names as [|f names IH]; intros n e k ls qs E; cbn [ask_files] in E.
    - injection E as <- <-. constructor.
    - destruct (new_validatory strict ty (open_file (fs f))) as [v|x|u|] eqn:N; try discriminate E.
      destruct (ask_sigs C strict clock answers f (v_sigs v) v n e k) as [[[[ls1 qs1] n1] e1] x] eqn:A.
      destruct x as [x|]; [injection E as _ _ ->; destruct (sigs_no_exit _ _ _ _ _ _ _ _ _ _ A)|].
      destruct (ask_files C strict clock answers fs ty names n1 e1 (k + length qs1)) as [[ls2 qs2] y] eqn:B. injection E as <- <- ->.
      specialize (IH _ _ _ _ _ B). unfold all_fields. cbn [flat_map]. fold (all_fields ty fs names). rewrite <- (file_fields_sigs strict ty (fs f) v N).
      destruct (fs f) as [t|] eqn:F.
      + eapply sigs_asked; eauto. apply in_use_fresh. exact N.
      + rewrite (file_fields_sigs strict ty None v N) in *. cbn [file_fields ask_sigs map app] in *. injection A as <- <- _ _. cbn [length app] in *. rewrite Nat.add_0_r in IH. exact IH.
  Qed.
End Loops.

(** When the answers do not change it is the program of Tool.v. *)
Section Same.
  Variables (C : crypto) (strict : bool) (clock : nat -> Z) (answers : nat -> bytes -> outcome (bool * bytes)) (resolve : bytes -> outcome (bool * bytes)).
  Hypothesis A : forall k q, answers k q = resolve q.
  Lemma one_same now k h e v : fst (ask_one C strict now answers k h e v) = try_one C strict now resolve h e v.
  Proof.
    rewrite ask_try. unfold try_one. destruct (GetSignature C strict now h (new_signature, e) v) as [[v1 st] [u| | |]]; auto.
    unfold GetPublicKey. rewrite A. reflexivity.
  Qed.
  Lemma sigs_same name : forall hs v n e k, exists qs,
    ask_sigs C strict clock answers name hs v n e k =
    (let '(ls, n', e', x) := tool_sigs C strict clock resolve name hs v n e in (ls, qs, n', e', x)).
  Proof.
    induction hs as [|h hs IH]; intros v n e k; cbn [ask_sigs tool_sigs]; [exists []; reflexivity|].
    pose proof (one_same (clock n) k h e v) as O. destruct (ask_one C strict (clock n) answers k h e v) as [x q]. cbn [fst] in O. subst x.
    destruct (try_one C strict (clock n) resolve h e v) as [[[[v1 e1] g] p] o]. destruct (report_of p o) as [rep|y]; [|eexists; reflexivity].
    destruct (IH v1 (S n) e1 (k + length q)) as (qs & ->). destruct (tool_sigs C strict clock resolve name hs v1 (S n) e1) as [[[a b] c] d]. eexists. reflexivity.
  Qed.
  Lemma files_same fs ty : forall names n e k, exists qs,
    ask_files C strict clock answers fs ty names n e k =
    (let '(ls, x) := tool_files C strict clock resolve fs ty names n e in (ls, qs, x)).
  Proof.
    induction names as [|f names IH]; intros n e k; cbn [ask_files tool_files]; [exists []; reflexivity|].
    destruct (new_validatory strict ty (open_file (fs f))) as [v|x|u|]; [|exists []; reflexivity..].
    destruct (sigs_same f (v_sigs v) v n e k) as (qs & ->). destruct (tool_sigs C strict clock resolve f (v_sigs v) v n e) as [[[a b] c] [d|]]; [eexists; reflexivity|].
    destruct (IH b c (k + length qs)) as (qs' & ->). destruct (tool_files C strict clock resolve fs ty names b c) as [a' d']. eexists. reflexivity.
  Qed.
  Lemma main_same fs args : exists qs, ask_main C strict clock answers fs args = (let '(p, x) := tool_main C strict clock resolve fs args in (p, qs, x)).
  Proof.
    unfold ask_main, tool_main. destruct args as [|a0 args]; [exists []; reflexivity|]. destruct (getopt (a0 :: args)) as [es files].
    destruct (take_options es new_args) as [a|x]; [|exists []; reflexivity]. destruct files as [|f more]; [exists []; reflexivity|]. cbv zeta.
    destruct (a_validate a).
    - destruct (files_same fs (a_type a) (f :: more) 0 (a_errno a) 0) as (qs & ->). destruct (tool_files C strict clock resolve fs (a_type a) (f :: more) 0 (a_errno a)). eexists. reflexivity.
    - destruct (_ || _); [exists []; reflexivity|]. destruct (tool_sign C strict clock a (fs (a_keyfile a)) (fs f)). exists []. reflexivity.
  Qed.
End Same.

(** The whole program. *)
Lemma ask_exact C strict clock answers fs args ss files ls qs : command_line args ss files -> Forall usual ss ->
  ask_main C strict clock answers fs args = (P_lines ls, qs, Exit 0) ->
  exists ty, kind ss ty /\ looked_up C strict ty clock answers fs 0 (all_fields ty fs files) ls qs.
Proof.
  intros CL U M. destruct (take_settings ss U) as (a & T & ST). apply command_getopt in CL. unfold ask_main in M.
  destruct args as [|w r]; [discriminate M|]. rewrite CL, T in M. destruct files as [|f more]; [discriminate M|]. cbv zeta in M. destruct (a_validate a).
  - destruct (ask_files C strict clock answers fs (a_type a) (f :: more) 0 (a_errno a) 0) as [[ls' qs'] x] eqn:A. injection M as -> -> ->.
    exists (a_type a). split; [exact (st_type _ _ ST)|]. exact (files_asked _ _ _ _ _ _ _ _ _ _ _ _ A).
  - destruct (_ || _); [discriminate M|]. destruct (tool_sign C strict clock a (fs (a_keyfile a)) (fs f)) as [[|c t'] e']; discriminate M.
Qed.
(** Questions are asked for the signatures given, one each at most, however the program ends. *)
Definition reason C strict (clock : nat -> Z) t hs q : Prop := exists h n e0, In h hs /\ asks_for C strict t h (clock n) e0 q.
Lemma sigs_names C strict ty clock answers name t : forall hs v n e k ls qs n' e' x, in_use strict ty t v ->
  ask_sigs C strict clock answers name hs v n e k = (ls, qs, n', e', x) -> length qs <= length hs /\ forall q, In q qs -> reason C strict clock t hs q.
Proof.
  induction hs as [|h hs IH]; intros v n e k ls qs n' e' x U E; cbn [ask_sigs] in E.
  - injection E as _ <- _ _ _. split; [auto|intros q []].
  - pose proof (ask_try C strict (clock n) answers k h e v) as T. pose proof (ask_question C strict ty t (clock n) answers k h e v U) as Q.
    destruct (ask_one C strict (clock n) answers k h e v) as [[[[[v1 e1] g] p] o] qs0]. cbn [fst snd] in T, Q. symmetry in T.
    assert (Q0 : length qs0 <= 1 /\ forall q, In q qs0 -> asks_for C strict t h (clock n) e q).
    { destruct Q as [[-> _]|(q1 & -> & Q)]; [split; [auto|intros q []]|]. split; [auto|]. intros q [<-|[]]. exact Q. }
    destruct Q0 as [L0 Q0]. assert (QH : forall q, In q qs0 -> reason C strict clock t (h :: hs) q).
    { intros q I. exists h, n, e. split; [left; reflexivity|auto]. }
    destruct (report_of p o) as [rep|y]; [|injection E as _ <- _ _ _; split; [cbn [length]; lia|exact QH]].
    destruct (ask_sigs C strict clock answers name hs v1 (S n) e1 (k + length qs0)) as [[[[ls1 qs1] n1] x1] y] eqn:A. injection E as _ <- _ _ _.
    destruct (IH _ _ _ _ _ _ _ _ _ (try_in_use _ _ _ _ _ _ _ _ _ _ _ _ _ _ U T) A) as [L1 Q1]. rewrite app_length. cbn [length]. split; [lia|].
    intros q I. apply in_app_or in I as [I|I]; [auto|]. destruct (Q1 q I) as (h' & n2 & e2 & I' & W). exists h', n2, e2. split; [right; exact I'|exact W].
Qed.
Lemma files_names C strict ty clock answers fs : forall names n e k ls qs x, ask_files C strict clock answers fs ty names n e k = (ls, qs, x) ->
  length qs <= length (all_fields ty fs names) /\
  forall q, In q qs -> exists f t h n0 e0, In f names /\ fs f = Some t /\ In h (file_fields ty (Some t)) /\ asks_for C strict t h (clock n0) e0 q.
Proof.
  induction names as [|f names IH]; intros n e k ls qs x E; cbn [ask_files] in E.
  - injection E as _ <- _. split; [auto|intros q []].
  - destruct (new_validatory strict ty (open_file (fs f))) as [v|y|u|] eqn:N; [|injection E as _ <- _; split; [cbn [length]; lia|intros q []]..].
    destruct (ask_sigs C strict clock answers f (v_sigs v) v n e k) as [[[[ls1 qs1] n1] e1] y] eqn:A.
    assert (L1 : length qs1 <= length (file_fields ty (fs f)) /\
      forall q, In q qs1 -> exists f' t h n0 e0, In f' (f :: names) /\ fs f' = Some t /\ In h (file_fields ty (Some t)) /\ asks_for C strict t h (clock n0) e0 q).
    { rewrite (file_fields_sigs strict ty (fs f) v N) in A. destruct (fs f) as [t|] eqn:F.
      - destruct (sigs_names _ _ _ _ _ _ _ _ _ _ _ _ _ _ _ _ _ (in_use_fresh _ _ _ _ N) A) as [L1 Q1]. split; [exact L1|].
        intros q I. destruct (Q1 q I) as (h & n0 & e0 & I' & W). exists f, t, h, n0, e0. split; [left; reflexivity|auto].
      - cbn [file_fields ask_sigs] in A. injection A as _ <- _ _ _. split; [auto|intros q []]. }
    destruct L1 as [L1 Q1]. unfold all_fields. cbn [flat_map]. fold (all_fields ty fs names). rewrite app_length, map_length.
    destruct y as [y|]; [injection E as _ <- _; split; [lia|exact Q1]|].
    destruct (ask_files C strict clock answers fs ty names n1 e1 (k + length qs1)) as [[ls2 qs2] z] eqn:B. injection E as _ <- _.
    destruct (IH _ _ _ _ _ _ B) as [L2 Q2]. rewrite app_length. split; [lia|]. intros q I. apply in_app_or in I as [I|I]; [auto|].
    destruct (Q2 q I) as (f' & t & h & n0 & e0 & I' & W). exists f', t, h, n0, e0. split; [right; exact I'|exact W].
Qed.
Lemma ask_names C strict clock answers fs args ss files p qs x : command_line args ss files -> Forall usual ss ->
  ask_main C strict clock answers fs args = (p, qs, x) ->
  exists ty, kind ss ty /\ length qs <= length (all_fields ty fs files) /\
  forall q, In q qs -> exists f t h n e0, In f files /\ fs f = Some t /\ In h (file_fields ty (Some t)) /\ asks_for C strict t h (clock n) e0 q.
Proof.
  intros CL U M. destruct (take_settings ss U) as (a & T & ST). apply command_getopt in CL. unfold ask_main in M. exists (a_type a). split; [exact (st_type _ _ ST)|].
  assert (NO : qs = [] -> length qs <= length (all_fields (a_type a) fs files) /\
    forall q, In q qs -> exists f t h n e0, In f files /\ fs f = Some t /\ In h (file_fields (a_type a) (Some t)) /\ asks_for C strict t h (clock n) e0 q).
  { intros ->. split; [cbn [length]; lia|intros q []]. }
  destruct args as [|w r]; [apply NO; congruence|]. rewrite CL, T in M. destruct files as [|f more]; [apply NO; congruence|]. cbv zeta in M. destruct (a_validate a).
  - destruct (ask_files C strict clock answers fs (a_type a) (f :: more) 0 (a_errno a) 0) as [[ls' qs'] y] eqn:A. injection M as _ -> _.
    exact (files_names _ _ _ _ _ _ _ _ _ _ _ _ _ A).
  - destruct (_ || _); [apply NO; congruence|]. destruct (tool_sign C strict clock a (fs (a_keyfile a)) (fs f)). apply NO. congruence.
Qed.
Lemma ask_count C strict clock answers fs args ss files p qs x : command_line args ss files -> Forall usual ss ->
  ask_main C strict clock answers fs args = (p, qs, x) ->
  exists ty, kind ss ty /\ length qs <= length (all_fields ty fs files).
Proof. intros CL U M. destruct (ask_names _ _ _ _ _ _ _ _ _ _ _ CL U M) as (ty & K & L & _). eauto. Qed.
