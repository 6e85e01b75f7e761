(** C93: what is said of lists. *)
From Verif Require Import Bytes Outcome Stream Tokenizer ErrorText SpecText SpecTags SpecSig SpecError
  BytesFacts StreamFacts TokenizerFacts QPFacts ListFacts ListWide HeaderFacts ErrorFacts ShownFacts.

(** ** Lists, byte by byte: in front of an item ([B]), behind a CR or a CRLF there, in an item ([I]), behind a CR there *)
Inductive at_list := B | BC | BL | I_ | IC.
Definition step (q : at_list) (c : ascii) : option at_list :=
  match q with
  | B => if is_wsp c then Some B else if c =?c CR then Some BC else if c =?c COLON then None else Some I_
  | BC => if c =?c LF then Some BL else None
  | BL => if is_wsp c then Some B else if c =?c CR then Some IC else if c =?c COLON then Some B else Some I_
  | I_ => if c =?c CR then Some IC else if c =?c COLON then Some B else Some I_
  | IC => if c =?c LF then Some I_ else None
  end.
Fixpoint run (q : at_list) (t : bytes) : option at_list :=
  match t with
  | [] => Some q
  | c :: t => match step q c with Some q' => run q' t | None => None end
  end.
Definition done (o : option at_list) : Prop := match o with Some B | Some BL | Some I_ => True | _ => False end.

Lemma run_app q a b : run q (a ++ b) = match run q a with Some q' => run q' b | None => None end.
Proof. revert q. induction a as [|c a IH]; intros q; cbn [run app]; auto. destruct (step q c); auto. Qed.
Lemma run_then q a q' b : run q a = Some q' -> run q (a ++ b) = run q' b.
Proof. intros E. rewrite run_app, E. reflexivity. Qed.
Lemma step_wsp q c : WSP c -> q = B \/ q = BL -> step q c = Some B.
Proof. intros W [->| ->]; cbn; rewrite (WSP_b c W); reflexivity. Qed.
Lemma step_item c : c <> CR -> c <> COLON -> step I_ c = Some I_.
Proof. intros X Y. cbn. rewrite (ceqb_false _ _ X), (ceqb_false _ _ Y). reflexivity. Qed.
Lemma wsp_plain c : WSP c -> c <> CR /\ c <> COLON.
Proof. intros [->| ->]; split; discriminate. Qed.
Lemma run_wsps_B u : Forall WSP u -> run B u = Some B.
Proof. induction 1 as [|c u W U IH]; auto. cbn [run]. rewrite (step_wsp B c W) by auto. exact IH. Qed.
Lemma run_wsps_I u : Forall WSP u -> run I_ u = Some I_.
Proof. induction 1 as [|c u W U IH]; auto. cbn [run]. destruct (wsp_plain c W). rewrite step_item by auto. exact IH. Qed.
Lemma run_ws_B w : ws w -> run B w = Some B.
Proof.
  induction 1 as [|c w W F IH|c w W F IH]; auto.
  - cbn [run]. rewrite (step_wsp B c W) by auto. exact IH.
  - change (run B (CR :: LF :: c :: w)) with (run BL (c :: w)). cbn [run]. rewrite (step_wsp BL c W) by auto. exact IH.
Qed.
Lemma run_ws_I w : ws w -> run I_ w = Some I_.
Proof.
  induction 1 as [|c w W F IH|c w W F IH]; auto.
  - cbn [run]. destruct (wsp_plain c W). rewrite step_item by auto. exact IH.
  - change (run I_ (CR :: LF :: c :: w)) with (run I_ (c :: w)). cbn [run]. destruct (wsp_plain c W). rewrite step_item by auto. exact IH.
Qed.
Lemma run_stray_B u : Forall WSP u -> run B (u ++ CRLF) = Some BL.
Proof. intros U. rewrite (run_then _ _ _ _ (run_wsps_B u U)). reflexivity. Qed.
Lemma run_stray_I u : Forall WSP u -> run I_ (u ++ CRLF) = Some I_.
Proof. intros U. rewrite (run_then _ _ _ _ (run_wsps_I u U)). reflexivity. Qed.
(** Behind a CRLF that is no fold. *)
Lemma run_BL c r : ~ WSP c -> run BL (c :: r) = run I_ (c :: r).
Proof. intros N. cbn [run step]. rewrite (not_WSP_b c N). reflexivity. Qed.
Lemma chunk_ws w r' : (Forall WSP w /\ stops r' \/ exists u c b, w = u ++ CRLF ++ c :: b /\ Forall WSP u /\ WSP c /\ Forall WSP b) -> ws w.
Proof.
  intros [[W _]|(u & c & b & -> & U & C & X)]; [apply ws_wsps, W|]. apply ws_app; [apply ws_wsps, U|]. apply ws_fold; auto. apply ws_wsps, X.
Qed.

(** ** What the functions say *)
Definition lone_cr (q : at_list) (r : bytes) (k : nat) (m : bytes) : Prop :=
  exists a, (run q (a ++ [CR]) = Some BC \/ run q (a ++ [CR]) = Some IC) /\
  ((r = a ++ [CR] /\ m = str "CR without matching LF, at the END") \/
   exists c u, r = a ++ CR :: c :: u /\ c <> LF /\ byte_at "CR without matching LF, 0x" " at position " m c (k + S (length a))).
Lemma lone_cr_app q q' a r k m : run q a = Some q' -> lone_cr q' r (k + length a) m -> lone_cr q (a ++ r) k m.
Proof.
  intros E (b & R & T). exists (a ++ b). rewrite <- app_assoc, (run_then _ _ _ _ E). split; [exact R|].
  destruct T as [[-> M]|(c & u & -> & N & M)].
  - left. auto.
  - right. exists c, u. rewrite <- app_assoc. split; [reflexivity|]. split; [exact N|]. rewrite app_length.
    replace (k + S (length a + length b)) with (k + length a + S (length b)) by lia. exact M.
Qed.
Lemma fws_lone q s p r : (q = B \/ q = I_) -> St s p r -> l_fws r = None -> exists m, read_fws_says s = Says m /\ lone_cr q r (length p) m.
Proof.
  intros Q H E. destruct (fws_Says s p r H E) as (m & w & R & W & T). exists m. split; [exact R|]. exists w. split.
  - destruct Q as [->| ->]; [left; rewrite (run_then _ _ _ _ (run_wsps_B w W))|right; rewrite (run_then _ _ _ _ (run_wsps_I w W))]; reflexivity.
  - destruct T as [T|(c & u & A & N & M)]; [left; exact T|right]. exists c, u. split; [exact A|]. split; [exact N|].
    replace (length p + S (length w)) with (length p + length w + 1) by lia. exact M.
Qed.

Lemma skip_says f : forall s p r, St s p r -> length r < f ->
  match skip_fws_says f s with
  | Fine s' => exists w r', r = w ++ r' /\ run B w = Some B /\ St s' (rev w ++ p) r' /\ l_fws r' = Some ([], r')
  | Says m => lone_cr B r (length p) m
  | Endless => False
  end.
Proof.
  induction f as [|f IH]; intros s p r H L; [lia|]. cbn [skip_fws_says].
  destruct (l_fws r) as [[w r']|] eqn:E.
  2:{ destruct (fws_lone B s p r ltac:(auto) H E) as (m & -> & M). exact M. }
  destruct (fws_Fine _ _ _ _ _ H E) as (s1 & -> & H1). cbn [sbind]. pose proof (l_fws_cases r) as K. rewrite E in K. destruct w as [|y w].
  { destruct K as [-> _]. exists [], r. auto. }
  destruct K as (A & _ & CH). pose proof (run_ws_B _ (chunk_ws _ _ CH)) as RW. rewrite A in L. rewrite app_length in L. cbn [length] in L.
  specialize (IH s1 _ r' H1 ltac:(lia)). destruct (skip_fws_says f s1) as [s'|m|]; auto.
  - destruct IH as (w2 & r2 & -> & R2 & H2 & F2). exists ((y :: w) ++ w2), r2. split; [rewrite A, <- app_assoc; reflexivity|].
    split; [rewrite (run_then _ _ _ _ RW); exact R2|]. split; [|exact F2]. rewrite rev_app_distr, <- app_assoc. exact H2.
  - rewrite A. apply (lone_cr_app _ _ _ _ _ _ RW). rewrite app_length, rev_length in IH. replace (length p + length (y :: w)) with (length (y :: w) + length p) by lia. exact IH.
Qed.

Lemma stray_says u : forall f s p r value vbuf, St s p (u ++ CRLF ++ r) -> Forall WSP u -> no_wsp r -> length (u ++ CRLF ++ r) < f ->
  exists f' s', vl_value_says f s value vbuf = vl_value_says f' s' (value ++ vbuf ++ u ++ CRLF) [] /\ St s' (rev (u ++ CRLF) ++ p) r /\ length r < f' /\ f' < f.
Proof.
  induction u as [|c u IH]; intros f s p r value vbuf H U N L; (destruct f as [|f]; [lia|]).
  - cbn [app] in *. destruct f as [|f]; [unfold CRLF in L; cbn [app length] in L; lia|].
    pose proof (l_fws_stray [] r (Forall_nil _) N) as ES. cbn [app] in ES.
    destruct (fws_Fine _ _ _ _ _ H ES) as (s1 & R & H1). cbn [rev app] in H1. cbn [vl_value_says]. rewrite R. cbn [sbind]. unfold CRLF in H1, L. cbn [app length] in H1, L.
    peek_at H1. change (CR =?c COLON) with false. cbv iota. get_at H1. cbn [as_char].
    destruct (fws_Fine _ _ _ _ _ H0 (l_fws_stops (LF :: r) ltac:(split; [reflexivity|discriminate]))) as (s2 & R2 & H2).
    cbn [rev app] in H2. rewrite R2. cbn [sbind]. peek_at H2. change (LF =?c COLON) with false. cbv iota.
    get_at H2. cbn [as_char app]. exists f, s3. split; [rewrite <- !app_assoc; reflexivity|]. split; [exact H3|]. lia.
  - inversion U as [|? ? W U']; subst. pose proof (l_fws_stray (c :: u) r U N) as ES.
    destruct (fws_Fine _ _ _ _ _ H ES) as (s1 & R & H1). cbn [rev app] in H1. cbn [vl_value_says]. rewrite R. cbn [sbind]. peek_at H1.
    assert (NC : (c =?c COLON) = false) by (destruct W as [->| ->]; reflexivity). rewrite NC. get_at H1. cbn [as_char]. cbn [app length] in L.
    destruct (IH f s0 _ r (value ++ vbuf ++ [c]) [] H0 U' N ltac:(lia)) as (f' & s2 & EV & H2 & L1 & L2).
    exists f', s2. split; [rewrite EV; rewrite <- !app_assoc; reflexivity|]. split; [|lia]. cbn [app rev]. rewrite <- app_assoc. exact H2.
Qed.

(** The end of an item. *)
Definition item_end (q : at_list) (a r' : bytes) : Prop :=
  match r' with [] => done (run q a) | c :: _ => c = COLON /\ run q (a ++ [COLON]) = Some B end.
Definition item_says (q : at_list) (p r : bytes) (o : says (bytes * istream)) : Prop :=
  match o with
  | Fine (v, s') => v <> [] /\ exists a r', r = a ++ r' /\ item_end q a r' /\ St s' (rev a ++ p) r'
  | Says m => lone_cr q r (length p) m
  | Endless => False
  end.
Lemma item_end_app q q' a b r' : run q a = Some q' -> item_end q' b r' -> item_end q (a ++ b) r'.
Proof.
  intros E. unfold item_end. destruct r' as [|c r'].
  - rewrite (run_then _ _ _ _ E). auto.
  - intros [-> X]. split; auto. rewrite <- app_assoc, (run_then _ _ _ _ E). exact X.
Qed.
Lemma item_says_app q q' a p r o : run q a = Some q' -> item_says q' (rev a ++ p) r o -> item_says q p (a ++ r) o.
Proof.
  intros E. unfold item_says. destruct o as [[v s']|m|]; auto.
  - intros (N & b & r' & -> & IE & H). split; auto. exists (a ++ b), r'. split; [rewrite <- app_assoc; reflexivity|].
    split; [apply (item_end_app _ _ _ _ _ E IE)|]. rewrite rev_app_distr, <- app_assoc. exact H.
  - intros M. apply (lone_cr_app _ _ _ _ _ _ E). rewrite app_length, rev_length in M. replace (length p + length a) with (length a + length p) by lia. exact M.
Qed.
(** Behind a CRLF that is no fold one is in an item. *)
Lemma item_says_BL p r o : no_wsp r -> item_says I_ p r o -> item_says BL p r o.
Proof.
  intros N. assert (X : forall c a, ~ WSP c -> run BL (c :: a) = run I_ (c :: a)) by (intros; apply run_BL; auto).
  unfold item_says. destruct o as [[v s']|m|]; auto.
  - intros (NV & a & r' & -> & IE & H). split; auto. exists a, r'. split; auto. split; auto. unfold item_end in *. destruct r' as [|c r'].
    + destruct a as [|d a]; [exact I|]. rewrite X; [exact IE|]. exact N.
    + destruct IE as [-> IE]. split; auto. destruct a as [|d a]; [reflexivity|]. cbn [app] in *. rewrite X; [exact IE|]. exact N.
  - intros (a & R & T). exists a. split; [|exact T]. destruct a as [|d a]; [right; reflexivity|]. cbn [app] in *. rewrite X; [exact R|].
    destruct T as [[-> _]|(c & u & -> & _)]; exact N.
Qed.

Lemma value_says f : forall s p r value vbuf, value <> [] -> St s p r -> length r < f -> item_says I_ p r (vl_value_says f s value vbuf).
Proof.
  induction f as [f IH] using lt_wf_ind. intros s p r value vbuf V H L. destruct f as [|f]; [lia|].
  destruct (l_fws r) as [[w r']|] eqn:E.
  2:{ cbn [vl_value_says]. destruct (fws_lone I_ s p r ltac:(auto) H E) as (m & -> & M). exact M. }
  pose proof (l_fws_cases r) as K. rewrite E in K. destruct w as [|y w].
  - destruct K as [-> [ST|(u & r2 & -> & U & N)]].
    + cbn [vl_value_says]. destruct (fws_Fine _ _ _ _ _ H E) as (s1 & -> & H1). cbn [sbind rev app] in *. destruct r as [|c r].
      { peek_at H1. split; auto. exists [], []. split; auto. }
      peek_at H1. destruct ST as [NW NC]. destruct (c =?c COLON) eqn:C.
      { apply ceqb_eq in C. subst c. split; auto. exists [], (COLON :: r). split; auto. split; [split; reflexivity|exact H1]. }
      apply ceqb_neq in C. get_at H1. cbn [as_char length] in *. change (c :: r) with ([c] ++ r). apply (item_says_app I_ I_ [c]).
      * cbn [run]. rewrite step_item by auto. reflexivity.
      * apply (IH f ltac:(lia)); [|exact H0|lia]. destruct value; [congruence|discriminate].
    + destruct (stray_says u (S f) s p r2 value vbuf H U N L) as (f' & s' & -> & H' & L1 & L2).
      rewrite app_assoc. apply (item_says_app I_ I_); [apply run_stray_I, U|]. apply (IH f' L2); auto. destruct value; [congruence|discriminate].
  - destruct K as (A & _ & CH). pose proof (run_ws_I _ (chunk_ws _ _ CH)) as RW.
    cbn [vl_value_says]. destruct (fws_Fine _ _ _ _ _ H E) as (s1 & -> & H1). cbn [sbind]. rewrite A in L |- *. rewrite app_length in L. cbn [length] in L.
    apply (item_says_app I_ I_ _ _ _ _ RW). apply (IH f ltac:(lia)); auto. lia.
Qed.
(** Where an item begins. *)
Lemma first_says f s p r : l_fws r = Some ([], r) -> r <> [] -> St s p r -> length r < f ->
  (exists u s', r = COLON :: u /\ vl_value_says f s [] [] = Fine ([], s') /\ St s' p r) \/ item_says B p r (vl_value_says f s [] []).
Proof.
  intros E NR H L. pose proof (l_fws_cases r) as K. rewrite E in K. destruct K as [_ [ST|(u & r2 & -> & U & N)]].
  - destruct f as [|f]; [lia|]. cbn [vl_value_says]. destruct (fws_Fine _ _ _ _ _ H E) as (s1 & -> & H1). cbn [sbind rev app] in *.
    destruct r as [|c r]; [congruence|]. peek_at H1. destruct ST as [NW NC]. destruct (c =?c COLON) eqn:C.
    { apply ceqb_eq in C. subst c. left. eexists _, _. split; [reflexivity|]. split; [reflexivity|exact H1]. }
    right. get_at H1. cbn [as_char length] in *. change (c :: r) with ([c] ++ r). apply (item_says_app B I_ [c]).
    + cbn [run step]. rewrite NW, (ceqb_false _ _ NC), C. reflexivity.
    + apply value_says; [discriminate|exact H0|lia].
  - right. destruct (stray_says u f s p r2 [] [] H U N L) as (f' & s' & -> & H' & L1 & L2).
    rewrite app_assoc. apply (item_says_app B BL); [apply run_stray_B, U|]. apply item_says_BL; [exact N|].
    apply value_says; auto. destruct u; discriminate.
Qed.

Definition list_says (q : at_list) (r : bytes) (k : nat) (m : bytes) : Prop :=
  (exists a u, r = a ++ COLON :: u /\ run q a = Some B /\ at_place "Invalid list value (empty), expecting value at position " m (k + length a)) \/ lone_cr q r k m.
Lemma list_says_app q q' a r k m : run q a = Some q' -> list_says q' r (k + length a) m -> list_says q (a ++ r) k m.
Proof.
  intros E [(b & u & -> & R & M)|M]; [left|right; apply (lone_cr_app _ _ _ _ _ _ E M)]. exists (a ++ b), u.
  split; [rewrite <- app_assoc; reflexivity|]. split; [rewrite (run_then _ _ _ _ E); exact R|]. rewrite app_length, Nat.add_assoc. exact M.
Qed.
Lemma loop_says f : forall s p r values, St s p r -> length r < f ->
  match vl_loop_says f s values with
  | Fine _ => done (run B r)
  | Says m => list_says B r (length p) m
  | Endless => False
  end.
Proof.
  induction f as [|f IH]; intros s p r values H L; [lia|]. cbn [vl_loop_says].
  pose proof (skip_says (fuel_of s) s p r H ltac:(rewrite (St_fuel _ _ _ H); lia)) as SK.
  destruct (skip_fws_says (fuel_of s) s) as [s1|m|]; [|right; exact SK|exact SK].
  destruct SK as (w & r1 & -> & RW & H1 & F1). cbn [sbind]. destruct r1 as [|c r1].
  { peek_at H1. rewrite app_nil_r, RW. exact I. }
  peek_at H1. rewrite (St_fuel _ _ _ H1).
  destruct (first_says (S (length (c :: r1))) s1 _ _ F1 ltac:(discriminate) H1 ltac:(lia)) as [(u & s' & E & -> & H')|IS].
  { cbn [sbind]. injection E as -> ->. left. exists w, u. split; [reflexivity|]. split; [exact RW|].
    pose proof (place_at "Invalid list value (empty), expecting value at position " _ _ _ _ H') as M. rewrite app_length, rev_length in M.
    replace (length p + length w) with (length w + length p) by lia. exact M. }
  destruct (vl_value_says (S (length (c :: r1))) s1 [] []) as [[v s3]|m|] eqn:EV; cbn [sbind item_says] in *.
  - destruct IS as (NV & a & r' & EA & IE & H3). rewrite EA in *. destruct v as [|v0 v]; [congruence|]. destruct r' as [|d r'].
    + get_at H3. cbn [item_end] in IE. rewrite (run_then _ _ _ _ RW), app_nil_r. exact IE.
    + destruct IE as [-> RA]. get_at H3. specialize (IH s0 _ r' (values ++ [v0 :: v]) H0).
      assert (L' : length r' < f) by (repeat rewrite app_length in L; cbn [length] in L; lia). specialize (IH L').
      replace (w ++ a ++ COLON :: r') with ((w ++ a ++ [COLON]) ++ r') by (rewrite <- !app_assoc; reflexivity).
      assert (RB : run B (w ++ a ++ [COLON]) = Some B) by (rewrite (run_then _ _ _ _ RW); exact RA).
      unfold bytes in *. destruct (vl_loop_says f s0 (values ++ [v0 :: v])) as [vs|m|]; [rewrite (run_then _ _ _ _ RB); exact IH| |exact IH].
      apply (list_says_app _ _ _ _ _ _ RB). repeat (rewrite app_length; cbn [length]). cbn [length] in IH. rewrite !app_length, !rev_length in IH.
      replace (length p + (length w + (length a + 1))) with (S (length a + (length w + length p))) by lia. exact IH.
  - apply (list_says_app _ _ _ _ _ _ RW). right. rewrite app_length, rev_length in IS. replace (length p + length w) with (length w + length p) by lia. exact IS.
  - exact IS.
Qed.

(** ** Good lists *)
Lemma stuck_not_done t k m : list_says B t k m -> ~ done (run B t).
Proof.
  intros [(a & u & -> & R & _)|(a & R & T)].
  - rewrite (run_then _ _ _ _ R). cbn. auto.
  - destruct T as [[-> _]|(c & u & -> & N & _)].
    + destruct R as [-> | ->]; cbn; auto.
    + replace (a ++ CR :: c :: u) with ((a ++ [CR]) ++ c :: u) by (rewrite <- app_assoc; reflexivity).
      destruct R as [R|R]; rewrite (run_then _ _ _ _ R); cbn [run step]; rewrite (ceqb_false _ _ N); cbn; auto.
Qed.
Theorem list_ok_run t : list_ok t <-> done (run B t).
Proof.
  pose proof (loop_says (fuel_of (open_str t)) _ _ _ [] (St_open t) ltac:(rewrite (St_fuel _ _ _ (St_open t)); lia)) as X.
  fold (ValueList_says t) in X. pose proof (list_same t) as S_. split.
  - intros [vs W]. apply ValueList_wide in W. rewrite W in S_. destruct (ValueList_says t); cbn in S_; [exact X|discriminate|discriminate].
  - intros D. destruct (ValueList_says t) as [vs|m|]; cbn in S_; [|apply stuck_not_done in X; contradiction|contradiction].
    exists vs. apply ValueList_wide. symmetry. exact S_.
Qed.
Lemma go_on_run t q : run B t = Some q -> can_go_on list_ok t.
Proof.
  intros R. destruct q; [exists []|exists [LF]|exists []|exists []|exists [LF]]; apply list_ok_run; rewrite (run_then _ _ _ _ R); exact I.
Qed.
Lemma breaks_run t q c : run B t = Some q -> step q c = None -> breaks list_ok t c.
Proof.
  intros R N. split; [apply (go_on_run _ _ R)|]. intros [x X]. apply list_ok_run in X. rewrite <- app_assoc, (run_then _ _ _ _ R) in X. cbn [run app] in X.
  rewrite N in X. exact X.
Qed.
Theorem list_says_spec t m : ValueList_says t = Says m -> list_say t m.
Proof.
  intros E. pose proof (loop_says (fuel_of (open_str t)) _ _ _ [] (St_open t) ltac:(rewrite (St_fuel _ _ _ (St_open t)); lia)) as X.
  fold (ValueList_says t) in X. rewrite E in X. destruct X as [(a & u & A & R & M)|(a & R & T)].
  - apply (ls_empty _ _ a u A); [apply (breaks_run _ _ _ R); reflexivity| |exact M].
    destruct a as [|x a]; [exact I|]. assert (NE : x :: a <> []) by discriminate. destruct (exists_last NE) as (a' & z & EA). rewrite EA in *. clear EA NE x a.
    apply last_ok_snoc. intros ->. rewrite run_app in R. destruct (run B a') as [[]|]; discriminate R.
  - apply ls_cr. destruct T as [[A M]|(c & u & A & N & M)].
    + apply (cs_end _ _ _ a A); [|exact M]. rewrite A. split.
      * rewrite list_ok_run. destruct R as [-> | ->]; cbn; auto.
      * destruct R as [R|R]; apply (go_on_run _ _ R).
    + apply (cs_byte _ _ _ a c u A N); [|exact M]. destruct R as [R|R]; apply (breaks_run _ _ _ R); cbn [step]; rewrite (ceqb_false _ _ N); reflexivity.
Qed.

(** ** One thing is said *)
Lemma breaks_place ok t p c u p' c' u' : t = p ++ c :: u -> t = p' ++ c' :: u' -> breaks ok p c -> breaks ok p' c' -> p = p' /\ c = c' /\ u = u'.
Proof.
  intros -> E [G B] [G' B']. apply app_eq_app in E as (k & [[-> E]|[-> E]]); destruct k as [|x k]; rewrite ?app_nil_r in *; try (injection E as <- <-; auto; fail).
  - injection E as <- ->. exfalso. apply B'. destruct G as [y Y]. exists (k ++ y). rewrite <- !app_assoc in *. exact Y.
  - injection E as -> ->. exfalso. apply B. destruct G' as [y Y]. exists (k ++ y). rewrite <- !app_assoc in *. exact Y.
Qed.
Lemma breaks_no ok t p c u : t = p ++ c :: u -> breaks ok p c -> ~ can_go_on ok t.
Proof. intros -> [_ B] [y Y]. apply B. exists (u ++ y). rewrite <- !app_assoc in *. exact Y. Qed.
Lemma breaks_bad ok t p c u : t = p ++ c :: u -> breaks ok p c -> ~ ok t.
Proof. intros E B O. apply (breaks_no ok t p c u E B). exists []. rewrite app_nil_r. exact O. Qed.
Lemma cr_say_fun ok t m m' : cr_say ok t m -> cr_say ok t m' -> m = m'.
Proof.
  intros [p c u E N B M|p E U M] [p' c' u' E' N' B' M'|p' E' U' M'].
  - destruct (breaks_place ok t (p ++ [CR]) c u (p' ++ [CR]) c' u') as (P & -> & _); try (rewrite <- app_assoc; assumption); auto.
    apply app_inj_tail in P as [-> _]. eapply byte_at_fun; eauto.
  - exfalso. apply (breaks_no ok t (p ++ [CR]) c u); [rewrite <- app_assoc; exact E|exact B|apply U'].
  - exfalso. apply (breaks_no ok t (p' ++ [CR]) c' u'); [rewrite <- app_assoc; exact E'|exact B'|apply U].
  - congruence.
Qed.
Lemma cr_say_bad ok t m : cr_say ok t m -> ~ ok t.
Proof.
  intros [p c u E N B M|p E U M]; [|apply U]. eapply breaks_bad; [|exact B]. rewrite <- app_assoc. exact E.
Qed.
Lemma list_say_fun t m m' : list_say t m -> list_say t m' -> m = m'.
Proof.
  assert (X : forall p u, t = p ++ COLON :: u -> breaks list_ok p COLON -> last_ok (fun c => c <> CR) p -> ~ cr_say list_ok t m /\ ~ cr_say list_ok t m').
  { intros p u E B L. assert (Y : forall m, ~ cr_say list_ok t m).
    { clear m m'. intros m [p' c' u' E' N' B' M'|p' E' U' M'].
      - destruct (breaks_place list_ok t p COLON u (p' ++ [CR]) c' u') as (-> & _); auto; [rewrite <- app_assoc; exact E'|]. apply last_ok_snoc in L. congruence.
      - apply (breaks_no list_ok t p COLON u E B). apply U'. }
    split; apply Y. }
  intros [p u E B L M|C] [p' u' E' B' L' M'|C'].
  - destruct (breaks_place list_ok t _ _ _ _ _ _ E E' B B') as (-> & _). eapply at_place_fun; eauto.
  - destruct (X _ _ E B L) as [_ N]. contradiction.
  - destruct (X _ _ E' B' L') as [N _]. contradiction.
  - eapply cr_say_fun; eauto.
Qed.
Lemma list_say_bad t m : list_say t m -> ~ list_ok t.
Proof. intros [p u E B L M|C]; [eapply breaks_bad; eauto|eapply cr_say_bad; eauto]. Qed.
Theorem list_says_exact t m : ValueList_says t = Says m <-> list_say t m.
Proof.
  split; [apply list_says_spec|]. intros L. pose proof (list_say_bad _ _ L) as N.
  pose proof (list_same t) as S_. destruct (ValueList_says t) as [vs|m'|] eqn:E; cbn in S_.
  - exfalso. apply N. exists vs. apply ValueList_wide. symmetry. exact S_.
  - f_equal. apply list_says_spec in E. eapply list_say_fun; eauto.
  - exfalso. pose proof (loop_says (fuel_of (open_str t)) _ _ _ [] (St_open t) ltac:(rewrite (St_fuel _ _ _ (St_open t)); lia)) as X. fold (ValueList_says t) in X. rewrite E in X. exact X.
Qed.
