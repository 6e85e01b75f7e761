(** The exact condition for a signature to be accepted (for C73). *)
From Verif Require Import Bytes Outcome Stream Tokenizer Base64 TagList MailParser Canonicalization Util Crypto Signature
  PublicKey Validatory BytesFacts StreamFacts SpecText SpecMail SpecCanon SpecTags SpecVerify SpecSig SpecKey SpecParse SpecOptions SpecTool SpecDns Resolver SpecPass
  QPFacts ListFacts ListExact ListWide MailFacts BodyFacts BodyProps HeaderFacts HeaderProps SelectFacts TagListFacts SigFacts SigProps
  KeyFacts VerifyFacts TagPosition VerifyProps KeyExact ResultClass SigExact AddressClean Tool ToolFacts ToolMain ResolverFacts VerifyExamples Examples.

(** ** The fields of a message are unique *)
Lemma upto_lf x y r q : ~ In LF x -> ~ In LF y -> x ++ LF :: r = y ++ LF :: q -> x = y /\ r = q.
Proof.
  revert y. induction x as [|c x IH]; intros [|d y] NX NY E; cbn [app] in E.
  - injection E as ->. auto.
  - injection E as <- _. destruct NY. left. auto.
  - injection E as -> _. destruct NX. left. auto.
  - injection E as -> E. destruct (IH y) as [-> ->]; auto; intros K; [apply NX|apply NY]; right; auto.
Qed.
Lemma end_parts l e : line_end l e -> ~ In LF l -> exists x, l ++ e = x ++ [LF] /\ ~ In LF x /\
  ((x = l /\ e = [LF] /\ last_ok (fun c => c <> CR) l) \/ (x = l ++ [CR] /\ e = CRLF)).
Proof.
  intros [k|k LO] N.
  - exists (k ++ [CR]). split; [rewrite <- app_assoc; reflexivity|]. split; [|right; auto].
    intros I. apply in_app_or in I as [I|[I|[]]]; auto. discriminate.
  - exists k. split; [reflexivity|]. split; [exact N|]. left. auto.
Qed.
Lemma last_cr l : last_ok (fun c => c <> CR) (l ++ [CR]) -> False.
Proof. unfold last_ok. rewrite rev_app_distr. cbn. auto. Qed.
Lemma line_unique l e r l' e' r' : ~ In LF l -> ~ In LF l' -> line_end l e -> line_end l' e' ->
  l ++ e ++ r = l' ++ e' ++ r' -> l = l' /\ e = e' /\ r = r'.
Proof.
  intros N N' L L' E. destruct (end_parts _ _ L N) as (x & EX & NX & K). destruct (end_parts _ _ L' N') as (y & EY & NY & K').
  rewrite !app_assoc, EX, EY, <- !app_assoc in E. cbn [app] in E. apply upto_lf in E as [-> ->]; auto.
  destruct K as [(-> & -> & LO)|[-> ->]], K' as [(EQ & -> & LO')|[EQ ->]]; subst; auto.
  - destruct (last_cr _ LO).
  - destruct (last_cr _ LO').
  - apply app_inj_tail in EQ as [-> _]. auto.
Qed.
Definition after_header (rest : bytes) : Prop := (exists e body, line_end [] e /\ rest = e ++ body) \/ ~ In LF rest.
Lemma block_unique ls h rest ls' h' rest' : header_block ls h -> header_block ls' h' -> after_header rest -> after_header rest' ->
  h ++ rest = h' ++ rest' -> ls = ls' /\ rest = rest'.
Proof.
  assert (X : forall l e t rest rest', l <> [] -> ~ In LF l -> line_end l e -> after_header rest' -> l ++ e ++ t ++ rest = rest' -> False).
  { intros l e t r r' NE NL LE [(e' & body & LE' & ->)|NL'] E.
    - apply (line_unique l e (t ++ r) [] e' body NL (fun K => K) LE LE') in E as [-> _]. congruence.
    - apply NL'. rewrite <- E. apply in_or_app. right. apply in_or_app. left. inversion LE; [right; left|left]; reflexivity. }
  intros H. revert ls' h' . induction H as [|l e ls t NE NL LE H IH]; intros ls' h' H' A A' E.
  - destruct H' as [|l e ls t NE NL LE H']; [cbn [app] in E; auto|]. exfalso. rewrite <- !app_assoc in E. symmetry in E. exact (X l e t rest' rest NE NL LE A E).
  - destruct H' as [|l' e' ls' t' NE' NL' LE' H']; rewrite <- !app_assoc in E.
    + exfalso. exact (X l e t rest rest' NE NL LE A' E).
    + apply line_unique in E as (-> & _ & E); auto. destruct (IH ls' t' H' A A' E) as [-> ->]. auto.
Qed.
Lemma last_unique r l l' : last_line r l -> last_line r l' -> l = l'.
Proof.
  intros [_ [->|[-> LO]]] [_ [E|[E LO']]].
  - apply app_inj_tail in E as [-> _]. auto.
  - subst. destruct (last_cr _ LO').
  - subst. destruct (last_cr _ LO).
  - congruence.
Qed.
Lemma groups_unique gs : forall gs', Forall field_lines gs -> Forall field_lines gs' ->
  match gs with [] => True | _ :: r => Forall starts_field r end -> match gs' with [] => True | _ :: r => Forall starts_field r end ->
  concat gs = concat gs' -> gs = gs'.
Proof.
  assert (X : forall x y r r', Forall continuation x -> Forall continuation y ->
    Forall starts_field r -> Forall starts_field r' -> x ++ concat r = y ++ concat r' -> x = y /\ concat r = concat r').
  { induction x as [|a x IH]; intros y r r' FX FY SR SR' E.
    - destruct y as [|b y]; [auto|]. exfalso. destruct r as [|g r]; [discriminate|]. inversion SR as [|? ? S0 _]; subst.
      destruct g as [|c g]; [destruct S0|]. cbn in E. injection E as -> _. inversion FY; subst. contradiction.
    - destruct y as [|b y].
      + exfalso. destruct r' as [|g r']; [discriminate|]. inversion SR' as [|? ? S0 _]; subst.
        destruct g as [|c g]; [destruct S0|]. cbn in E. injection E as -> _. inversion FX; subst. contradiction.
      + cbn [app] in E. injection E as -> E. inversion FX; subst. inversion FY; subst. destruct (IH y r r') as [-> ->]; auto. }
  induction gs as [|g gs IH]; intros gs' F F' S S' E.
  - destruct gs' as [|[|c g'] gs']; [auto| |discriminate]. inversion F' as [|? ? K _]; subst. destruct K.
  - destruct gs' as [|g' gs'].
    + destruct g; [|discriminate]. inversion F as [|? ? K _]; subst. destruct K.
    + inversion F as [|? ? FG FGS]; subst. inversion F' as [|? ? FG' FGS']; subst.
      destruct g as [|a x]; [destruct FG|]. destruct g' as [|b y]; [destruct FG'|]. cbn [concat app] in E. injection E as -> E.
      apply X in E as [-> E]; auto. f_equal. apply IH; auto.
      * destruct gs; auto. inversion S; auto.
      * destruct gs'; auto. inversion S'; auto.
Qed.
Lemma upto_colon x y r q : ~ In COLON x -> ~ In COLON y -> x ++ COLON :: r = y ++ COLON :: q -> x = y /\ r = q.
Proof.
  revert y. induction x as [|c x IH]; intros [|d y] NX NY E; cbn [app] in E.
  - injection E as ->. auto.
  - injection E as <- _. destruct NY. left. auto.
  - injection E as -> _. destruct NX. left. auto.
  - injection E as -> E. destruct (IH y) as [-> ->]; auto; intros K; [apply NX|apply NY]; right; auto.
Qed.
Lemma strip_front w n w' n' : Forall WSP w -> Forall WSP w' -> first_ok (fun c => ~ WSP c) n -> first_ok (fun c => ~ WSP c) n' ->
  n <> [] -> n' <> [] -> w ++ n = w' ++ n' -> w = w' /\ n = n'.
Proof.
  intros W. revert w'. induction W as [|c w Wc W IH]; intros w' W' F F' NE NE' E.
  - destruct w' as [|d w']; [auto|]. cbn in E. subst n. cbn in F. inversion W'. contradiction.
  - destruct w' as [|d w'].
    + cbn in E. subst n'. cbn in F'. contradiction.
    + cbn in E. injection E as -> E. inversion W'; subst. destruct (IH w') as [-> ->]; auto.
Qed.
Lemma trim_unique w1 n w2 w3 n' w4 : Forall WSP w1 -> Forall WSP w2 -> Forall WSP w3 -> Forall WSP w4 -> trimmed n -> trimmed n' ->
  w1 ++ n ++ w2 = w3 ++ n' ++ w4 -> n = n'.
Proof.
  intros W1 W2 W3 W4 [F L] [F' L'] E.
  assert (Z : forall w n w1 w2, Forall WSP w -> first_ok (fun c => ~ WSP c) n -> n <> [] -> w = w1 ++ n ++ w2 -> False).
  { intros w m x y W FM NE ->. apply Forall_app in W as [_ W]. destruct m as [|c m]; [congruence|]. cbn in FM, W. inversion W. contradiction. }
  destruct n as [|c n].
  { destruct n' as [|c' n']; auto. exfalso. apply (Z (w1 ++ w2) (c' :: n') w3 w4); auto; [apply Forall_app; auto|discriminate]. }
  destruct n' as [|c' n']. { exfalso. apply (Z (w3 ++ w4) (c :: n) w1 w2); auto; [apply Forall_app; auto|discriminate]. }
  apply strip_front in E as [_ E]; auto; try discriminate; try exact F; try exact F'.
  apply (f_equal (@rev ascii)) in E. rewrite !rev_app_distr in E. apply strip_front in E as [_ E]; auto using Forall_rev.
  - apply (f_equal (@rev ascii)) in E. rewrite !rev_involutive in E. exact E.
  - intros K. apply (f_equal (@rev ascii)) in K. rewrite rev_involutive in K. discriminate.
  - intros K. apply (f_equal (@rev ascii)) in K. rewrite rev_involutive in K. discriminate.
Qed.
Lemma named_unique t n v n' v' : named t n v -> named t n' v' -> n = n' /\ v = v'.
Proof.
  intros [t0 NC|w1 m w2 rest NC W1 W2 T] K.
  - inversion K as [? NC'|a b c d]; subst; auto. destruct NC. apply in_or_app. right. left. reflexivity.
  - inversion K as [? NC'|w3 m' w4 rest' NC' W3 W4 T' EQ]; subst.
    + destruct NC'. apply in_or_app. right. left. reflexivity.
    + apply upto_colon in EQ as [EQ _]; auto. rewrite EQ. split; auto. symmetry. eapply trim_unique; [exact W3|exact W4|exact W1|exact W2|auto..].
Qed.
Lemma has_fields_unique t fs fs' : has_fields t fs -> has_fields t fs' -> fs = fs'.
Proof.
  intros (ls & h & rest & gs & HB & -> & R & FL & SF & F2) (ls' & h' & rest' & gs' & HB' & E & R' & FL' & SF' & F2').
  assert (A : after_header rest). { destruct R as [[X _]|(l & [X _] & _)]; [left; auto|right; auto]. }
  assert (A' : after_header rest'). { destruct R' as [[X _]|(l & [X _] & _)]; [left; auto|right; auto]. }
  destruct (block_unique _ _ _ _ _ _ HB HB' A A' E) as [-> ->].
  assert (Y : forall l, last_line rest' l -> forall e body, line_end [] e -> rest' = e ++ body -> False).
  { intros l [NL _] e body LE ->. apply NL. apply in_or_app. left. inversion LE; [right; left|left]; reflexivity. }
  assert (EG : concat gs = concat gs').
  { destruct R as [[(e & b & L1 & L2) R]|(l & L1 & R)], R' as [[(e' & b' & L1' & L2') R']|(l' & L1' & R')]; rewrite R, R'; auto.
    - exfalso. eapply Y; eauto.
    - exfalso. eapply Y; eauto.
    - rewrite (last_unique _ _ _ L1 L1'). reflexivity. }
  rewrite (groups_unique gs gs' FL FL' SF SF' EG) in *. clear - F2 F2'. revert fs F2. induction F2' as [|f' g fs' gs [T' N'] F2' IH]; intros fs F2.
  - inversion F2; auto.
  - inversion F2 as [|f ? fs0 ? [T N] F0]; subst. f_equal; auto. destruct f, f'; cbn in *. destruct (named_unique _ _ _ _ _ N N') as [-> ->]. congruence.
Qed.
Lemma small_text t : (Z.of_nat (length t) < 1073741824)%Z -> small_fields t.
Proof.
  intros B fs h HF IN. destruct (new_validatory_total false V_NONE t) as (v & E); [discriminate|]. destruct (listed _ _ _ _ E) as (m & s & P & _).
  rewrite <- (has_fields_unique t _ _ (parse_fields _ _ _ P) HF) in IN. destruct (message_field_ok t m s h P IN) as [_ D]. lia.
Qed.

(** ** No blank names *)
Lemma ws_first w1 c r : ws (w1 ++ c :: r) -> Forall WSP w1 -> WSP c \/ c = CR.
Proof.
  intros W F. induction F as [|d w1 D F IH]; cbn [app] in W.
  - inversion W; auto.
  - inversion W as [|? ? _ W'|? ? ? W']; subst; [auto|]. destruct D; discriminate.
Qed.
Lemma name_begins t n v y : named t n v -> (exists c r, n = c :: r /\ c <> CR) -> ~ blank_name (firstn v t ++ y).
Proof.
  intros N (c & r & -> & NC) (w & z & FW & E). inversion N as [|w1 ? w2 rest NI W1 W2 [FO _]]; subst.
  cbn [first_ok] in FO. set (a := w1 ++ (c :: r) ++ w2) in *.
  assert (E2 : firstn (S (length a)) (a ++ COLON :: rest) = a ++ [COLON]).
  { rewrite firstn_app. rewrite firstn_all2 by lia. replace (S (length a) - length a) with 1 by lia. reflexivity. }
  rewrite E2, <- app_assoc in E. cbn [app] in E. assert (NW : ~ In COLON w).
  { intros K. destruct (ws_chars w COLON (FWSs_ws _ FW) K) as [[X|X]|[X|X]]; discriminate. }
  apply upto_colon in E as [E _]; auto. subst w. apply FWSs_ws in FW. unfold a in FW. cbn [app] in FW.
  destruct (ws_first _ _ _ FW W1); contradiction.
Qed.
Lemma low_cr c : low c = CR -> c = CR.
Proof. intros E. apply tolower_CR. exact E. Qed.
Lemma same_begins a b : same_name a b = true -> (exists c r, b = c :: r /\ c <> CR) -> exists c r, a = c :: r /\ c <> CR.
Proof.
  intros S0 (c & r & -> & NC). unfold same_name in S0. apply beqb_eq in S0. destruct a as [|d a]; [discriminate|]. cbn [map] in S0.
  exists d, a. split; auto. intros ->. injection S0 as E _. symmetry in E. change (low CR) with CR in E. apply low_cr in E. contradiction.
Qed.
Lemma item_begins vs t v : list_text vs t -> In v vs -> exists c r, v = c :: r /\ c <> CR.
Proof.
  assert (X : forall v, folded_item v -> exists c r, v = c :: r /\ c <> CR).
  { intros u [T F]. destruct u as [|c u]; [inversion T|]. exists c, u. split; auto. apply F. }
  induction 1 as [w|w1 u w2 W1 FI W2|w1 u w2 vs t W1 FI W2 L IH]; intros K.
  - destruct K.
  - destruct K as [<-|[]]. auto.
  - destruct K as [<-|K]; auto.
Qed.
Lemma selection_named {A} (name : A -> bytes) hs names : forall before x, In x (selection name hs before names) ->
  exists n, In n names /\ same_name (name x) n = true.
Proof.
  induction names as [|n names IH]; intros before x K; [destruct K|]. cbn [selection] in K. apply in_app_or in K as [K|K].
  - exists n. split; [left; auto|]. unfold kth_last in K. destruct (nth_error _ _) eqn:E; [|destruct K]. destruct K as [<-|[]].
    apply nth_error_In in E. apply in_rev, filter_In in E. tauto.
  - destruct (IH _ _ K) as (m & I & E). exists m. split; [right|]; auto.
Qed.
Lemma fields_named t fs f : has_fields t fs -> In f fs -> named (h_text f) (h_name f) (h_voff f).
Proof.
  intros (ls & h & rest & gs & _ & _ & _ & _ & _ & F2) K. induction F2 as [|x g fs gs [E N] F2 IH]; [destruct K|].
  destruct K as [<-|K]; auto. rewrite E. exact N.
Qed.

(** ** The canonical forms *)
Lemma filter_canonical mode t out : crlf_folds t -> ~ blank_name t -> FilterHeader false mode t = Ok out <-> canonical_field (relaxed_mode mode) t out.
Proof.
  intros CF NB. split.
  - intros E. apply canon_form in E; auto. destruct mode; cbn in *; auto. destruct E as [E|E]; [auto|contradiction].
  - destruct mode; cbn [relaxed_mode canonical_field].
    + intros ->. apply FilterHeader_simple.
    + intros (n & R). eapply FilterHeader_relaxed; eauto.
Qed.
Lemma Forall2_iff_in {A B} (P Q : A -> B -> Prop) l l' : (forall a b, In a l -> P a b <-> Q a b) -> Forall2 P l l' <-> Forall2 Q l l'.
Proof.
  intros H. split; intros F; induction F; constructor; auto; try (apply H; [left; reflexivity|assumption]);
    apply IHF; intros; apply H; right; auto.
Qed.
Lemma authenticated_canonical t m s h g v pre b post d : parse_all new_message (open_str t) = Ok (m, s) -> v_msg v = m -> In h (m_headers m) ->
  h_voff h <= length (h_text h) -> (forall n, In n (sg_headers g) -> exists c r, n = c :: r /\ c <> CR) -> (exists c r, h_name h = c :: r /\ c <> CR) ->
  tag_at (str "b") (skipn (h_voff h) (h_text h)) pre b post -> b <> [] ->
  authenticated h g v pre post d <->
  exists outs x, Forall2 (fun f out => canonical_field (relaxed_mode (sg_chead g)) (h_text f) out) (selection h_name (m_headers m) [] (sg_headers g)) outs /\
    canonical_field (relaxed_mode (sg_chead g)) (firstn (h_voff h) (h_text h) ++ pre ++ post) x /\ d = with_crlf outs ++ x.
Proof.
  intros P M IN L HN HB TA NB. unfold authenticated. rewrite M. pose proof (parse_fields _ _ _ P) as HF.
  destruct (message_texts _ _ _ P) as [TX _]. rewrite Forall_forall in TX.
  assert (C2 : crlf_folds (firstn (h_voff h) (h_text h) ++ pre ++ post)).
  { apply lf_crlf_folds. destruct (TX h IN) as [LFo _]. destruct TA as (ET & (_ & FO & _) & _).
    apply lf_folds_cut with (v := b); auto.
    - rewrite <- ET, firstn_skipn. exact LFo.
    - destruct b as [|c b]; [exact Logic.I|]. cbn in *. destruct FO as [[LO _] _]. intros [->| ->]; vm_compute in LO; congruence. }
  assert (B2 : ~ blank_name (firstn (h_voff h) (h_text h) ++ pre ++ post)) by (eapply name_begins; eauto using fields_named).
  assert (X : forall outs, Forall2 (canon_of false (sg_chead g)) (selection h_name (m_headers m) [] (sg_headers g)) outs <->
    Forall2 (fun f out => canonical_field (relaxed_mode (sg_chead g)) (h_text f) out) (selection h_name (m_headers m) [] (sg_headers g)) outs).
  { intros outs. apply Forall2_iff_in. intros f o K. pose proof (selection_In _ _ _ _ _ K) as KI. destruct (selection_named _ _ _ _ _ K) as (n & NI & SN).
    unfold canon_of. apply filter_canonical.
    - apply lf_crlf_folds. apply TX. auto.
    - rewrite <- (firstn_skipn (h_voff f) (h_text f)). eapply name_begins; [eapply fields_named; eauto|]. eapply same_begins; eauto. }
  split; intros (outs & x & F & E & ->); exists outs, x; (split; [apply X; auto|split; [apply (filter_canonical (sg_chead g) _ x C2 B2); auto|auto]]).
Qed.

(** ** The tags of a record *)
Lemma record_has_tags C strict r p : PublicKey_Parse C strict r new_public_key = (p, Ok tt) -> exists l, record_tags r l.
Proof.
  intros P. apply PublicKey_Parse_Ok in P as (tags & E & _). destruct (tags_V _ _ E) as (l & R & ND & _). exists l. split; auto.
Qed.
Lemma retag g : exists tags, set_tags tags g = g.
Proof. exists (sg_tags g). destruct g. reflexivity. Qed.
Lemma kretag p : exists tags, kset_tags tags p = p.
Proof. exists (pk_tags p). destruct p. reflexivity. Qed.
Lemma sig_begins ty h : signature_name ty h = true -> exists c r, h_name h = c :: r /\ c <> CR.
Proof.
  destruct ty; cbn [signature_name]; intros E; [| |discriminate]; (eapply same_begins; [exact E|]); eexists _, _; (split; [reflexivity|]); discriminate.
Qed.
Lemma parsed_names C now t m s h st g e : parse_all new_message (open_str t) = Ok (m, s) -> In h (m_headers m) ->
  Signature_Parse C false now h (new_signature, st) = ((g, e), Ok tt) -> forall n, In n (sg_headers g) -> exists c r, n = c :: r /\ c <> CR.
Proof.
  intros P IN SP n K. destruct (parse_mandatory _ _ _ _ _ _ _ SP) as (l & FT & _ & _ & _ & _ & _ & (hv & Hh & VL & _) & _).
  apply (item_begins (sg_headers g) hv); auto. apply ValueList_exact; auto. destruct FT as (_ & R & _).
  pose proof (message_folds _ _ _ _ P IN) as FO. apply (has_folds (skipn (h_voff h) (h_text h)) l "h"%string); auto.
  intros a b E. apply (FO (firstn (h_voff h) (h_text h) ++ a) b). rewrite <- app_assoc, <- E, firstn_skipn. reflexivity.
Qed.

(** ** Put together *)
Lemma accepted_good C ty t v i now resolve er g : in_use false ty t v -> small_fields t ->
  (exists h v1 e1 tags p, nth_error (v_sigs v) i = Some h /\ try_one C false now resolve h er v = (v1, e1, set_tags tags g, p, Ok tt)) <->
  good C ty t i now er (fun n r => resolve n = Ok (true, r)) g.
Proof.
  intros U B. pose proof U as (v0 & NV & EV & ES & _). destruct (listed _ _ _ _ NV) as (m & s & P & M & _ & S0).
  pose proof (parse_fields _ _ _ P) as HF.
  assert (SG : v_sigs v = filter (signature_name ty) (m_headers m)). { rewrite ES, S0. apply filter_ext. intros h. destruct ty; reflexivity. }
  assert (FACTS : forall h, nth_error (v_sigs v) i = Some h -> In h (m_headers m) /\ h_voff h <= length (h_text h) /\ small_field h /\ exists c r, h_name h = c :: r /\ c <> CR).
  { intros h K. apply nth_error_In in K. rewrite SG in K. apply filter_In in K as [K N]. destruct (small_message t m s h P K B) as [L SF].
    split; auto. split; auto. split; auto. eapply sig_begins; eauto. }
  destruct (message_body_exists t) as (b & MB). split.
  - intros (h & v1 & e1 & tags & p & NH & T). destruct (FACTS h NH) as (IN & L & SF & HB).
    unfold try_one in T. destruct (GetSignature_spec C false ty t v now h (new_signature, er) U) as (v' & U' & E).
    destruct (Signature_Parse C false now h (new_signature, er)) as [[g0 e0] [[]| | |]] eqn:SP; rewrite E in T; [|discriminate..]. cbn [fst snd] in T.
    destruct (canonical_exists (is_relaxed (sg_cbody g0)) b) as (out & CB).
    destruct (snd (CheckBodyHash C g0 v)) as [[]| | |] eqn:BH; [|discriminate..].
    apply (CheckBodyHash_iff C false ty t v g0 b out U MB CB) in BH.
    destruct (GetPublicKey C false resolve g0 new_public_key) as [p0 [[]| | |]] eqn:GP; [|discriminate..].
    injection T as _ _ EG _ CS. subst g0.
    revert GP. unfold GetPublicKey. destruct (resolve (key_query (set_tags tags g))) as [[ok r]| | |] eqn:RS; cbn [slift]; try discriminate.
    destruct ok; [|discriminate]. destruct r as [|c r]; [discriminate|]. intros KP.
    rewrite (CheckSignature_use C false ty t v' v) in CS by auto.
    destruct (b_position _ _ _ _ _ _ _ SP) as [(pre & bv & post & TA & NB) _].
    apply (proj1 (check_permits _ _ _ _ _ _ _ _ _ _ SP SF TA false (c :: r) new_public_key p0 v KP)) in CS as (PM & d & AU & AC).
    assert (VM : v_msg v = m) by congruence.
    apply (authenticated_canonical t m s h (set_tags tags g) v pre bv post d P VM IN L (parsed_names _ _ _ _ _ _ _ _ _ P IN SP) HB TA NB) in AU as (outs & x & F & CX & ->).
    destruct (Parse_has_tags _ _ _ _ _ _ SP) as (l & FT). destruct (record_has_tags _ _ _ _ KP) as (kl & RT).
    destruct (kretag p0) as (kt & KT).
    apply (good_intro C ty t i now er _ g (m_headers m) h l e0 b out (c :: r) kl p0 pre bv post outs x); auto.
    + rewrite <- SG. exact NH.
    + apply (parse_exact C now h er l FT). exists tags. exact SP.
    + apply (key_record_says C false (c :: r) kl RT). exists kt. rewrite KT. exact KP.
  - intros [fs h l e b' out r kl p pre bv post outs x HF' NH FT TK MB' CB BH DN RT KS PM TA F CX SD].
    rewrite (has_fields_unique _ _ _ HF' HF) in *. rewrite <- SG in NH. destruct (FACTS h NH) as (IN & L & SF & HB).
    apply (parse_exact C now h er l FT) in TK as (tags & SP). apply (key_record_says C false r kl RT) in KS as (kt & KP).
    rewrite (message_body_unique _ _ _ MB' MB) in CB.
    assert (VM : v_msg v = m) by congruence.
    destruct (b_position _ _ _ _ _ _ _ SP) as [(pre' & bv' & post' & TA' & NB) UQ]. destruct (UQ _ _ _ _ _ _ TA' NB TA) as (-> & -> & ->).
    assert (CS : CheckSignature C false h (set_tags tags g) (kset_tags kt p) v = Ok tt).
    { apply (check_permits _ _ _ _ _ _ _ _ _ _ SP SF TA false r new_public_key (kset_tags kt p) v KP). split; [exact PM|].
      exists (with_crlf outs ++ x). split; [|exact SD].
      apply (authenticated_canonical t m s h (set_tags tags g) v pre bv post _ P VM IN L (parsed_names _ _ _ _ _ _ _ _ _ P IN SP) HB TA NB).
      exists outs, x. auto. }
    unfold try_one. destruct (GetSignature_spec C false ty t v now h (new_signature, er) U) as (v' & U' & E). rewrite SP in E. cbn [fst] in E.
    rewrite (proj2 (proj1 (CheckBodyHash_iff C false ty t v (set_tags tags g) b out U MB CB)) BH) in E.
    exists h, v', e, tags, (kset_tags kt p). split; auto. rewrite E. cbn [fst snd]. unfold GetPublicKey.
    change (key_query (set_tags tags g)) with (sg_selector g ++ str "._domainkey." ++ sg_domain g). rewrite DN. cbn [slift].
    destruct r as [|c r]; [|rewrite KP, (CheckSignature_use C false ty t v' v) by auto; rewrite CS; reflexivity].
    vm_compute in KP. discriminate KP.
Qed.

(** ** The lines of the program *)
Lemma judged_good C ty resolve t h now e l i : judged C false ty resolve t h now e l -> nth_error (file_fields ty (Some t)) i = Some h ->
  small_fields t ->
  (l_report l = R_OK <-> exists g, good C ty t i now e (fun n r => resolve n = Ok (true, r)) g /\ l_domain l = sg_domain g /\ l_selector l = sg_selector g) /\
  (l_report l <> R_OK -> forall g, ~ good C ty t i now e (fun n r => resolve n = Ok (true, r)) g).
Proof.
  intros (v & g & p & o & N & E & D & SL & R) NH B. rewrite <- (file_fields_sigs false ty (Some t) v N) in NH.
  pose proof (in_use_fresh _ _ _ _ N) as U.
  assert (T : exists v1 e1, try_one C false now resolve h e v = (v1, e1, g, p, o)).
  { unfold try_one. destruct (GetSignature C false now h (new_signature, e) v) as [[v1 [g1 e1]] r]. destruct E as [-> E]. cbn [fst snd].
    destruct r as [u| | |]; [|destruct E as [-> ->]; eauto..].
    destruct (GetPublicKey C false resolve g new_public_key) as [p1 r1]. destruct E as [-> E]. destruct r1 as [u1| | |]; subst o; eauto. }
  destruct T as (v1 & e1 & T).
  assert (K : (exists g0, good C ty t i now e (fun n r => resolve n = Ok (true, r)) g0) -> l_report l = R_OK /\ o = Ok tt).
  { intros (g0 & G). apply (accepted_good C ty t v i now resolve e g0 U B) in G as (h' & v2 & e2 & tags & p' & NH' & T').
    rewrite NH in NH'. injection NH' as <-. rewrite T in T'. injection T' as _ _ _ _ ->. split; [|reflexivity].
    destruct (l_report l); auto; try discriminate; destruct R; discriminate. }
  split; [split|].
  - intros RO. rewrite RO in R. subst o. exists g. split; auto. apply (accepted_good C ty t v i now resolve e g U B).
    destruct (retag g) as (tags & TG). exists h, v1, e1, tags, p. rewrite TG. auto.
  - intros (g0 & G & _). apply K. eauto.
  - intros NR g0 G. apply NR. apply K. eauto.
Qed.

Lemma nth_flat {A} (f : bytes) (l : list A) : forall i x, nth_error (map (pair f) l) i = Some x -> fst x = f /\ nth_error l i = Some (snd x).
Proof.
  intros i x E. rewrite nth_error_map in E. destruct (nth_error l i); [|discriminate]. injection E as <-. auto.
Qed.
Lemma Forall2_nth {A B} (R : A -> B -> Prop) l l' : Forall2 R l l' -> forall i b, nth_error l' i = Some b -> exists a, nth_error l i = Some a /\ R a b.
Proof.
  induction 1 as [|x y l l' E F IH]; intros [|i] b N; try discriminate; cbn [nth_error] in *.
  - injection N as <-. eauto.
  - auto.
Qed.
Lemma line_good C clock resolve fs args ss f t ls i l : command_line args ss [f] -> Forall usual ss ->
  tool_main C false clock resolve fs args = (P_lines ls, Exit 0) -> fs f = Some t -> small_fields t ->
  nth_error ls i = Some l ->
  exists ty k er, kind ss ty /\
    (l_report l = R_OK <-> exists g, good C ty t i (clock k) er (fun n r => resolve n = Ok (true, r)) g) /\
    (l_report l = R_OK -> exists g, good C ty t i (clock k) er (fun n r => resolve n = Ok (true, r)) g /\ l_domain l = sg_domain g /\ l_selector l = sg_selector g).
Proof.
  intros CL US M FT B NL. destruct (main_lines _ _ _ _ _ _ _ _ _ CL US M) as (ty & KD & F2).
  destruct (Forall2_nth _ _ _ F2 _ _ NL) as ([f' h] & NF & EF & t' & k & e0 & FT' & J). cbn [fst snd] in *.
  unfold all_fields in NF. cbn [flat_map] in NF. rewrite app_nil_r in NF. apply nth_flat in NF as [E1 NF]. cbn [fst snd] in *. subst f'.
  rewrite FT in *. injection FT' as <-. destruct (judged_good C ty resolve t h (clock k) e0 l i J NF B) as [G1 G2].
  exists ty, k, e0. split; auto. split; [|apply G1]. split.
  - intros R. apply G1 in R as (g & G & _). eauto.
  - intros (g & G). destruct (l_report l) eqn:R; auto; exfalso; refine (G2 _ g G); discriminate.
Qed.

(** ** With the DNS lookup of the library *)
Lemma good_dns C ty t i now er (dns dns' : bytes -> bytes -> Prop) g : (forall n r, r <> [] -> dns n r -> dns' n r) -> good C ty t i now er dns g -> good C ty t i now er dns' g.
Proof.
  intros H [fs h l e b out r kl p pre bv post outs x HF NH FT TK MB CB BH DN RT KS PM TA F CX SD].
  apply (good_intro C ty t i now er dns' g fs h l e b out r kl p pre bv post outs x); auto. apply H; auto. intros ->.
  apply (key_record_says C false [] kl RT) in KS as (kt & KP). vm_compute in KP. discriminate KP.
Qed.
Lemma published_lookup lax answer n r : well_answered (answer n) -> r <> [] -> (GetTXT lax (answer n) = Ok (true, r) <-> published answer n r).
Proof.
  unfold published, well_answered. intros W NE. destruct (answer n) as [f|pkt] eqn:A; [clear W|].
  - split.
    + intros E. destruct f; cbn in E; apply Ok_inj in E; congruence.
    + intros (pkt' & texts' & E & _). discriminate.
  - destruct W as [B (texts & R)]. rewrite (GetTXT_response lax texts pkt R B). split.
    + intros E. apply Ok_inj in E. injection E as <-. exists pkt, texts. auto.
    + intros (pkt' & texts' & [= <-] & R' & ->). rewrite <- (GetTXT_response lax texts pkt R B). apply GetTXT_response; auto.
Qed.
Lemma accepted_published C ty t v i now lax answer er g : in_use false ty t v -> small_fields t ->
  (forall n, well_answered (answer n)) ->
  (exists h v1 e1 tags p, nth_error (v_sigs v) i = Some h /\
     try_one C false now (fun n => GetTXT lax (answer n)) h er v = (v1, e1, set_tags tags g, p, Ok tt)) <->
  good C ty t i now er (published answer) g.
Proof.
  intros U B W. rewrite (accepted_good C ty t v i now (fun n => GetTXT lax (answer n)) er g U B). split; apply good_dns; intros n r NE K.
  - apply (published_lookup lax answer n r (W n) NE). exact K.
  - apply (published_lookup lax answer n r (W n) NE). exact K.
Qed.

(** ** An example *)
Lemma sample_good : exists g, good toy V_DKIM (sample_message "rsa-sha256" rsa_b) 0 1 false (fun n r => n = esc "s1._domainkey.ex.org" /\ r = rsa_record) g /\
  sg_domain g = str "ex.org".
Proof.
  set (t := sample_message "rsa-sha256" rsa_b). set (res := fun n => Ok (beqb n (esc "s1._domainkey.ex.org"), rsa_record)).
  assert (X : match new_validatory false V_DKIM (open_str t) with
    | Ok v => match v_sigs v with
              | h :: _ => let '(_, _, g, _, o) := try_one toy false 1 res h false v in o = Ok tt /\ sg_domain g = str "ex.org"
              | [] => False end
    | _ => False end) by (vm_compute; split; reflexivity).
  destruct (new_validatory false V_DKIM (open_str t)) as [v| | |] eqn:NV; try contradiction. destruct (v_sigs v) as [|h hs] eqn:SV; [contradiction|].
  destruct (try_one toy false 1 res h false v) as [[[[v1 e1] g] p] o] eqn:T. destruct X as [-> D]. exists g. split; auto.
  apply (good_dns toy V_DKIM t 0 1 false (fun n r => res n = Ok (true, r))).
  - intros n r _ E. unfold res in E. apply Ok_inj in E. injection E as E1 E2. apply beqb_eq in E1. auto.
  - apply (accepted_good toy V_DKIM t v 0 1 res false g (in_use_fresh _ _ _ _ NV)).
    + apply small_text, Z.ltb_lt. vm_compute. reflexivity.
    + destruct (retag g) as (tags & TG). exists h, v1, e1, tags, p. rewrite TG, SV. auto.
Qed.
