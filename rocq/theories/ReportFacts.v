(** The text of the reports (for C80). *)
From Verif Require Import Bytes Outcome Stream Tokenizer QuotedPrintable TagList MailParser Canonicalization Util CStdlib Crypto Signature PublicKey
  SignatoryOptions Signatory Validatory BytesFacts SpecText SpecTags SpecMail SpecCanon ListFacts MailFacts TagListFacts HeaderFacts HeaderProps SigFacts SigProps Tool ToolText SpecReport.

Lemma sig_run C strict now h st : Signature_Parse C strict now h st = run_stages (map fst (sig_stages C strict now h)) st.
Proof.
  unfold Signature_Parse, sig_stages. cbn [map fst run_stages].
  do 13 (match goal with |- sbind ?a _ = sbind ?a _ => destruct a as [? []]; cbn [sbind]; try reflexivity end).
  destruct (parse_x now _) as [? [[]| | |]]; reflexivity.
Qed.
Lemma key_run C strict r p : PublicKey_Parse C strict r p = run_stages (map fst (key_stages C strict r)) p.
Proof.
  unfold PublicKey_Parse, key_stages, key_tags. cbn [map fst run_stages].
  do 6 (match goal with |- sbind ?a _ = sbind ?a _ => destruct a as [? []]; cbn [sbind]; try reflexivity end).
  destruct (key_t _) as [? [[]| | |]]; reflexivity.
Qed.

(** ** Texts in which no K stands before an LF *)
Definition KC : ascii := "K"%char.
Definition noKL (x : bytes) : Prop := forall a b, x <> a ++ KC :: LF :: b.
Definition quiet (w : bytes) : Prop := noKL w /\ last_ok (fun c => c <> KC) w.
Definition tame (v : bytes) : Prop := lf_folds v /\ cr_before v /\ ~ In (chr 0) v.

Lemma noKL_app x y : noKL x -> noKL y -> last_ok (fun c => c <> KC) x \/ first_ok (fun c => c <> LF) y -> noKL (x ++ y).
Proof.
  intros X Y B a b E. apply app_eq_app in E as (l & [[-> E]|[-> E]]).
  - destruct l as [|c l]; [exact (Y [] b (eq_sym E))|]. injection E as <- E. destruct l as [|d l].
    + destruct B as [B|B].
      * apply last_ok_snoc in B. congruence.
      * destruct y as [|c y]; [discriminate|]. injection E as <- E. apply B. reflexivity.
    + injection E as <- E. exact (X a l eq_refl).
  - exact (Y l b E).
Qed.
Lemma noKL_no_lf x : ~ In LF x -> noKL x.
Proof. intros N a b ->. apply N. apply in_or_app. right. right. left. reflexivity. Qed.
Lemma noKL_no_k x : ~ In KC x -> noKL x.
Proof. intros N a b ->. apply N. apply in_or_app. right. left. reflexivity. Qed.
Lemma noKL_front x y : noKL (x ++ y) -> noKL x.
Proof. intros N a b ->. apply (N a (b ++ y)). rewrite <- app_assoc. reflexivity. Qed.
Lemma tame_noKL v : tame v -> noKL v.
Proof.
  intros (_ & CB & _) a b E. destruct (CB (a ++ [KC]) b) as (a' & E'). { rewrite E, <- app_assoc. reflexivity. }
  apply app_inj_tail in E' as [_ E']. discriminate.
Qed.
Lemma c_str_front v : exists r, v = c_str v ++ r.
Proof.
  induction v as [|c v [r IH]]; [exists []; reflexivity|]. cbn [c_str]. destruct (code c =? 0)%N; [exists (c :: v); reflexivity|].
  exists r. cbn [app]. f_equal. exact IH.
Qed.
Lemma noKL_c_str v : noKL v -> noKL (c_str v).
Proof. destruct (c_str_front v) as [r E]. intros N. rewrite E in N. eapply noKL_front; eauto. Qed.
Lemma quiet_last x y : y <> [] -> last_ok (fun c => c <> KC) y -> last_ok (fun c => c <> KC) (x ++ y).
Proof. apply last_ok_app. Qed.

(** A fixed text as a condition that can be computed. *)
Definition fixed (s : bytes) : bool :=
  negb (existsb (fun c => c =?c LF) s) && match s with [] => false | _ => true end && match rev s with c :: _ => negb (c =?c KC) | [] => false end.
Lemma fixed_spec s : fixed s = true -> ~ In LF s /\ s <> [] /\ last_ok (fun c => c <> KC) s /\ first_ok (fun c => c <> LF) s.
Proof.
  unfold fixed. rewrite !andb_true_iff, negb_true_iff. intros [[A B] D].
  assert (N : ~ In LF s).
  { intros I. assert (X : existsb (fun c => c =?c LF) s = true) by (apply existsb_exists; exists LF; split; [exact I|apply ceqb_refl]). congruence. }
  split; [exact N|]. split; [destruct s; discriminate|]. split.
  - unfold last_ok. destruct (rev s) as [|c r]; [exact I|]. cbn. apply negb_true_iff in D. apply ceqb_neq. exact D.
  - destruct s as [|c r]; [exact I|]. intros ->. apply N. left. reflexivity.
Qed.
Lemma format_quiet a v b : fixed (str a) = true -> fixed (str b) = true -> noKL v -> quiet (format a v b).
Proof.
  intros A B V. apply fixed_spec in A as (A1 & A2 & A3 & A4). apply fixed_spec in B as (B1 & B2 & B3 & B4). unfold format. split.
  - apply noKL_app; [apply noKL_no_lf; exact A1| |left; exact A3].
    apply noKL_app; [apply noKL_c_str; exact V|apply noKL_no_lf; exact B1|right; exact B4].
  - rewrite app_assoc. apply last_ok_app; auto.
Qed.
Lemma wording_quiet w : wording w -> quiet w.
Proof.
  intros [F L]. split; [|exact L]. apply noKL_no_lf. intros I. rewrite Forall_forall in F. destruct (F _ I) as [[P _]|E]; [|discriminate].
  vm_compute in P. apply P. reflexivity.
Qed.

(** ** Values of tags *)
Lemma tame_nil : tame [].
Proof. split; [|split]; [intros a b E|intros a b E|intros []]; destruct a; discriminate. Qed.
Lemma low_lf c : low c = LF -> c = LF.
Proof. revert c. assert (S : forall c, implb (low c =?c LF) (c =?c LF) = true) by (apply byte_sweep; vm_compute; reflexivity).
  intros c E. specialize (S c). rewrite E, ceqb_refl in S. cbn in S. apply ceqb_eq. exact S. Qed.
Lemma low_nul c : low c = chr 0 -> c = chr 0.
Proof. revert c. assert (S : forall c, implb (low c =?c chr 0) (c =?c chr 0) = true) by (apply byte_sweep; vm_compute; reflexivity).
  intros c E. specialize (S c). rewrite E, ceqb_refl in S. cbn in S. apply ceqb_eq. exact S. Qed.
Lemma low_k c : low c <> KC.
Proof. assert (S : forall c, negb (low c =?c KC) = true) by (apply byte_sweep; vm_compute; reflexivity).
  specialize (S c). apply negb_true_iff in S. apply ceqb_neq. exact S. Qed.
Lemma map_app_inv {A B} (f : A -> B) v : forall a y b, map f v = a ++ y :: b -> exists a' y' b', v = a' ++ y' :: b' /\ map f a' = a /\ f y' = y /\ map f b' = b.
Proof.
  induction v as [|c v IH]; intros a y b E; [destruct a; discriminate|]. destruct a as [|d a]; cbn in E; injection E as E1 E2.
  - exists [], c, v. auto.
  - destruct (IH _ _ _ E2) as (a' & y' & b' & -> & M & Y & N). exists (c :: a'), y', b'. split; [reflexivity|]. split; [cbn; congruence|auto].
Qed.
Lemma tame_low v : tame v -> tame (map low v).
Proof.
  intros (L & CB & N). split; [|split].
  - intros a b E. apply map_app_inv in E as (a' & y & b' & -> & <- & Y & <-). apply low_lf in Y. subst y.
    destruct (L a' b' eq_refl) as (c & r & -> & W). exists (low c), (map low r). split; [reflexivity|].
    destruct W as [->| ->]; [left|right]; reflexivity.
  - intros a b E. apply map_app_inv in E as (a' & y & b' & -> & <- & Y & <-). apply low_lf in Y. subst y.
    destruct (CB a' b' eq_refl) as (a2 & ->). exists (map low a2). rewrite map_app. reflexivity.
  - intros I. apply in_map_iff in I as (c & E & I). apply low_nul in E. subst c. contradiction.
Qed.
Lemma tame_part pre v post : lf_folds (pre ++ v ++ post) -> cr_before (pre ++ v ++ post) -> tag_value v -> tame v.
Proof.
  intros L CB T. destruct T as (F & FO & LO). split; [|split].
  - intros a b E. subst v. destruct (L (pre ++ a) (b ++ post)) as (c & r & E & W). { rewrite <- !app_assoc. reflexivity. }
    destruct b as [|c' b].
    + apply last_ok_snoc in LO. destruct LO as [[X _] _]. vm_compute in X. exfalso. apply X. reflexivity.
    + injection E as -> _. exists c, b. auto.
  - intros a b E. subst v. destruct (CB (pre ++ a) (b ++ post)) as (a' & E). { rewrite <- !app_assoc. reflexivity. }
    destruct a as [|a0 a].
    + cbn in FO. destruct FO as [[X _] _]. vm_compute in X. exfalso. apply X. reflexivity.
    + assert (NE : a0 :: a <> []) by discriminate. destruct (exists_last NE) as (k & z & K). rewrite K in *. rewrite app_assoc in E.
      apply app_inj_tail in E as [_ ->]. exists k. reflexivity.
  - intros I. rewrite Forall_forall in F. destruct (F _ I) as [[[X _] _]|[X|[X|[X|X]]]]; try discriminate. vm_compute in X. apply X. reflexivity.
Qed.

(** ** The exceptions *)
Lemma first_why_quiet {S} (P : S -> Prop) stages : 
  Forall (fun x => (forall s s', P s -> fst x s = (s', Ok tt) -> P s') /\ forall s w, P s -> worded (snd x s) w -> quiet w) stages ->
  forall s w, P s -> worded (first_why stages s) w -> quiet w.
Proof.
  induction 1 as [|[f y] l [K Q] F IH]; intros s w PS W; [apply wording_quiet; exact W|]. cbn [first_why fst snd] in *.
  destruct (f s) as [s' [[]| | |]] eqn:E; try exact (Q s w PS W). exact (IH s' w (K s s' PS E) W).
Qed.
Lemma run_keeps {S} (P Q : S -> Prop) stages : (forall s, P s -> Q s) ->
  Forall (fun f => forall s s' o, P s -> f s = (s', o) -> Q s' /\ (o = Ok tt -> P s')) stages ->
  forall s s' o, P s -> run_stages stages s = (s', o) -> Q s'.
Proof.
  intros PQ. induction 1 as [|f l K F IH]; intros s s' o PS E; cbn [run_stages] in E; [injection E as <- _; auto|].
  destruct (f s) as [s1 [[]| | |]] eqn:E1; cbn [sbind] in E; destruct (K _ _ _ PS E1) as [Q1 P1]; try (injection E as <- _; exact Q1).
  exact (IH s1 s' o (P1 eq_refl) E).
Qed.

Definition tags_in (R : bytes -> Prop) (t : taglist) : Prop := forall n e, GetTag n t = Some e -> R (te_value e).
Definition holds (st : sig_st) : Prop := tags_in tame (sg_tags (fst st)) /\ tame (sg_domain (fst st)) /\ tame (sg_selector (fst st)).
Definition shown (st : sig_st) : Prop := tame (sg_domain (fst st)) /\ tame (sg_selector (fst st)).
Definition folded (h : header) : Prop := lf_folds (h_text h) /\ cr_before (h_text h).

Lemma parsed_tags input t : TagList_Parse [] input = (t, Ok tt) ->
  forall n e, GetTag n t = Some e -> te_value e = [] \/ tag_value (te_value e) /\ exists pre post, input = pre ++ te_value e ++ post.
Proof.
  intros P n e G. destruct (te_value e) as [|c v] eqn:V; [auto|]. right.
  destruct (TagList_positions [] input t n e P eq_refl G ltac:(congruence)) as (pre & post & (EI & TV & _) & _). rewrite V in *. eauto.
Qed.

Ltac keep_sig := intros s s' o (T & D & L) E;
  assert (G : sg_tags (fst s') = sg_tags (fst s) /\ sg_domain (fst s') = sg_domain (fst s) /\ sg_selector (fst s') = sg_selector (fst s));
  [|unfold shown, holds; destruct G as (-> & -> & ->); auto].
Ltac cut_lift := repeat match goal with
  | E : (_, _) = (_, _) |- _ => injection E as <- _; auto
  | E : context [match ?x with _ => _ end] |- _ => destruct x
  | E : context [if ?x then _ else _] |- _ => destruct x
  end.

Lemma stage_tags h : folded h -> forall s s' o, sg_tags (fst s) = [] /\ tame (sg_domain (fst s)) /\ tame (sg_selector (fst s)) ->
  parse_tags h s = (s', o) -> shown s' /\ (o = Ok tt -> holds s').
Proof.
  intros [LFo CB] s s' o (T & D & L) E. unfold parse_tags, slift, substr_from in E.
  destruct (Nat.leb_spec (h_voff h) (length (h_text h))) as [LE|]; [|injection E as <- <-; split; [split; auto|discriminate]].
  rewrite T in E. destruct (TagList_Parse [] (skipn (h_voff h) (h_text h))) as [t r] eqn:P. injection E as <- <-.
  split; [split; assumption|]. intros ->. split; [|split; assumption]. cbn. intros n e G.
  destruct (parsed_tags _ _ P n e G) as [->|(TV & pre & post & EI)]; [apply tame_nil|].
  apply (tame_part (firstn (h_voff h) (h_text h) ++ pre) _ post); auto; rewrite <- app_assoc, <- EI, firstn_skipn; assumption.
Qed.

Ltac other f := intros s s' o HS E; assert (G : sg_tags (fst s') = sg_tags (fst s) /\ sg_domain (fst s') = sg_domain (fst s) /\ sg_selector (fst s') = sg_selector (fst s));
  [unfold f, slift, done, fail_perm, upd in E; cut_lift|destruct HS as (T & D & L); unfold shown, holds; destruct G as (-> & -> & ->); auto].
Definition keeps (f : sig_st -> sig_st * outcome unit) : Prop := forall s s' o, holds s -> f s = (s', o) -> shown s' /\ (o = Ok tt -> holds s').
Lemma keeps_arc strict n : keeps (parse_arc strict n).
Proof. other parse_arc. Qed.
Lemma keeps_v : keeps parse_v.
Proof. other parse_v. Qed.
Lemma keeps_a : keeps parse_a.
Proof. other parse_a. Qed.
Lemma keeps_b C strict : keeps (parse_b C strict).
Proof. other parse_b. Qed.
Lemma keeps_bh C strict : keeps (parse_bh C strict).
Proof. other parse_bh. Qed.
Lemma keeps_c : keeps parse_c.
Proof. other parse_c. Qed.
Lemma keeps_h : keeps parse_h.
Proof. other parse_h. Qed.
Lemma keeps_i strict : keeps (parse_i strict).
Proof. other parse_i. Qed.
Lemma keeps_l : keeps parse_l.
Proof. other parse_l. Qed.
Lemma keeps_q : keeps parse_q.
Proof. other parse_q. Qed.
Lemma keeps_x now : keeps (parse_x now).
Proof. other parse_x. Qed.
Lemma keeps_s : keeps parse_s.
Proof.
  intros s s' o (T & D & L) E. unfold parse_s, tag, fail_perm, done in E. destruct (GetTag (str "s") (sg_tags (fst s))) as [e|] eqn:G; injection E as <- <-.
  - pose proof (T _ _ G). unfold shown, holds. cbn. auto.
  - unfold shown, holds. auto.
Qed.
Lemma keeps_d strict : keeps (parse_d strict).
Proof.
  intros s s' o (T & D & L) E. unfold parse_d, tag, fail_perm, done, slift, lower_str in E.
  destruct (GetTag (str "d") (sg_tags (fst s))) as [e|] eqn:G; [|injection E as <- <-; unfold shown, holds; auto].
  pose proof (T _ _ G) as TV. pose proof (tame_low _ TV) as TL.
  destruct (strict && existsb is_8bit (te_value e)); injection E as <- <-; unfold shown, holds; cbn; auto.
Qed.

Lemma sig_shown C strict now h e st o : folded h -> Signature_Parse C strict now h (new_signature, e) = (st, o) -> shown st.
Proof.
  intros FH E. rewrite sig_run in E. unfold sig_stages in E. cbn [map fst run_stages] in E.
  destruct (parse_tags h (new_signature, e)) as [s1 o1] eqn:E1.
  destruct (stage_tags h FH (new_signature, e) s1 o1 (conj eq_refl (conj tame_nil tame_nil)) E1) as [S1 H1].
  destruct o1 as [[]| | |]; cbn [sbind] in E; try (injection E as <- _; exact S1).
  change (run_stages (map fst (tl (sig_stages C strict now h))) s1 = (st, o)) in E.
  apply (run_keeps holds shown (map fst (tl (sig_stages C strict now h)))) with (s := s1) (o := o); auto.
  - intros s (T & D & L). split; auto.
  - unfold sig_stages. cbn [tl map fst].
    repeat (apply Forall_cons; [first [apply keeps_arc|apply keeps_d|apply keeps_v|apply keeps_a|apply keeps_b|apply keeps_bh|apply keeps_c
      |apply keeps_h|apply keeps_i|apply keeps_l|apply keeps_q|apply keeps_s|apply keeps_x]|]). constructor.
Qed.

Lemma no_quiet {S} (s : S) w : worded (no_why s) w -> quiet w.
Proof. apply wording_quiet. Qed.
Lemma keeps_ok f : keeps f -> forall s s', holds s -> f s = (s', Ok tt) -> holds s'.
Proof. intros K s s' H E. destruct (K s s' _ H E) as [_ X]. auto. Qed.
Lemma v_quiet s w : holds s -> worded (v_why s) w -> quiet w.
Proof.
  intros (T & D & L). unfold v_why, tag. destruct (GetTag (str "v") _) as [e|] eqn:G; [|apply wording_quiet]. cbn [worded]. intros ->.
  apply format_quiet; [vm_compute; reflexivity|vm_compute; reflexivity|]. apply tame_noKL. exact (T _ _ G).
Qed.
Lemma a_quiet s w : holds s -> worded (a_why s) w -> quiet w.
Proof.
  intros (T & D & L). unfold a_why, tag. destruct (GetTag (str "a") _) as [e|] eqn:G; [|apply wording_quiet]. cbn [worded]. intros ->.
  apply format_quiet; [vm_compute; reflexivity|vm_compute; reflexivity|]. apply tame_noKL. exact (T _ _ G).
Qed.
Lemma q_quiet s w : holds s -> worded (q_why s) w -> quiet w.
Proof.
  intros (T & D & L). unfold q_why, tag. destruct (GetTag (str "q") _) as [e|] eqn:G; [|apply wording_quiet]. cbn [worded]. intros ->.
  apply format_quiet; [vm_compute; reflexivity|vm_compute; reflexivity|]. apply tame_noKL. exact (T _ _ G).
Qed.
Lemma noKL_back x y : noKL (x ++ y) -> noKL y.
Proof. intros N a b ->. apply (N (x ++ a) b). rewrite <- app_assoc. reflexivity. Qed.
Lemma c_quiet s w : holds s -> worded (c_why s) w -> quiet w.
Proof.
  intros (T & D & L). unfold c_why, tag. destruct (GetTag (str "c") _) as [e|] eqn:G; [|apply wording_quiet].
  pose proof (tame_noKL _ (T _ _ G)) as N.
  assert (X : noKL (match mode_of (match find_char (chr 47) (te_value e) with None => te_value e | Some i => firstn i (te_value e) end) with
                    | None => match find_char (chr 47) (te_value e) with None => te_value e | Some i => firstn i (te_value e) end
                    | Some _ => match find_char (chr 47) (te_value e) with None => str "simple" | Some i => skipn (S i) (te_value e) end end)).
  { destruct (find_char (chr 47) (te_value e)) as [i|].
    - destruct (mode_of _).
      + apply (noKL_back (firstn (S i) (te_value e))). rewrite firstn_skipn. exact N.
      + apply (noKL_front _ (skipn i (te_value e))). rewrite firstn_skipn. exact N.
    - destruct (mode_of _); [|exact N]. apply noKL_no_lf. vm_compute. intuition discriminate. }
  destruct (find_char (chr 47) (te_value e)) as [i|]; cbn [worded]; intros ->;
    apply format_quiet; try (vm_compute; reflexivity); exact X.
Qed.
Lemma i_quiet s w : holds s -> worded (i_why s) w -> quiet w.
Proof.
  intros (T & D & L). unfold i_why. destruct (sg_arc (fst s)); [apply wording_quiet|].
  destruct (tag "i" s) as [e|]; [|apply wording_quiet]. destruct (qp_decode (te_value e) false) as [m| | |]; try apply wording_quiet.
  destruct (find_char AT m) as [p|]; [|apply wording_quiet]. cbn [worded]. intros ->.
  assert (F := format_quiet "Domain " (lower (skipn (S p) m)) " is not a (sub)domain of " ltac:(vm_compute; reflexivity) ltac:(vm_compute; reflexivity)).
  assert (NK : noKL (lower (skipn (S p) m))).
  { apply noKL_no_k. rewrite <- map_low. intros I. apply in_map_iff in I as (c & E & _). exact (low_k c E). }
  destruct (F NK) as [F1 F2]. destruct (fixed_spec (str " (i does not match d)") ltac:(vm_compute; reflexivity)) as (B1 & B2 & B3 & B4). split.
  - apply noKL_app; [exact F1| |left; exact F2].
    apply noKL_app; [apply noKL_c_str, tame_noKL; exact D|apply noKL_no_lf; exact B1|right; exact B4].
  - rewrite app_assoc. apply last_ok_app; auto.
Qed.

Lemma sig_why_quiet C strict now h e w : folded h -> worded (first_why (sig_stages C strict now h) (new_signature, e)) w -> quiet w.
Proof.
  intros FH W. unfold sig_stages in W. cbn [first_why] in W.
  destruct (parse_tags h (new_signature, e)) as [s1 o1] eqn:E1.
  destruct (stage_tags h FH (new_signature, e) s1 o1 (conj eq_refl (conj tame_nil tame_nil)) E1) as [S1 H1].
  destruct o1 as [[]| | |]; try (apply wording_quiet; exact W).
  change (worded (first_why (tl (sig_stages C strict now h)) s1) w) in W.
  apply (first_why_quiet holds (tl (sig_stages C strict now h))) with (s := s1); auto.
  unfold sig_stages. cbn [tl].
  repeat (apply Forall_cons; [cbn [fst snd]; split; [apply keeps_ok; first [apply keeps_arc|apply keeps_d|apply keeps_v|apply keeps_a|apply keeps_b|apply keeps_bh|apply keeps_c
      |apply keeps_h|apply keeps_i|apply keeps_l|apply keeps_q|apply keeps_s|apply keeps_x]
    |first [apply v_quiet|apply a_quiet|apply c_quiet|apply i_quiet|apply q_quiet|intros s w' _; apply no_quiet]]|]). constructor.
Qed.

(** ** The key record *)
Definition plain_tags (p : public_key) : Prop := tags_in (fun v => ~ In LF v) (pk_tags p).
Ltac cut_key := repeat match goal with
  | E : (_, _) = (_, _) |- _ => first [discriminate E|injection E as <-; reflexivity]
  | E : context [match ?x with _ => _ end] |- _ => destruct x
  | E : context [if ?x then _ else _] |- _ => destruct x
  end.
Ltac other_key f := intros s s' HS E; assert (G : pk_tags s' = pk_tags s); [unfold f, slift in E; cut_key|unfold plain_tags in *; rewrite G; exact HS].
Lemma key_why_quiet C strict r w : ~ In LF r -> worded (first_why (key_stages C strict r) new_public_key) w -> quiet w.
Proof.
  intros N W. unfold key_stages in W. cbn [first_why] in W.
  destruct (key_tags r new_public_key) as [s1 o1] eqn:E1. destruct o1 as [[]| | |]; try (apply wording_quiet; exact W).
  assert (P1 : plain_tags s1).
  { unfold key_tags in E1. change (pk_tags new_public_key) with (@nil (bytes * tag_entry)) in E1. destruct (TagList_Parse [] r) as [t o] eqn:P. injection E1 as <- ->. intros n e G. cbn in G.
    destruct (parsed_tags _ _ P n e G) as [->|(TV & pre & post & ->)]; [intros []|]. intros I. apply N. apply in_or_app. right. apply in_or_app. auto. }
  change (worded (first_why (tl (key_stages C strict r)) s1) w) in W.
  apply (first_why_quiet plain_tags (tl (key_stages C strict r))) with (s := s1); auto.
  unfold key_stages. cbn [tl].
  assert (FM : forall a n b s w', fixed (str a) = true -> fixed (str b) = true -> plain_tags s ->
    worded (match ktag n s with None => None | Some e => Some (format a (te_value e) b) end) w' -> quiet w').
  { intros a n b s w' FA FB PS. unfold ktag. destruct (GetTag (str n) (pk_tags s)) as [e|] eqn:G; [|apply wording_quiet]. cbn [worded]. intros ->.
    apply format_quiet; auto. apply noKL_no_lf. exact (PS _ _ G). }
  apply Forall_cons. { cbn [fst snd]. split; [other_key key_v|]. intros s w'. apply FM; vm_compute; reflexivity. }
  apply Forall_cons. { cbn [fst snd]. split; [other_key key_h|]. intros s w' _. apply no_quiet. }
  apply Forall_cons. { cbn [fst snd]. split; [other_key key_k|]. intros s w'. apply FM; vm_compute; reflexivity. }
  apply Forall_cons. { cbn [fst snd]. split; [other_key key_p|]. intros s w' _. apply no_quiet. }
  apply Forall_cons. { cbn [fst snd]. split; [other_key key_s|]. intros s w' _. apply no_quiet. }
  apply Forall_cons. { cbn [fst snd]. split; [other_key key_t|]. intros s w' _. apply no_quiet. }
  constructor.
Qed.
Lemma name_quiet a s d : fixed (str a) = true -> tame s -> tame d -> last_ok (fun c => c <> KC) d ->
  quiet (str a ++ c_str s ++ str "._domainkey." ++ c_str d).
Proof.
  intros FA S D LD. apply fixed_spec in FA as (A1 & A2 & A3 & A4).
  destruct (fixed_spec (str "._domainkey.") ltac:(vm_compute; reflexivity)) as (B1 & B2 & B3 & B4).
  assert (ED : c_str d = d) by (apply c_str_id; apply D). assert (ES : c_str s = s) by (apply c_str_id; apply S). rewrite ED, ES. split.
  - apply noKL_app; [apply noKL_no_lf; exact A1| |left; exact A3].
    apply noKL_app; [apply tame_noKL; exact S| |right; exact B4]. apply noKL_app; [apply noKL_no_lf; exact B1|apply tame_noKL; exact D|left; exact B3].
  - destruct d as [|c d].
    + rewrite app_nil_r. rewrite app_assoc. apply last_ok_app; auto.
    + rewrite !app_assoc. apply last_ok_app; [discriminate|exact LD].
Qed.

(** ** CheckSignature *)
Lemma colon_quiet h : folded h -> quiet (colon_text (h_text h)).
Proof.
  intros [_ CB]. apply format_quiet; [vm_compute; reflexivity|vm_compute; reflexivity|].
  intros a b E. destruct (CB (a ++ [KC]) b) as (a' & E'). { rewrite E, <- app_assoc. reflexivity. }
  apply app_inj_tail in E' as [_ E']. discriminate.
Qed.
Definition cache_all (P : header -> Prop) (c : cache) : Prop := Forall (fun x => Forall P (snd x)) c.
Lemma cache_push_all (P : header -> Prop) n h c : P h -> cache_all P c -> cache_all P (cache_push n h c).
Proof.
  intros H. induction 1 as [|[m l] c L F IH]; cbn [cache_push]; [repeat constructor; auto|].
  destruct (beqb m n); constructor; auto. cbn in *. apply Forall_app. auto.
Qed.
Lemma build_cache_all (P : header -> Prop) strict hs : Forall P hs -> forall c c', cache_all P c -> build_cache strict hs c = Ok c' -> cache_all P c'.
Proof.
  induction 1 as [|h hs H F IH]; cbn [build_cache]; intros c c' A E; [injection E as <-; exact A|].
  destruct (lower_str strict (h_name h)); try discriminate. cbn [obind] in E. eapply IH; [|exact E]. apply cache_push_all; auto.
Qed.
Lemma cache_pop_all (P : header -> Prop) n c : cache_all P c -> forall h c', cache_pop n c = Some (h, c') -> P h /\ cache_all P c'.
Proof.
  induction 1 as [|[m l] c L F IH]; cbn [cache_pop]; intros h c' E; [discriminate|]. destruct (beqb m n).
  - cbn in L. apply Forall_rev in L. destruct (rev l) as [|x r]; [discriminate|]. injection E as <- <-. inversion L; subst. split; auto.
    constructor; auto. cbn. apply Forall_rev. auto.
  - destruct (cache_pop n c) as [[x r]|]; [|discriminate]. injection E as <- <-. destruct (IH _ _ eq_refl). split; auto. constructor; auto.
Qed.
Lemma hash_quiet strict mode names : forall c w, cache_all folded c -> worded (hash_why strict mode names c) w -> quiet w.
Proof.
  induction names as [|n r IH]; intros c w A W; cbn [hash_why] in W; [apply wording_quiet; exact W|].
  destruct (lower_str strict n); try (apply wording_quiet; exact W). destruct (cache_pop a c) as [[h c1]|] eqn:E; [|eauto].
  destruct (cache_pop_all _ _ _ A _ _ E) as [H A1].
  assert (Q : worded (filter_why (h_text h)) w -> quiet w).
  { unfold filter_why. destruct (find_char COLON (h_text h)); [apply wording_quiet|]. cbn [worded]. intros ->. apply colon_quiet. exact H. }
  destruct (FilterHeader strict mode (h_text h)); auto. eauto.
Qed.
Lemma check_quiet strict g p v w : Forall folded (m_headers (v_msg v)) -> worded (check_why strict g p v) w -> quiet w.
Proof.
  intros F. unfold check_why. destruct (key_allows g p); [|apply wording_quiet].
  destruct (build_cache strict (m_headers (v_msg v)) []) as [c| | |] eqn:E; try apply wording_quiet.
  apply hash_quiet. eapply build_cache_all; eauto. constructor.
Qed.

(** ** The try block and the loops *)
Lemma try_shown C strict now resolve h e v v1 e1 g p o : folded h -> try_one C strict now resolve h e v = (v1, e1, g, p, o) ->
  tame (sg_domain g) /\ tame (sg_selector g) /\ v_msg v1 = v_msg v.
Proof.
  intros FH. unfold try_one, GetSignature. destruct (Signature_Parse C strict now h (new_signature, e)) as [st r] eqn:P.
  destruct (sig_shown _ _ _ _ _ _ _ FH P) as [D S].
  assert (M : forall v' o', CheckBodyHash C (fst st) v = (v', o') -> v_msg v' = v_msg v).
  { unfold CheckBodyHash. intros v' o'. destruct (CanonicalizationBody _ _ _ _ _) as [[[ch b] s1]| | |]; intros [= <- _]; reflexivity. }
  destruct r as [[]| | |]; try (intros [= <- <- <- <- <-]; auto).
  destruct (CheckBodyHash C (fst st) v) as [v' o'] eqn:B. specialize (M _ _ eq_refl).
  destruct o' as [[]| | |]; try (intros [= <- <- <- <- <-]; auto).
  destruct (GetPublicKey C strict resolve (fst st) new_public_key) as [p' o'']. destruct o'' as [[]| | |]; intros [= <- <- <- <- <-]; auto.
Qed.
Lemma public_quiet C strict resolve g w : tame (sg_selector g) -> tame (sg_domain g) -> last_ok (fun c => c <> KC) (sg_domain g) ->
  (forall q r, resolve q = Ok (true, r) -> ~ In LF r) -> worded (public_why C strict resolve g) w -> quiet w.
Proof.
  intros S D LD RS. unfold public_why. destruct (resolve (key_query g)) as [[[] r]| | |] eqn:R; try apply wording_quiet.
  - destruct r as [|c r].
    + cbn [worded]. intros ->. apply name_quiet; auto.
    + apply key_why_quiet. exact (RS _ _ R).
  - cbn [worded]. intros ->. apply name_quiet; auto.
Qed.
Lemma try_quiet C strict now resolve h e v w : folded h -> Forall folded (m_headers (v_msg v)) -> (forall q r, resolve q = Ok (true, r) -> ~ In LF r) ->
  worded (try_why C strict now resolve h e v) w -> quiet w.
Proof.
  intros FH FM RS. unfold try_why. destruct (Signature_Parse C strict now h (new_signature, e)) as [[g e1] r] eqn:P.
  destruct (sig_shown _ _ _ _ _ _ _ FH P) as [D S]. cbn [fst] in *.
  destruct r as [[]| | |]; try (apply sig_why_quiet; exact FH).
  assert (M : forall v' o', CheckBodyHash C g v = (v', o') -> v_msg v' = v_msg v).
  { unfold CheckBodyHash. intros v' o'. destruct (CanonicalizationBody _ _ _ _ _) as [[[ch b] s1]| | |]; intros [= <- _]; reflexivity. }
  destruct (CheckBodyHash C g v) as [v' o'] eqn:B. specialize (M _ _ eq_refl). destruct o' as [[]| | |]; try apply wording_quiet.
  assert (LD : last_ok (fun c => c <> KC) (sg_domain g)).
  { destruct (parse_mandatory _ _ _ _ _ _ _ P) as (l & _ & (d & _ & ->) & _). unfold last_ok. rewrite <- map_rev. destruct (rev d); [exact I|]. apply low_k. }
  destruct (GetPublicKey C strict resolve g new_public_key) as [p o]. destruct o as [[]| | |]; try (apply public_quiet; auto; fail).
  apply check_quiet. rewrite M. exact FM.
Qed.

Definition pair_ok (l : line) (y : option bytes) : Prop :=
  ~ In LF (l_file l) /\ tame (l_domain l) /\ tame (l_selector l) /\ forall w, worded y w -> quiet w.
Lemma sigs_pairs C strict clock resolve name : (forall q r, resolve q = Ok (true, r) -> ~ In LF r) -> ~ In LF name ->
  forall hs, Forall folded hs -> forall v n e ls n' e' x, Forall folded (m_headers (v_msg v)) ->
  tool_sigs C strict clock resolve name hs v n e = (ls, n', e', x) -> Forall2 pair_ok ls (sigs_why C strict clock resolve hs v n e).
Proof.
  intros RS NN hs F. induction F as [|h hs FH F IH]; intros v n e ls n' e' x FM E; cbn [tool_sigs sigs_why] in *; [injection E as <- _ _ _; constructor|].
  destruct (try_one C strict (clock n) resolve h e v) as [[[[v1 e1] g] p] o] eqn:T.
  destruct (try_shown _ _ _ _ _ _ _ _ _ _ _ _ FH T) as (D & SE & M).
  destruct (report_of p o) as [rep|y]; [|injection E as <- _ _ _; constructor].
  destruct (tool_sigs C strict clock resolve name hs v1 (S n) e1) as [[[ls1 n1] e2] x1] eqn:R. injection E as <- _ _ _. constructor.
  - split; [exact NN|]. split; [exact D|]. split; [exact SE|]. intros w. apply try_quiet; auto.
  - eapply IH; [|exact R]. rewrite M. exact FM.
Qed.
Lemma collect_incl strict wanted hs l : collect strict wanted hs = Ok l -> incl l hs.
Proof.
  revert l. induction hs as [|h r IH]; cbn [collect]; intros l E; [injection E as <-; intros x []|].
  destruct (lower_str strict (h_name h)) as [n| | |]; try discriminate. cbn [obind] in E.
  destruct (collect strict wanted r) as [l'| | |]; try discriminate. cbn [obind] in E. injection E as <-.
  destruct (beqb n wanted); [apply incl_cons; [left; reflexivity|]|]; apply incl_tl; auto.
Qed.
Lemma opened_folded strict ty f v : new_validatory strict ty (open_file f) = Ok v ->
  Forall folded (m_headers (v_msg v)) /\ Forall folded (v_sigs v).
Proof.
  intros E. assert (A : Forall folded (m_headers (v_msg v)) /\ incl (v_sigs v) (m_headers (v_msg v))).
  { unfold new_validatory in E. destruct f as [t|]; cbn [open_file] in E.
    - destruct (parse_all new_message (open_str t)) as [[m s]| | |] eqn:P; try discriminate. cbn [obind] in E.
      destruct (message_texts _ _ _ P) as [F _].
      destruct ty; [| |injection E as <-; split; [exact F|intros x []]];
        match type of E with obind ?c _ = _ => destruct c as [l| | |] eqn:K; try discriminate end; cbn [obind] in E; injection E as <-;
        split; auto; eapply collect_incl; eauto.
    - match type of E with obind ?c _ = _ => destruct c as [[m s]| | |] eqn:P end; try discriminate.
      vm_compute in P. injection P as <- <-. cbn [obind] in E.
      destruct ty; cbn in E; injection E as <-; split; try constructor; intros x []. }
  destruct A as [A B]. split; [exact A|]. rewrite Forall_forall in *. auto.
Qed.
Lemma files_pairs C strict clock resolve fs ty : (forall q r, resolve q = Ok (true, r) -> ~ In LF r) ->
  forall names, Forall (fun f => ~ In LF f) names -> forall n e ls x,
  tool_files C strict clock resolve fs ty names n e = (ls, x) -> Forall2 pair_ok ls (files_why C strict clock resolve fs ty names n e).
Proof.
  intros RS names F. induction F as [|f r NF F IH]; intros n e ls x E; cbn [tool_files files_why] in *; [injection E as <- _; constructor|].
  destruct (new_validatory strict ty (open_file (fs f))) as [v| | |] eqn:V; try (injection E as <- _; constructor).
  destruct (opened_folded _ _ _ _ V) as [A B].
  destruct (tool_sigs C strict clock resolve f (v_sigs v) v n e) as [[[ls1 n1] e1] x1] eqn:S.
  pose proof (sigs_pairs _ _ _ _ _ RS NF _ B _ _ _ _ _ _ _ A S) as P1. destruct x1 as [y|].
  - injection E as <- _. rewrite app_nil_r. exact P1.
  - destruct (tool_files C strict clock resolve fs ty r n1 e1) as [ls2 x2] eqn:R. injection E as <- _. apply Forall2_app; [exact P1|]. eapply IH; eauto.
Qed.
Lemma getopt_files args : Forall (fun a => ~ In LF a) args -> Forall (fun a => ~ In LF a) (snd (getopt args)).
Proof.
  assert (G : forall n args, length args < n -> Forall (fun a => ~ In LF a) args -> Forall (fun a => ~ In LF a) (snd (getopt args))).
  { induction n as [|n IH]; intros l L F; [lia|]. destruct l as [|a r]; [constructor|]. inversion F as [|? ? FA FR]; subst. cbn [length] in L.
    assert (KEEP : Forall (fun a => ~ In LF a) (snd (let '(es, files) := getopt r in (es, a :: files)))).
    { specialize (IH r ltac:(lia) FR). destruct (getopt r). cbn in *. constructor; auto. }
    destruct a as [|d1 [|d2 text]]; [exact KEEP|exact KEEP|]. cbn [getopt]. destruct (d1 =?c DASH); [|exact KEEP].
    destruct (beqb (d1 :: d2 :: text) [DASH; DASH]); [exact FR|].
    match goal with |- context [let '(_, _) := ?q in _] => destruct q as [es used] end.
    destruct used.
    - destruct r as [|b r']; [constructor|]. inversion FR; subst. cbn [length] in L. specialize (IH r' ltac:(lia) ltac:(auto)). destruct (getopt r'). exact IH.
    - specialize (IH r ltac:(lia) FR). destruct (getopt r). exact IH. }
  intros F. apply (G (S (length args))); auto.
Qed.
Lemma main_pairs C strict clock resolve fs args ls x : (forall q r, resolve q = Ok (true, r) -> ~ In LF r) -> Forall (fun a => ~ In LF a) args ->
  tool_main C strict clock resolve fs args = (P_lines ls, x) -> Forall2 pair_ok ls (main_why C strict clock resolve fs args).
Proof.
  intros RS F E. unfold tool_main in E. unfold main_why. destruct args as [|a0 args0]; [discriminate|].
  pose proof (getopt_files _ F) as G. destruct (getopt (a0 :: args0)) as [es files].
  destruct (take_options es new_args) as [a|y]; [|destruct y as [[]| | |]; discriminate].
  destruct files as [|f r]; [discriminate|]. cbn [snd] in G. destruct (a_validate a).
  - destruct (tool_files C strict clock resolve fs (a_type a) (f :: r) 0 (a_errno a)) as [l e] eqn:T. injection E as <- _. eapply files_pairs; eauto.
  - destruct (_ || _); [discriminate|]. destruct (tool_sign _ _ _ _ _ _) as [t e]. destruct t; discriminate.
Qed.

(** ** Lines *)
Lemma lf_folds_app x y : lf_folds x -> lf_folds y -> lf_folds (x ++ y).
Proof.
  intros X Y a b E. apply app_eq_app in E as (l & [[E1 E2]|[E1 E2]]).
  - destruct l as [|c l]; [exact (Y [] b (eq_sym E2))|]. injection E2 as <- ->. destruct (X _ _ E1) as (c & r & -> & W). exists c, (r ++ y). auto.
  - exact (Y _ _ E2).
Qed.
Lemma lf_folds_no x : ~ In LF x -> lf_folds x.
Proof. intros N a b ->. exfalso. apply N. apply in_elt. Qed.
Definition ok_text (l : line) : bytes := ok_line (l_file l) (l_domain l) (l_selector l).
Lemma line_text_ok l y w : pair_ok l y -> l_report l = R_OK -> line_text l w = ok_text l ++ [LF].
Proof.
  intros (_ & (_ & _ & D) & (_ & _ & S) & _) R. unfold line_text, ok_text, ok_line. rewrite R, (c_str_id _ D), (c_str_id _ S). rewrite <- !app_assoc. reflexivity.
Qed.
Lemma ok_text_folds l y : pair_ok l y -> lf_folds (ok_text l).
Proof.
  intros (N & (D & _ & _) & (S & _ & _) & _). unfold ok_text, ok_line.
  assert (Z : forall s, fixed (str s) = true -> lf_folds (str s)). { intros s H. apply fixed_spec in H as [H _]. apply lf_folds_no. exact H. }
  repeat apply lf_folds_app; auto; try (apply lf_folds_no; exact N); apply lf_folds_no; vm_compute; intuition discriminate.
Qed.
Lemma line_text_noKL l y w : pair_ok l y -> worded y w -> l_report l <> R_OK -> noKL (line_text l w).
Proof.
  intros (N & D & S & Q) W R. destruct (Q w W) as [Q1 Q2]. unfold line_text.
  assert (NL : forall s, ~ In LF (str s) -> noKL (str s)) by (intros; apply noKL_no_lf; auto).
  assert (X : forall a c b, ~ In LF (str a) -> ~ In LF (str b) -> fixed (str b) = true -> noKL ((str a ++ ar_string c ++ str b ++ w) ++ [LF])).
  { intros a c b NA NB FB. apply fixed_spec in FB as (B1 & B2 & B3 & B4).
    assert (NC : ~ In LF (ar_string c)) by (destruct c; vm_compute; intuition discriminate).
    assert (E : (str a ++ ar_string c ++ str b ++ w) ++ [LF] = (str a ++ ar_string c ++ str b) ++ w ++ [LF]) by (rewrite <- !app_assoc; reflexivity).
    rewrite E. apply noKL_app; [|apply noKL_app; [exact Q1|apply noKL_no_k; intros [K|[]]; discriminate|left; exact Q2]|left].
    - apply noKL_no_lf. intros I. apply in_app_or in I as [I|I]; [auto|]. apply in_app_or in I as [I|I]; auto.
    - rewrite app_assoc. apply last_ok_app; auto. }
  assert (E : noKL (match l_report l with
      | R_OK => str " OK"
      | R_TEMP c => str "(" ++ ar_string c ++ str ") TEMPERR:" ++ w
      | R_SOFT c => str "(" ++ ar_string c ++ str ") SOFT:" ++ w
      | R_PERM c => str "(" ++ ar_string c ++ str ") = " ++ w
      end ++ [LF])).
  { destruct (l_report l); [congruence| | |]; apply X; try (vm_compute; reflexivity); vm_compute; intuition discriminate. }
  assert (FX : forall s, fixed (str s) = true -> ~ In LF (str s) /\ first_ok (fun c => c <> LF) (str s) /\ last_ok (fun c => c <> KC) (str s)).
  { intros s H. apply fixed_spec in H as (H1 & H2 & H3 & H4). auto. }
  destruct (FX "["%string ltac:(vm_compute; reflexivity)) as (A1 & A2 & A3). destruct (FX "]["%string ltac:(vm_compute; reflexivity)) as (B1 & B2 & B3).
  destruct (FX "]"%string ltac:(vm_compute; reflexivity)) as (C1 & C2 & C3).
  assert (T : forall v, tame v -> noKL (c_str v)) by (intros v H; apply noKL_c_str, tame_noKL; exact H).
  apply noKL_app; [auto| |left; exact A3]. apply noKL_app; [apply noKL_no_lf; exact N| |right; cbn; discriminate].
  apply noKL_app; [auto| |left; exact B3]. apply noKL_app; [auto| |right; cbn; discriminate].
  apply noKL_app; [auto| |left; exact B3]. apply noKL_app; [auto| |right; cbn; discriminate].
  apply noKL_app; [auto|exact E|left; exact C3].
Qed.
Lemma line_text_ends l w : exists t, line_text l w = t ++ [LF].
Proof. eexists. unfold line_text. rewrite !app_assoc. reflexivity. Qed.

(** Where a K stands before an LF, a report that says OK ends. *)
Lemma printing_ok ls ys out : Forall2 pair_ok ls ys -> printing ls ys out -> forall a b, out = a ++ KC :: LF :: b ->
  exists l y o1 o2, In l ls /\ pair_ok l y /\ l_report l = R_OK /\ out = o1 ++ ok_text l ++ LF :: o2 /\ b = o2 /\ (o1 = [] \/ exists o', o1 = o' ++ [LF]).
Proof.
  intros F P. induction P as [|l ls y ys w out W P IH]; intros a b E; [destruct a; discriminate|].
  inversion F as [|? ? ? ? PO F']; subst.
  destruct (line_text_ends l w) as [t T]. apply app_eq_app in E as (k & [[E1 E2]|[E1 E2]]).
  - destruct k as [|c k].
    + cbn [app] in E2. destruct (IH F' [] b (eq_sym E2)) as (l' & y' & o1 & o2 & I & PO' & R & E & EB & O). exists l', y', (line_text l w ++ o1), o2.
      split; [right; exact I|]. split; [exact PO'|]. split; [exact R|]. split; [rewrite E, <- app_assoc; reflexivity|]. split; [exact EB|]. right.
      destruct O as [->|(o' & ->)]; [rewrite app_nil_r; eauto|]. exists (line_text l w ++ o'). rewrite app_assoc. reflexivity.
    + injection E2 as <- E2. destruct k as [|c k].
      * rewrite T in E1. apply app_inj_tail in E1 as [_ E1]. discriminate.
      * injection E2 as <- ->. destruct (l_report l) eqn:R; try (exfalso; refine (line_text_noKL l y w PO W _ a k E1); congruence).
        exists l, y, [], out. rewrite (line_text_ok l y w PO R) in *.
        assert (K : k = []).
        { clear - E1 PO. destruct k as [|c k]; [reflexivity|exfalso]. assert (NE : c :: k <> []) by discriminate. destruct (exists_last NE) as (k' & z & K).
          rewrite K in E1. change (a ++ KC :: LF :: k' ++ [z]) with (a ++ (KC :: LF :: k') ++ [z]) in E1. rewrite app_assoc in E1.
          apply app_inj_tail in E1 as [E1 _].
          assert (Q : noKL (ok_text l)).
          { destruct PO as (N & D & S & _). unfold ok_text, ok_line. pose proof (tame_noKL _ D). pose proof (tame_noKL _ S).
            apply noKL_app; [apply noKL_no_lf; vm_compute; intuition discriminate| |left; discriminate].
            apply noKL_app; [apply noKL_no_lf; exact N| |right; discriminate]. apply noKL_app; [apply noKL_no_lf; vm_compute; intuition discriminate| |left; discriminate].
            apply noKL_app; [assumption| |right; discriminate]. apply noKL_app; [apply noKL_no_lf; vm_compute; intuition discriminate| |left; discriminate].
            apply noKL_app; [assumption| |right; discriminate]. apply noKL_no_lf; vm_compute; intuition discriminate. }
          exact (Q _ _ E1). }
        subst k. split; [left; reflexivity|]. split; [exact PO|]. split; [exact R|]. split; [rewrite <- app_assoc; reflexivity|]. split; [reflexivity|auto].
  - destruct (IH F' k b E2) as (l' & y' & o1 & o2 & I & PO' & R & E & EB & O). exists l', y', (line_text l w ++ o1), o2.
    split; [right; exact I|]. split; [exact PO'|]. split; [exact R|]. split; [rewrite E, <- app_assoc; reflexivity|]. split; [exact EB|]. right.
    destruct O as [->|(o' & ->)]; [rewrite app_nil_r; eauto|]. exists (line_text l w ++ o'). rewrite app_assoc. reflexivity.
Qed.

Lemma bracket_split (x y u v : bytes) : ~ In "]"%char x -> ~ In "]"%char y -> x ++ "]"%char :: u = y ++ "]"%char :: v -> x = y /\ u = v.
Proof.
  revert y. induction x as [|c x IH]; intros [|d y] NX NY E; cbn in E; [injection E as E; auto| | |]; injection E as E1 E2.
  - exfalso. apply NY. left. auto.
  - exfalso. apply NX. left. auto.
  - subst d. destruct (IH y ltac:(intros K; apply NX; right; exact K) ltac:(intros K; apply NY; right; exact K) E2) as [-> ->]. auto.
Qed.
Definition brackets (s : bytes) : nat := count_occ ascii_dec s "]"%char.
Lemma ok_line_inj f d s f' d' s' : ~ In "]"%char f -> ~ In "]"%char d -> ~ In "]"%char s -> ok_line f' d' s' = ok_line f d s -> f' = f /\ d' = d /\ s' = s.
Proof.
  intros F D S E.
  assert (Z : forall x, brackets x = 0 -> ~ In "]"%char x) by (intros x; apply count_occ_not_In).
  assert (Z' : forall x, ~ In "]"%char x -> brackets x = 0) by (intros x; apply count_occ_not_In).
  assert (A : forall x y, brackets (x ++ y) = brackets x + brackets y) by (intros; apply count_occ_app).
  assert (C := f_equal brackets E). unfold ok_line in C. rewrite !A in C. rewrite (Z' f F), (Z' d D), (Z' s S) in C.
  change (brackets (str "[")) with 0 in C. change (brackets (str "][")) with 1 in C. change (brackets (str "] OK")) with 1 in C.
  assert (F' : ~ In "]"%char f') by (apply Z; lia). assert (D' : ~ In "]"%char d') by (apply Z; lia). assert (S' : ~ In "]"%char s') by (apply Z; lia).
  unfold ok_line in E. apply app_inv_head in E. apply bracket_split in E as [-> E]; auto. split; [reflexivity|]. injection E as E.
  apply bracket_split in E as [-> E]; auto. split; [reflexivity|]. injection E as E. apply bracket_split in E as [-> E]; auto.
Qed.

Lemma ok_reported C strict clock resolve fs args ls x out f d s : (forall q r, resolve q = Ok (true, r) -> ~ In LF r) -> Forall (fun a => ~ In LF a) args ->
  tool_main C strict clock resolve fs args = (P_lines ls, x) -> printing ls (main_why C strict clock resolve fs args) out ->
  line_of out (ok_line f d s) -> ~ In "]"%char f -> ~ In "]"%char d -> ~ In "]"%char s -> In (mkLine f d s R_OK) ls.
Proof.
  intros RS F E P (NL & a & b & EO & A) NF ND NS. pose proof (main_pairs _ _ _ _ _ _ _ _ RS F E) as PR.
  assert (SP : exists x', ok_line f d s = x' ++ [KC]). { eexists. unfold ok_line. rewrite !app_assoc. change (str "] OK") with (str "] O" ++ [KC]). rewrite app_assoc. reflexivity. }
  destruct SP as [x' X].
  destruct (printing_ok _ _ _ PR P (a ++ x') b) as (l & y & o1 & o2 & I & PO & R & E2 & -> & O).
  { rewrite EO, X, <- !app_assoc. reflexivity. }
  assert (T : o1 ++ ok_text l = a ++ ok_line f d s).
  { rewrite EO in E2. rewrite !app_assoc in E2. apply app_inv_tail in E2. auto. }
  assert (TX : ok_text l = ok_line f d s).
  { apply app_eq_app in T as (k & [[E1 E3]|[E1 E3]]).
    - destruct k as [|c k]; [symmetry; rewrite E3; reflexivity|exfalso].
      assert (NE : c :: k <> []) by discriminate. destruct (exists_last NE) as (k' & z & K). rewrite K in *.
      destruct O as [->|(o' & ->)]; [destruct a; destruct k'; discriminate|]. rewrite app_assoc in E1. apply app_inj_tail in E1 as [_ <-].
      apply NL. rewrite E3. apply in_or_app. left. apply in_or_app. right. left. reflexivity.
    - destruct k as [|c k]; [exact E3|exfalso].
      assert (NE : c :: k <> []) by discriminate. destruct (exists_last NE) as (k' & z & K). rewrite K in *.
      destruct A as [->|(a' & ->)]; [destruct o1; destruct k'; discriminate|]. rewrite app_assoc in E1. apply app_inj_tail in E1 as [_ <-].
      rewrite <- app_assoc in E3. destruct (ok_text_folds l y PO _ _ E3) as (c' & r & E4 & W). injection E4 as <- _. destruct W; discriminate. }
  destruct l as [f' d' s' rep]. unfold ok_text in TX. cbn in TX, R. subst rep. apply ok_line_inj in TX as (-> & -> & ->); auto.
Qed.
