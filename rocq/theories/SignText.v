(** The text CreateSignature puts together: folding of b= and h=, the tags, the lines. *)
From Verif Require Import Bytes Outcome Stream Tokenizer QuotedPrintable Base64 TagList MailParser Canonicalization Util CStdlib Crypto
  SignatoryOptions Signatory BytesFacts SpecText SpecTags SpecMail SpecCanon SpecVerify SpecSig SpecOptions SpecSign QPFacts Base64Facts
  ListFacts MailFacts HeaderFacts HeaderProps TagListFacts SigFacts SigProps SignNumbers.

(** ** Lines *)
Lemma joined_head a l m : joined ((a ++ l) :: m) = a ++ joined (l :: m).
Proof. destruct m; cbn [joined]; [reflexivity|]. rewrite <- app_assoc. reflexivity. Qed.
Lemma joined_cons2 l k m : joined (l :: k :: m) = l ++ CRLF ++ joined (k :: m). Proof. reflexivity. Qed.
Lemma tab_line_app x y : tab_line x -> tab_line (x ++ y).
Proof. intros (r & ->). exists (r ++ y). auto. Qed.
Lemma folded_app a b : folded_text a -> folded_text b -> folded_text (a ++ b).
Proof.
  intros (l & g & -> & NL & F) (l' & g' & -> & NL' & F').
  enough (X : exists g'', joined (l :: g) ++ joined (l' :: g') = joined ((l ++ match g with [] => l' | _ => [] end) :: g'') /\
    Forall (fun x => tab_line x /\ ~ In LF x) g'').
  { destruct X as (g'' & E & F2). rewrite E. eexists; eexists; split; [reflexivity|]. split; auto.
    intros I. apply in_app_or in I as [I|I]; auto. destruct g; auto. }
  clear NL. revert l. induction F as [|x g [Cx NLx] F IH]; intros l.
  - exists g'. split; auto. rewrite joined_head. reflexivity.
  - destruct (IH x) as (g2 & E & F2). rewrite app_nil_r, joined_cons2, <- !app_assoc, E.
    exists ((x ++ match g with [] => l' | _ => [] end) :: g2). split; [reflexivity|]. constructor; auto. split; [apply tab_line_app; auto|].
    intros I. apply in_app_or in I as [I|I]; auto. destruct g; auto.
Qed.
Lemma folded_plain t : ~ In LF t -> folded_text t.
Proof. intros N. exists t, []. auto. Qed.
Lemma folded_crlf c t : c = HT -> ~ In LF (c :: t) -> folded_text (CRLF ++ c :: t).
Proof.
  intros W N. exists [], [c :: t]. split; [reflexivity|]. split; [auto|]. constructor; auto. split; auto. exists t. subst. auto.
Qed.
Lemma folded_joined l g : ~ In LF l -> Forall (fun x => tab_line x /\ ~ In LF x) g -> folded_text (joined (l :: g)).
Proof. intros A B. exists l, g. auto. Qed.

(** ** The fold of b= *)
Definition with_ht_sp (l : bytes) : bytes := HT :: SP :: l.
Lemma fold_b_lines f : forall off e, off < 80 -> length e < f ->
  exists l ls, fold_b f off e = joined (l :: map with_ht_sp ls) /\ concat (l :: ls) = e /\ length l <= 80 - off /\
    Forall (fun x => x <> [] /\ length x <= 78) ls /\ (e <> [] -> l <> []).
Proof.
  induction f as [|f IH]; intros off e O L; [lia|]. cbn [fold_b]. destruct e as [|c e].
  - exists [], []. cbn. repeat split; auto; lia.
  - set (x := c :: e) in *. assert (Nx : x <> []) by discriminate.
    assert (F1 : firstn (80 - off) x <> []).
    { destruct (80 - off) eqn:Q; [lia|]. discriminate. }
    pose proof (firstn_skipn (80 - off) x) as FS. pose proof (firstn_le_length (80 - off) x) as FL.
    destruct (skipn (80 - off) x) as [|d r] eqn:K.
    + rewrite app_nil_r in FS. exists (firstn (80 - off) x), []. cbn [map joined concat]. rewrite !app_nil_r. auto.
    + assert (LK : length (skipn (80 - off) x) <= length x - 1) by (rewrite skipn_length; lia). rewrite K in LK.
      destruct (IH 2 (d :: r)) as (l & ls & E & CC & L1 & F & NE); [lia|assert (1 <= length x) by (subst x; cbn [length]; lia); lia|]. rewrite E.
      exists (firstn (80 - off) x), (l :: ls). cbn [map]. split.
      { rewrite joined_cons2. do 2 f_equal. change (with_ht_sp l) with ([HT; SP] ++ l). rewrite joined_head. reflexivity. }
      split. { change (firstn (80 - off) x ++ concat (l :: ls) = x). rewrite CC. exact FS. }
      split; [exact FL|]. split; auto. constructor; auto. split; [apply NE; discriminate|exact L1].
Qed.
(** Base64 letters over several lines. *)
Lemma b64_value_byte c : b64_letter c -> value_byte c.
Proof.
  intros B. pose proof (b64_letter_range c B). split; [exact H|]. intros ->.
  destruct B as [[A B]|[[A B]|[[A B]|[A|[A|A]]]]]; try discriminate; vm_compute in A, B; congruence.
Qed.
Lemma value_byte_LF c : value_byte c -> c <> LF.
Proof. intros [[A _] _] ->. vm_compute in A. congruence. Qed.
Lemma Forall_not_In {A} (P : A -> Prop) x l : Forall P l -> ~ P x -> ~ In x l.
Proof. intros F N I. rewrite Forall_forall in F. auto. Qed.
Lemma plain_value v : Forall value_byte v -> tag_value v.
Proof.
  intros F. split; [eapply Forall_impl; [|exact F]; auto|]. split; [inversion F; cbn; auto|].
  unfold last_ok. apply Forall_rev in F. inversion F; cbn; auto.
Qed.
Lemma concat_Forall {A} (P : A -> Prop) ls : Forall P (concat ls) -> Forall (Forall P) ls.
Proof. apply Forall_concat. Qed.
Lemma folded_lines_unspaced l ls : Forall b64_letter (concat (l :: ls)) -> unspaced (joined (l :: map with_ht_sp ls)) = concat (l :: ls).
Proof.
  assert (U : forall x y, Forall b64_letter x -> unspaced (x ++ y) = x ++ unspaced y).
  { intros x y F. unfold unspaced. rewrite filter_app. f_equal. induction F as [|c x B F IH]; cbn [filter]; auto.
    pose proof (b64_letter_range c B). destruct (N.eqb_spec (code c) 32); [lia|]. destruct (N.leb_spec (code c) 13); [lia|].
    rewrite andb_false_r. cbn [orb negb]. rewrite IH. reflexivity. }
  revert l. induction ls as [|k ls IH]; intros l F; cbn [concat] in F.
  - cbn [map joined concat]. rewrite <- (app_nil_r l) at 1. apply U. rewrite app_nil_r in F. exact F.
  - apply Forall_app in F as [F1 F2]. cbn [map]. rewrite joined_cons2, U by auto. cbn [concat]. f_equal.
    change (with_ht_sp k) with ([HT; SP] ++ k). rewrite joined_head.
    change (unspaced (CRLF ++ [HT; SP] ++ joined (k :: map with_ht_sp ls))) with (unspaced (joined (k :: map with_ht_sp ls))).
    rewrite IH; auto.
Qed.
Lemma lines_value l ls : l <> [] -> Forall (fun x => x <> []) ls -> Forall value_byte (concat (l :: ls)) ->
  tag_value (joined (l :: map with_ht_sp ls)) /\ folded_text (joined (l :: map with_ht_sp ls)).
Proof.
  intros NL NE F. apply concat_Forall in F. assert (Fl := Forall_inv F). assert (Fs := Forall_inv_tail F). clear F.
  split.
  - assert (A : forall l, Forall value_byte l -> l <> [] -> Forall (fun c => value_byte c \/ LWSP c) (joined (l :: map with_ht_sp ls)) /\
       last_ok value_byte (joined (l :: map with_ht_sp ls))).
    { clear NL l Fl. induction ls as [|k ls IH]; intros l Fl NL.
      - cbn [map joined]. split; [eapply Forall_impl; [|exact Fl]; auto|]. apply plain_value. exact Fl.
      - cbn [map]. rewrite joined_cons2. change (with_ht_sp k) with ([HT; SP] ++ k). rewrite joined_head.
        inversion NE; subst. inversion Fs; subst. destruct (IH H2 H4 k H3 H1) as [I1 I2]. split.
        + apply Forall_app. split; [eapply Forall_impl; [|exact Fl]; auto|]. unfold CRLF. cbn [app].
          repeat (constructor; [right; unfold LWSP; auto|]). exact I1.
        + apply last_ok_app; [discriminate|]. unfold CRLF. cbn [app]. apply (last_ok_app _ [CR; LF; HT; SP]); auto.
          destruct k; [congruence|]. destruct ls; discriminate. }
    destruct (A l Fl NL) as [A1 A2]. split; auto. split; auto. destruct l as [|c l]; [congruence|].
    change (c :: l) with ([c] ++ l). rewrite joined_head. cbn. inversion Fl; auto.
  - apply folded_joined.
    + eapply Forall_not_In; [exact Fl|]. intros V. apply value_byte_LF in V. congruence.
    + apply Forall_map. eapply Forall_impl; [|exact Fs]. intros x Fx. split; [exists (SP :: x); auto|].
      intros [E|[E|I]]; try discriminate. rewrite Forall_forall in Fx. apply Fx in I. apply value_byte_LF in I. congruence.
Qed.
Lemma fold_b_value d : d <> [] -> let B := fold_b (S (length (Base64_Encode d))) 3 (Base64_Encode d) in
  tag_value B /\ folded_text B /\ unspaced B = Base64_Encode d /\ B <> [].
Proof.
  intros N B. assert (NE : Base64_Encode d <> []).
  { intros E. pose proof (Base64_round (fun _ => []) d) as R. rewrite E in R. change (Base64_Decode (fun _ => []) []) with (@nil ascii) in R. congruence. }
  destruct (fold_b_lines (S (length (Base64_Encode d))) 3 (Base64_Encode d)) as (l & ls & E & CC & _ & F & NL); [lia|lia|].
  pose proof (Base64_letters d) as BL. rewrite <- CC in BL.
  assert (VB : Forall value_byte (concat (l :: ls))) by (eapply Forall_impl; [|exact BL]; intros; apply b64_value_byte; auto).
  destruct (lines_value l ls) as [TV FT]; auto. { eapply Forall_impl; [|exact F]. intros x [X _]. exact X. }
  subst B. rewrite E. split; auto. split; auto. split; [rewrite <- CC; apply folded_lines_unspaced; auto|].
  specialize (NL NE). destruct l; [congruence|]. destruct ls; discriminate.
Qed.

(** ** The h= list *)
Inductive h_layout : bool -> list bytes -> bytes -> Prop :=
| ht_nil first : h_layout first [] []
| ht_cons (first : bool) n r w t : w = [] \/ w = CRLF ++ [HT; SP] -> h_layout false r t ->
    h_layout first (n :: r) ((if first then [] else [COLON]) ++ w ++ n ++ t).
Lemma h_list_text names : forall first cur out, exists t, h_layout first names t /\
  fst (h_list first names cur out) ++ snd (h_list first names cur out) = out ++ cur ++ t.
Proof.
  induction names as [|n r IH]; intros first cur out; cbn [h_list].
  - exists []. split; [constructor|]. cbn. rewrite app_nil_r. reflexivity.
  - set (colon := if first then [] else [COLON]). destruct (Nat.ltb 80 (length cur + length n + length colon)).
    + destruct (IH false (HT :: SP :: n) (out ++ cur ++ colon ++ CRLF)) as (t & H & E). rewrite E.
      exists (colon ++ (CRLF ++ [HT; SP]) ++ n ++ t). split; [constructor; auto|]. repeat (rewrite <- ?app_assoc; cbn [app]). reflexivity.
    + destruct (IH false (cur ++ colon ++ n) out) as (t & H & E). rewrite E.
      exists (colon ++ [] ++ n ++ t). split; [constructor; auto|]. repeat (rewrite <- ?app_assoc; cbn [app]). reflexivity.
Qed.

Lemma signable_item n : signable_name n -> list_item n.
Proof.
  intros (N & T & F). split; auto. split; [|split; auto].
  - intros I. rewrite Forall_forall in F. apply F in I as [X _]. congruence.
  - intros I. rewrite Forall_forall in F. apply F in I as [_ [V|[V|V]]]; try discriminate. destruct V as [[A _] _]. vm_compute in A. congruence.
Qed.
Lemma fold_FWSs w : w = [] \/ w = CRLF ++ [HT; SP] -> FWSs w.
Proof.
  intros [->| ->]; [constructor|]. rewrite <- (app_nil_r (CRLF ++ _)). apply FWSs_cons; [|constructor].
  apply (FWS_fold [] [HT; SP]); auto; [|discriminate]. constructor; [right; auto|constructor; [left; auto|constructor]].
Qed.
Lemma h_rest r : forall t, h_layout false r t -> Forall signable_name r -> forall w n, FWSs w -> list_item n ->
  rendered_list (n :: r) (w ++ n ++ t).
Proof.
  induction r as [|m r IH]; intros t H F w n W L; inversion H as [|? ? ? w' t' W' H' E1 E2]; subst.
  - apply (rl_last w n []); auto. constructor.
  - apply (rl_more w n [] (m :: r) (w' ++ m ++ t')); auto; [constructor|discriminate|]. apply IH; auto.
    + inversion F; auto.
    + apply fold_FWSs; auto.
    + apply signable_item. inversion F; auto.
Qed.
Lemma signable_bytes n : signable_name n -> Forall (fun c => value_byte c \/ LWSP c) n.
Proof.
  intros (_ & _ & F). eapply Forall_impl; [|exact F]. intros c [_ [V|[V|V]]]; auto; right; unfold LWSP; auto.
Qed.
Lemma signable_ends n : signable_name n -> first_ok value_byte n /\ last_ok value_byte n.
Proof.
  intros (_ & [T1 T2] & F). split.
  - destruct n; cbn in *; auto. apply Forall_inv in F as [_ [V|V]]; auto. contradiction.
  - unfold last_ok in *. apply Forall_rev in F. destruct (rev n); cbn in *; auto. apply Forall_inv in F as [_ [V|V]]; auto. contradiction.
Qed.
Lemma signable_no_lf n : signable_name n -> ~ In LF n.
Proof.
  intros (_ & _ & F) I. rewrite Forall_forall in F. apply F in I as [_ [V|[V|V]]]; try discriminate. apply value_byte_LF in V. congruence.
Qed.
Lemma h_tail_value r : forall t, h_layout false r t -> Forall signable_name r ->
  Forall (fun c => value_byte c \/ LWSP c) t /\ (forall a, last_ok value_byte a -> a <> [] -> last_ok value_byte (a ++ t)) /\ folded_text t.
Proof.
  induction r as [|m r IH]; intros t H F; inversion H as [|? ? ? w' t' W' H' E1 E2]; subst.
  - split; [constructor|]. split; [intros a A _; rewrite app_nil_r; auto|]. apply folded_plain. auto.
  - inversion F; subst. destruct (IH _ H' H3) as (A & B & D). destruct (signable_ends m H2) as [E1 E2]. split; [|split].
    + cbn [app]. constructor. { left. split; [vm_compute; split; discriminate|discriminate]. }
      apply Forall_app. split. { destruct W' as [->| ->]; [constructor|]. unfold CRLF, LWSP. cbn [app]. repeat (constructor; [right; auto|]). constructor. }
      apply Forall_app. split; auto. apply signable_bytes; auto.
    + intros a LA NA. cbn [app]. replace (a ++ COLON :: w' ++ m ++ t') with ((a ++ COLON :: w') ++ m ++ t') by (rewrite <- app_assoc; reflexivity).
      rewrite app_assoc. apply B; [|destruct a; discriminate]. apply last_ok_app; auto. apply H2.
    + cbn [app]. change (COLON :: w' ++ m ++ t') with ([COLON] ++ w' ++ m ++ t'). apply folded_app; [apply folded_plain; intros [X|[]]; discriminate|].
      apply folded_app. { destruct W' as [->| ->]; [apply folded_plain; auto|]. apply folded_crlf; [auto|]. intros [X|[X|[]]]; discriminate. }
      apply folded_app; auto. apply folded_plain, signable_no_lf; auto.
Qed.
Lemma h_value names t : h_layout true names t -> Forall signable_name names ->
  exists w hv, t = w ++ hv /\ (w = [] \/ w = CRLF ++ [HT; SP]) /\ tag_value hv /\ folded_text hv /\ rendered_list names hv.
Proof.
  intros H F. inversion H as [|? n r w t' W H' E1 E2]; subst.
  - exists [], []. split; auto. split; auto. split; [apply plain_value; constructor|]. split; [apply folded_plain; auto|]. apply rl_none. constructor.
  - inversion F; subst. exists w, (n ++ t'). split; auto. split; auto. destruct (h_tail_value r t' H' H3) as (A & B & D).
    destruct (signable_ends n H2) as [E1 E2]. split; [split; [|split]|split].
    + apply Forall_app. split; auto. apply signable_bytes; auto.
    + apply first_ok_app; auto. apply H2.
    + apply B; auto. apply H2.
    + apply folded_app; auto. apply folded_plain, signable_no_lf; auto.
    + apply (h_rest r t' H' H3 [] n); [constructor|apply signable_item; auto].
Qed.

(** ** Tag lists *)
Record entry := mkE { e_w1 : bytes; e_name : bytes; e_w3 : bytes; e_value : bytes }.
Definition entry_text (e : entry) : bytes := e_w1 e ++ e_name e ++ EQUALS :: e_w3 e ++ e_value e.
Fixpoint entries_text (l : list entry) : bytes :=
  match l with
  | [] => []
  | [e] => entry_text e
  | e :: r => entry_text e ++ SEMI :: entries_text r
  end.
Lemma entries_cons e r : r <> [] -> entries_text (e :: r) = entry_text e ++ SEMI :: entries_text r.
Proof. destruct r; [congruence|reflexivity]. Qed.
Definition fold_space (w : bytes) : Prop := w = [] \/ w = [SP] \/ w = CRLF ++ [HT] \/ w = CRLF ++ [HT; SP].
Record good_entry (e : entry) : Prop := {
  ge_w1 : fold_space (e_w1 e);
  ge_name : tag_name (e_name e);
  ge_w3 : fold_space (e_w3 e);
  ge_value : tag_value (e_value e);
  ge_fold : folded_text (e_value e) }.
Lemma fold_space_LWSP w : fold_space w -> Forall LWSP w.
Proof. unfold LWSP, CRLF. intros [->|[->|[->| ->]]]; cbn [app]; repeat (constructor; [auto|]); constructor. Qed.
Lemma fold_space_folded w : fold_space w -> folded_text w.
Proof.
  intros [->|[->|[->| ->]]]; [apply folded_plain; auto|apply folded_plain; intros [X|[]]; discriminate| |];
    (apply folded_crlf; [auto|]); [intros [X|[]]|intros [X|[X|[]]]]; discriminate.
Qed.
Definition pair_of (e : entry) : bytes * bytes := (e_name e, e_value e).
Lemma entries_rendered l : l <> [] -> Forall good_entry l -> rendered_tags (map pair_of l) (entries_text l).
Proof.
  induction l as [|e l IH]; intros N F; [congruence|]. inversion F as [|? ? G F']; subst. destruct G.
  destruct l as [|e2 l].
  - cbn [map entries_text]. unfold entry_text, pair_of. rewrite <- (app_nil_r (e_value e)) at 2.
    apply (rt_last (e_w1 e) (e_name e) [] (e_w3 e) (e_value e) []); auto using fold_space_LWSP.
  - rewrite entries_cons by discriminate. unfold entry_text. rewrite <- !app_assoc. cbn [app]. rewrite <- !app_assoc.
    change (map pair_of (e :: e2 :: l)) with ((e_name e, e_value e) :: map pair_of (e2 :: l)).
    apply (rt_more (e_w1 e) (e_name e) [] (e_w3 e) (e_value e) []); auto using fold_space_LWSP. apply IH; auto. discriminate.
Qed.
Lemma tag_name_no_lf n : tag_name n -> ~ In LF n.
Proof.
  intros [_ F] I. rewrite Forall_forall in F. apply F in I as [[A B]|[[A B]|[[A B]|A]]]; [vm_compute in A; congruence..|discriminate].
Qed.
Lemma entry_folded e : good_entry e -> folded_text (entry_text e).
Proof.
  intros []. unfold entry_text. apply folded_app; [apply fold_space_folded; auto|]. apply folded_app; [apply folded_plain, tag_name_no_lf; auto|].
  change (EQUALS :: e_w3 e ++ e_value e) with ([EQUALS] ++ e_w3 e ++ e_value e).
  apply folded_app; [apply folded_plain; intros [X|[]]; discriminate|]. apply folded_app; auto. apply fold_space_folded; auto.
Qed.
Lemma entries_folded l : Forall good_entry l -> folded_text (entries_text l).
Proof.
  induction 1 as [|e l G F IH]; [apply folded_plain; auto|]. destruct l as [|e2 l]; [apply entry_folded; auto|].
  rewrite entries_cons by discriminate. apply folded_app; [apply entry_folded; auto|].
  change (SEMI :: entries_text (e2 :: l)) with ([SEMI] ++ entries_text (e2 :: l)). apply folded_app; auto.
  apply folded_plain; intros [X|[]]; discriminate.
Qed.
Lemma entries_snoc l w n v : l <> [] -> exists pre, entries_text (l ++ [mkE w n [] v]) = pre ++ v /\
  pre = entries_text l ++ SEMI :: w ++ n ++ [EQUALS].
Proof.
  intros N. eexists. split; [|reflexivity]. induction l as [|e l IH]; [congruence|]. cbn [app]. destruct l as [|e2 l].
  - cbn [entries_text app]. unfold entry_text at 2. cbn [e_w1 e_name e_w3 e_value]. repeat (rewrite <- ?app_assoc; cbn [app]). reflexivity.
  - cbn [app] in *. rewrite (entries_cons e (e2 :: l ++ _)) by discriminate. rewrite (entries_cons e (e2 :: l)) by discriminate.
    rewrite IH by discriminate.
    repeat (rewrite <- ?app_assoc; cbn [app]). reflexivity.
Qed.

(** ** The tags of a signature *)
Definition tag_instance (o : options) : bytes * bytes :=
  if (o_arc o =? 0)%N then (str "v", str "1") else (str "i", fmt_lu (o_arc o)).
Definition stamp (o : options) (now : Z) : Z := if (o_ts o =? -1)%Z then now else o_ts o.
Definition sp_entry (n : string) (v : bytes) : entry := mkE [SP] (str n) [] v.
Definition nl_entry (n : string) (v : bytes) : entry := mkE (CRLF ++ [HT]) (str n) [] v.
Definition mode_pair (o : options) : bytes := mode_name (o_chead o) ++ chr 47 :: mode_name (o_cbody o).
Definition sig_entries (o : options) (s : sig_options) (now : Z) (w hv bh : bytes) : list entry :=
  [mkE [SP] (fst (tag_instance o)) [] (snd (tag_instance o));
   sp_entry "a" (Algorithm2String (so_alg (o_main o)) (o_digest o)); sp_entry "c" (mode_pair o)]
  ++ (if o_tssign o then [sp_entry "t" (fmt_lu_time (stamp o now))] else [])
  ++ (if o_exsign o then [sp_entry "x" (fmt_lu_time (expiry o now))] else [])
  ++ [nl_entry "d" (so_domain s); sp_entry "s" (so_selector s)]
  ++ (match o_identity o with [] => [] | i => [sp_entry "i" (qp_encode i)] end)
  ++ (if o_signlen o then [sp_entry "l" (fmt_lu (o_bodylen o))] else [])
  ++ [mkE (CRLF ++ [HT]) (str "h") w hv; nl_entry "bh" (Base64_Encode bh)].
Definition valid_time (o : options) (now : Z) : Prop := o_exsign o = true -> in_int64 (expiry o now) = true.

Lemma qp_c_str i : c_str (qp_encode i) = qp_encode i.
Proof. apply tag_value_c_str, plain_value. exact (qp_output_safe i). Qed.
Lemma time_base o now : o_exsign o = true ->
  ((if o_exabs o then 0 else if ((if o_tssign o then (if o_ts o =? -1 then now else o_ts o) else (-1)) =? -1)%Z then now
     else (if o_tssign o then (if o_ts o =? -1 then now else o_ts o) else (-1)))%Z + o_ex o)%Z = expiry o now.
Proof.
  intros _. unfold expiry. f_equal. destruct (o_exabs o); auto. destruct (o_tssign o); [|reflexivity].
  destruct (Z.eqb_spec (o_ts o) (-1)) as [E|E].
  - destruct (Z.eqb_spec now (-1)) as [E2|E2]; auto.
  - destruct (Z.eqb_spec (o_ts o) (-1)); [congruence|reflexivity].
Qed.
Lemma time_tags_text o now : time_tags o now =
  if o_exsign o && negb (in_int64 (expiry o now)) then UB UB_overflow
  else Ok ((if o_tssign o then str " t=" ++ fmt_lu_time (stamp o now) ++ str ";" else []) ++
           (if o_exsign o then str " x=" ++ fmt_lu_time (expiry o now) ++ str ";" else [])).
Proof.
  unfold time_tags. pose proof (time_base o now) as TB. destruct (o_exsign o); cbn [andb].
  - rewrite TB by auto. destruct (in_int64 (expiry o now)); cbn [negb]; [|reflexivity].
    unfold stamp. destruct (o_tssign o); [|reflexivity]. rewrite <- !app_assoc. reflexivity.
  - unfold stamp. destruct (o_tssign o); [|reflexivity]. rewrite app_nil_r. reflexivity.
Qed.
Lemma Ok_inj {A} (a b : A) : Ok a = Ok b -> a = b. Proof. congruence. Qed.
Lemma template_text o s now names bh T : sig_template o s now names bh = Ok T ->
  valid_time o now /\ exists t, h_layout true names t /\
  forall w hv, t = w ++ hv -> T = field_name o ++ COLON ::
      entries_text (sig_entries o s now w hv bh) ++ SEMI :: (CRLF ++ [HT]) ++ str "b" ++ [EQUALS].
Proof.
  unfold sig_template. rewrite time_tags_text. unfold valid_time.
  destruct (o_exsign o && negb (in_int64 (expiry o now))) eqn:XE; cbn [obind]; [discriminate|].
  pose proof (h_list_text names true (HT :: str "h=") []) as (t & HT1 & HE). destruct (h_list true names (HT :: str "h=") []) as [hl cur].
  cbn [fst snd app] in HE. intros E. apply Ok_inj in E. subst T. split. { intros X. rewrite X in XE. apply negb_false_iff in XE. exact XE. }
  exists t. split; auto. rewrite (app_assoc hl cur), HE.
  clear HE. intros w hv ->. clear HT1. unfold field_name, sig_entries, tag_instance, mode_pair.
  destruct (o_arc o =? 0)%N, (o_tssign o), (o_exsign o), (o_identity o) eqn:OI, (o_signlen o);
    cbn [app entries_text fst snd]; unfold entry_text; cbn [e_w1 e_name e_w3 e_value sp_entry nl_entry];
    try rewrite qp_c_str; repeat (rewrite <- ?app_assoc; cbn [app]); reflexivity.
Qed.

(** The same tags as names and values. *)
Definition opt_tag (n : string) (v : option bytes) : list (bytes * bytes) := match v with Some v => [(str n, v)] | None => [] end.
Definition tag_list (arc : bool) (vi a c : bytes) (t x : option bytes) (d s : bytes) (i l : option bytes) (h bh b : bytes) : list (bytes * bytes) :=
  [(if arc then str "i" else str "v", vi); (str "a", a); (str "c", c)] ++ opt_tag "t" t ++ opt_tag "x" x ++
  [(str "d", d); (str "s", s)] ++ opt_tag "i" i ++ opt_tag "l" l ++ [(str "h", h); (str "bh", bh); (str "b", b)].
Fixpoint nodupb (l : list bytes) : bool := match l with [] => true | x :: r => negb (memb x r) && nodupb r end.
Lemma nodupb_NoDup l : nodupb l = true -> NoDup l.
Proof.
  induction l as [|x l IH]; cbn [nodupb]; intros H; [constructor|]. apply andb_true_iff in H as [A B]. constructor; auto.
  intros I. apply memb_In in I. rewrite I in A. discriminate.
Qed.
Section Tags.
  Variables (arc : bool) (vi a c : bytes) (t x : option bytes) (d s : bytes) (i l : option bytes) (h bh b : bytes).
  Notation TL := (tag_list arc vi a c t x d s i l h bh b).
  Lemma tl_nodup : (arc = true -> i = None) -> NoDup (map fst TL).
  Proof.
    intros A. apply nodupb_NoDup. destruct arc; [rewrite A by auto|]; destruct t, x, l; try destruct i; vm_compute; reflexivity.
  Qed.
  Ltac find_tag := unfold tag_list, has; destruct t, x, i, l; cbn [opt_tag app In]; auto 20.
  Lemma tl_a : has TL "a" a. Proof. find_tag. Qed.
  Lemma tl_c : has TL "c" c. Proof. find_tag. Qed.
  Lemma tl_d : has TL "d" d. Proof. find_tag. Qed.
  Lemma tl_s : has TL "s" s. Proof. find_tag. Qed.
  Lemma tl_h : has TL "h" h. Proof. find_tag. Qed.
  Lemma tl_bh : has TL "bh" bh. Proof. find_tag. Qed.
  Lemma tl_b : has TL "b" b. Proof. find_tag. Qed.
  Lemma tl_v : arc = false -> has TL "v" vi. Proof. intros ->. find_tag. Qed.
  Lemma tl_inst : arc = true -> has TL "i" vi. Proof. intros ->. find_tag. Qed.
  Lemma tl_opt_i v : i = Some v -> has TL "i" v. Proof. intros E. unfold tag_list, has. rewrite E. destruct t, x, l; cbn [opt_tag app In]; auto 20. Qed.
  Lemma tl_opt_l v : l = Some v -> has TL "l" v. Proof. intros E. unfold tag_list, has. rewrite E. destruct t, x, i; cbn [opt_tag app In]; auto 20. Qed.
  Lemma tl_opt_t v : t = Some v -> has TL "t" v. Proof. intros E. unfold tag_list, has. rewrite E. destruct x, l, i; cbn [opt_tag app In]; auto 20. Qed.
  Lemma tl_opt_x v : x = Some v -> has TL "x" v. Proof. intros E. unfold tag_list, has. rewrite E. destruct t, l, i; cbn [opt_tag app In]; auto 20. Qed.
  Lemma lacks_b n : memb (str n) (map fst TL) = false -> lacks TL n.
  Proof. intros M I. apply memb_In in I. congruence. Qed.
  Lemma tl_no_i : arc = false -> i = None -> lacks TL "i".
  Proof. intros A E. apply lacks_b. rewrite A, E. destruct t, x, l; vm_compute; reflexivity. Qed.
  Lemma tl_no_l : l = None -> lacks TL "l".
  Proof. intros E. apply lacks_b. rewrite E. destruct arc, t, x, i; vm_compute; reflexivity. Qed.
  Lemma tl_no_x : x = None -> lacks TL "x".
  Proof. intros E. apply lacks_b. rewrite E. destruct arc, t, l, i; vm_compute; reflexivity. Qed.
  Lemma tl_no_q : lacks TL "q".
  Proof. apply lacks_b. destruct arc, t, x, l, i; vm_compute; reflexivity. Qed.
End Tags.
