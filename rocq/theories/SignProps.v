(** What CreateSignature puts into the fields, and what a second call does. *)
From Verif Require Import Bytes Outcome Stream Tokenizer QuotedPrintable Base64 TagList MailParser Canonicalization Util CStdlib Crypto
  Signature PublicKey SignatoryOptions Signatory Validatory BytesFacts StreamFacts SpecText SpecTags SpecMail SpecCanon SpecVerify SpecSig SpecOptions SpecSign QPFacts
  Base64Facts ListFacts MailFacts BodyFacts BodyProps HeaderFacts HeaderProps SelectFacts TagListFacts SigFacts SigProps TagPosition VerifyFacts VerifyProps
  SignNumbers SignText SignFacts SignMail SignRound.

Lemma make_something C o s md x : signs_something C -> make_signature C o s md = Ok x -> x <> [].
Proof.
  intros [R E]. unfold make_signature. destruct (so_alg s).
  - destruct (so_rsa s) as [k|]; [|discriminate]. destruct (c_rsa_sign C (o_digest o) md k) eqn:S; [|discriminate]. intros [= <-]. eauto.
  - destruct (c_read 64 (so_ed s)) as [k| | |]; cbn [obind]; try discriminate. destruct (c_ed_sign C md k) eqn:S; [|discriminate]. intros [= <-]. eauto.
Qed.

Lemma many_made C strict clock o hashed names bh l l' : signs_something C -> Forall signable_name names ->
  Forall (fun p => plain_options o (snd p)) l ->
  Forall2 (fun p x => one_signature C strict o (clock (fst p)) hashed names bh (snd p) = Ok x) l l' ->
  Forall2 (fun (p : nat * sig_options) x => exists T B c z hv, produced C strict o (clock (fst p)) hashed names bh (snd p) x T B c z hv /\ z <> []) l l'.
Proof.
  intros SG SN SO F. induction F as [|p x l l' E F IH]; [constructor|]. apply Forall_cons_iff in SO as [SO1 SO2]. constructor; [|apply IH; auto].
  destruct (one_signature_produced _ _ _ _ _ _ _ _ _ E (po_named _ _ SO1) SN) as (T & B & c & z & hv & P). exists T, B, c, z, hv. split; [exact P|].
  eapply make_something; [exact SG|]. exact (pr_sign _ _ _ _ _ _ _ _ _ _ _ _ _ _ P).
Qed.
(** [numbered]: the number says which reading of the clock is used. *)
Lemma fields_made C strict clock o t y H m s : signs_something C -> parse_all new_message (open_str t) = Ok (m, s) ->
  CreateSignature C strict clock o (new_signatory (open_str t)) = (y, Ok H) ->
  Forall (plain_options o) (all_signatures o) -> Forall signable_name (signed_names o m) ->
  exists fields bh hashed, H = joined fields /\
  Forall2 (fun p x => exists T B c z hv, produced C strict o (clock (fst p)) hashed (signed_names o m) bh (snd p) x T B c z hv /\ z <> [])
    (numbered (rev (all_signatures o))) fields.
Proof.
  intros SG PA CS SO SN. destruct (create_spec _ _ _ _ _ _ _ _ _ PA CS) as (b & out & outs & Hs & MB & CB & LIM & FO & PN & PO & EH & F2).
  assert (SO' : Forall (fun p => plain_options o (snd p)) (numbered (rev (all_signatures o)))).
  { apply Forall_forall. intros [i q] I. apply in_combine_r in I. cbn [snd]. rewrite <- in_rev in I. rewrite Forall_forall in SO. auto. }
  exists Hs. eexists. eexists. split; auto. eapply many_made; eauto.
Qed.

(** The tags the fields carry. *)
Record announces (o : options) (names : list bytes) (now : Z) (q : sig_options) (x : bytes) (tags : list (bytes * bytes)) : Prop := {
  an_tags : field_tags (header_of x) tags;
  an_folded : folded_text x;
  an_a : has tags "a" (a_text (o_digest o) (so_alg (o_main o)));
  an_d : has tags "d" (so_domain q);
  an_s : has tags "s" (so_selector q);
  an_h : exists hv, has tags "h" hv /\ rendered_list names hv;
  an_l : if o_signlen o then exists v, has tags "l" v /\ digits v /\ dec_value v = o_bodylen o else lacks tags "l";
  an_x : o_exsign o = true -> has tags "x" (fmt_lu_time (expiry o now)) }.
Lemma produced_announces C strict o now hashed names bh q x T B c z hv : produced C strict o now hashed names bh q x T B c z hv -> z <> [] ->
  plain_options o q -> announces o names now q x (sig_tag_list o q now hv bh B).
Proof.
  intros P NZ SO. constructor.
  - eapply produced_tags; eauto.
  - exact (pr_fold _ _ _ _ _ _ _ _ _ _ _ _ _ _ P).
  - rewrite <- Algorithm_text. apply tl_a.
  - apply tl_d.
  - apply tl_s.
  - eexists. split; [apply tl_h|]. exact (pr_h _ _ _ _ _ _ _ _ _ _ _ _ _ _ P).
  - unfold sig_tag_list, opt_b. destruct (o_signlen o).
    + exists (fmt_lu (o_bodylen o)). split; [apply tl_opt_l; reflexivity|]. split; [apply fmt_lu_digits|apply fmt_lu_value].
    + apply tl_no_l. reflexivity.
  - intros E. unfold sig_tag_list, opt_b. rewrite E. apply tl_opt_x. reflexivity.
Qed.
Lemma Forall2_impl_in {A B} (R R' : A -> B -> Prop) l l' : (forall a b, In a l -> R a b -> R' a b) -> Forall2 R l l' -> Forall2 R' l l'.
Proof. intros H F. induction F; constructor; [apply H; [left; auto|auto]|apply IHF; intros; apply H; [right; auto|auto]]. Qed.
Lemma fields_announce C strict clock o t y H m s : signs_something C -> parse_all new_message (open_str t) = Ok (m, s) ->
  CreateSignature C strict clock o (new_signatory (open_str t)) = (y, Ok H) ->
  Forall (plain_options o) (all_signatures o) -> Forall signable_name (signed_names o m) ->
  exists fields, H = joined fields /\
  Forall2 (fun p x => exists tags, announces o (signed_names o m) (clock (fst p)) (snd p) x tags) (numbered (rev (all_signatures o))) fields.
Proof.
  intros SG PA CS SO SN. destruct (fields_made _ _ _ _ _ _ _ _ _ SG PA CS SO SN) as (fields & bh & hashed & E & F). exists fields. split; auto.
  eapply Forall2_impl_in; [|exact F]. intros [i q] x I (T & B & c & z & hv & P & NZ). eexists. eapply produced_announces; eauto.
  apply in_combine_r in I. cbn [snd]. rewrite <- in_rev in I. rewrite Forall_forall in SO. auto.
Qed.

(** b= *)
Lemma one_signature_b C strict o now hashed names bh s H : one_signature C strict o now hashed names bh s = Ok H ->
  exists u x l ls, H = u ++ CRLF ++ [HT] ++ str "b=" ++ joined (l :: map (fun k => HT :: SP :: k) ls) /\
    concat (l :: ls) = Base64_Encode x /\ length l <= 77 /\ Forall (fun k => k <> [] /\ length k <= 78) ls.
Proof.
  unfold one_signature. destruct (sig_template o s now names bh) as [T| | |] eqn:ET; cbn [obind]; try discriminate.
  destruct (FilterHeader strict (o_chead o) T) as [c| | |]; cbn [obind]; try discriminate.
  destruct (make_signature C o s _) as [x| | |]; cbn [obind]; try discriminate. cbv zeta. intros E. apply Ok_inj in E. subst H.
  destruct (template_text o s now names bh T ET) as (_ & t & _ & TT). specialize (TT [] t eq_refl).
  destruct (fold_b_lines (S (length (Base64_Encode x))) 3 (Base64_Encode x)) as (l & ls & E & CC & L & F & _); [lia|lia|].
  exists (field_name o ++ COLON :: entries_text (sig_entries o s now [] t bh) ++ [SEMI]), x, l, ls.
  split; [|repeat split; auto]. rewrite E, TT. change (map (fun k => HT :: SP :: k) ls) with (map with_ht_sp ls).
  change (str "b=") with (str "b" ++ [EQUALS]). repeat (rewrite <- ?app_assoc; cbn [app]). reflexivity.
Qed.
Lemma fields_b C strict clock o t y H : CreateSignature C strict clock o (new_signatory (open_str t)) = (y, Ok H) ->
  exists fields, H = joined fields /\ length fields = length (all_signatures o) /\
  Forall (fun f => exists u x l ls, f = u ++ CRLF ++ [HT] ++ str "b=" ++ joined (l :: map (fun k => HT :: SP :: k) ls) /\
    concat (l :: ls) = Base64_Encode x /\ length l <= 77 /\ Forall (fun k => k <> [] /\ length k <= 78) ls) fields.
Proof.
  intros CS. destruct (parse_all new_message (open_str t)) as [[m s]| | |] eqn:PA.
  2-4: exfalso; unfold CreateSignature, new_signatory in CS; cbn [y_msg y_file] in CS; rewrite PA in CS; discriminate.
  destruct (create_spec _ _ _ _ _ _ _ _ _ PA CS) as (b & out & outs & Hs & MB & CB & LIM & FO & PN & PO & EH & F2). exists Hs. split; auto.
  split. { apply Forall2_length in F2. rewrite <- F2. unfold numbered. rewrite combine_length, seq_length, rev_length. lia. }
  clear - F2. induction F2 as [|p x l l' E F IH]; constructor; auto. eapply one_signature_b; eauto.
Qed.

(** ** l= *)
Lemma limit_ok C strict clock o t y H b out : o_signlen o = true -> message_body t b -> canonical_body (is_relaxed (o_cbody o)) b out ->
  CreateSignature C strict clock o (new_signatory (open_str t)) = (y, Ok H) -> (o_bodylen o <= N.of_nat (length out))%N.
Proof.
  intros SL MB CB CS. destruct (parse_all new_message (open_str t)) as [[m s]| | |] eqn:PA.
  2-4: exfalso; unfold CreateSignature, new_signatory in CS; cbn [y_msg y_file] in CS; rewrite PA in CS; discriminate.
  destruct (create_spec _ _ _ _ _ _ _ _ _ PA CS) as (b' & out' & outs & Hs & MB' & CB' & LIM & _).
  rewrite (message_body_unique t b b' MB MB') in CB. apply canonical_out in CB. apply canonical_out in CB'. rewrite CB, <- CB'. auto.
Qed.
Lemma limit_refused C strict clock o t b out : o_signlen o = true -> message_body t b -> canonical_body (is_relaxed (o_cbody o)) b out ->
  (N.of_nat (length out) < o_bodylen o)%N -> snd (CreateSignature C strict clock o (new_signatory (open_str t))) = perm.
Proof.
  intros SL MB CB L. destruct (message_fields t) as (ls & h & rest & m & s & _ & _ & PA & _).
  unfold CreateSignature, new_signatory. cbn [y_msg y_file]. rewrite PA, SL.
  assert (BA : body_at s (m_offset m) b).
  { eapply message_body_at; eauto. transitivity (contents (open_str t)); [|reflexivity]. unfold parse_all in PA. eapply parse_loop_contents; eauto. }
  destruct (body_limited buffer_size s (o_cbody o) (m_offset m) b out buffer_pos BA CB (o_bodylen o)) as (calls & s' & E & K).
  unfold CanonicalizationBody. rewrite E. apply N.leb_gt in L. rewrite L. reflexivity.
Qed.

(** ** Removed names *)
Lemma list_remove_In x y l : In y (list_remove x l) <-> In y l /\ y <> x.
Proof.
  unfold list_remove. rewrite filter_In. split; intros [A B]; split; auto.
  - intros ->. rewrite beqb_refl in B. discriminate.
  - apply negb_true_iff. destruct (beqb y x) eqn:E; auto. apply beqb_eq in E. congruence.
Qed.
Lemma del_In l : forall h y, In y (fold_left (fun h x => list_remove x h) l h) <-> In y h /\ ~ In y l.
Proof.
  induction l as [|x l IH]; intros h y; cbn [fold_left In]; [tauto|]. rewrite IH, list_remove_In. intuition congruence.
Qed.
Lemma removed_names C o l n m : (forall w, In w (o_headers o) -> same_name w n = true -> In w l) ->
  (forall w, In w (o_oversign o) -> same_name w n = false) ->
  o_headers (fst (run_op C (DelHeaders l) o)) <> [] ->
  Forall (fun w => same_name w n = false) (signed_names (fst (run_op C (DelHeaders l) o)) m).
Proof.
  intros A B NE. cbn [run_op fst] in *. set (o' := with_headers _ o) in *. unfold signed_names. apply Forall_app. split; apply Forall_map, Forall_forall.
  - intros h I. unfold signed_fields in I. apply filter_In in I as [_ P]. apply picked_chosen in P as [_ [P|(w & I & S)]]; [congruence|].
    cbn [o' with_headers o_headers] in I. apply del_In in I as [I NI]. unfold lname. rewrite same_name_lower.
    destruct (same_name (h_name h) n) eqn:E; auto. destruct NI. apply A; auto. apply same_lower in S, E. apply same_lower. congruence.
  - intros w I. rewrite same_name_lower. apply B. exact I.
Qed.
Lemma removed C strict clock o l n t y H m s : signs_something C -> parse_all new_message (open_str t) = Ok (m, s) ->
  let o' := fst (run_op C (DelHeaders l) o) in
  CreateSignature C strict clock o' (new_signatory (open_str t)) = (y, Ok H) ->
  Forall (plain_options o') (all_signatures o') ->
  (forall h, In h (m_headers m) -> chosen o' (h_name h) -> signable_name (h_name h)) -> Forall signable_name (o_oversign o') ->
  (forall w, In w (o_headers o) -> same_name w n = true -> In w l) ->
  (forall w, In w (o_oversign o) -> same_name w n = false) -> o_headers o' <> [] ->
  exists fields, H = joined fields /\
  Forall (fun x => exists tags hv names, field_tags (header_of x) tags /\ has tags "h" hv /\ rendered_list names hv /\
                     Forall (fun w => same_name w n = false) names) fields.
Proof.
  intros SG PA o' CS SO SN1 SN2 A B NE.
  assert (SN : Forall signable_name (signed_names o' m)).
  { unfold signed_names. apply Forall_app. split; apply Forall_map, Forall_forall.
    - intros h I. apply filter_In in I as [I P]. apply in_rev in I. apply picked_chosen in P. apply signable_lower. auto.
    - intros w I. apply signable_lower. rewrite Forall_forall in SN2. auto. }
  destruct (fields_announce _ _ _ _ _ _ _ _ _ SG PA CS SO SN) as (fields & E & F). exists fields. split; auto.
  pose proof (removed_names C o l n m A B NE) as R. fold o' in R. clear - F R. induction F as [|p x l0 l' (tags & AN) F IH]; constructor; auto.
  destruct (an_h _ _ _ _ _ _ AN) as (hv & HH & RL). exists tags, hv, (signed_names o' m). split; [exact (an_tags _ _ _ _ _ _ AN)|]. auto.
Qed.

(** Which names are listed after a removal, exactly. *)
Lemma del_nil l h : fold_left (fun h x => list_remove x h) l h = [] <-> (forall w, In w h -> In w l).
Proof.
  split.
  - intros E w I. destruct (In_dec (list_eq_dec ascii_dec) w l) as [J|J]; auto.
    assert (K : In w []) by (rewrite <- E; apply del_In; auto). destruct K.
  - intros K. destruct (fold_left _ l h) as [|w r] eqn:E; auto. assert (I : In w (fold_left (fun h x => list_remove x h) l h)) by (rewrite E; left; reflexivity).
    apply del_In in I as [I NI]. destruct (NI (K w I)).
Qed.
Lemma removed_exactly C o l n m :
  Exists (fun w => same_name w n = true) (signed_names (fst (run_op C (DelHeaders l) o)) m) <-> still_listed h_name o l (m_headers m) n.
Proof.
  cbn [run_op fst]. set (o' := with_headers _ o). unfold signed_names. rewrite Exists_app, !Exists_exists.
  assert (SYM : forall a b c, same_name a b = true -> same_name b c = true -> same_name a c = true).
  { intros a b c A B. apply same_lower in A, B. apply same_lower. congruence. }
  assert (FLIP : forall a b, same_name a b = true -> same_name b a = true). { intros a b A. apply same_lower in A. apply same_lower. auto. }
  split.
  - intros [(x & I & S)|(x & I & S)]; apply in_map_iff in I as (h & <- & I).
    + right. unfold lname in S. rewrite same_name_lower in S. unfold signed_fields in I. apply filter_In in I as [I P]. apply in_rev in I.
      apply picked_chosen in P as [NE P]. split; [exists h; auto|]. destruct P as [P|(w & J & Q)].
      * left. apply del_nil. exact P.
      * right. cbn [o' with_headers o_headers] in J. apply del_In in J as [J NJ]. exists w. split; auto. split; auto. apply (SYM w (h_name h)); auto.
    + left. rewrite same_name_lower in S. exists h. auto.
  - intros [(w & I & S)|((h & I & NE & S) & P)].
    + right. exists (lower w). split; [apply in_map; exact I|]. rewrite same_name_lower. exact S.
    + left. exists (lname h). split; [|unfold lname; rewrite same_name_lower; exact S]. apply in_map. unfold signed_fields. apply filter_In.
      split; [apply in_rev in I; exact I|]. apply picked_chosen. split; auto. destruct P as [P|(w & J & NJ & Q)].
      * left. apply del_nil. exact P.
      * right. exists w. split; [cbn [o' with_headers o_headers]; apply del_In; auto|]. apply (SYM _ n); auto.
Qed.
Lemma removal_exact C strict clock o l n t y H m s : signs_something C -> parse_all new_message (open_str t) = Ok (m, s) ->
  let o' := fst (run_op C (DelHeaders l) o) in
  CreateSignature C strict clock o' (new_signatory (open_str t)) = (y, Ok H) ->
  Forall (plain_options o') (all_signatures o') ->
  (forall h, In h (m_headers m) -> chosen o' (h_name h) -> signable_name (h_name h)) -> Forall signable_name (o_oversign o') ->
  exists fields, H = joined fields /\ length fields = length (all_signatures o) /\
  Forall (fun x => exists tags hv names, field_tags (header_of x) tags /\ has tags "h" hv /\ rendered_list names hv /\
                     (Exists (fun w => same_name w n = true) names <-> still_listed h_name o l (m_headers m) n)) fields.
Proof.
  intros SG PA o' CS SO SN1 SN2.
  assert (SN : Forall signable_name (signed_names o' m)).
  { unfold signed_names. apply Forall_app. split; apply Forall_map, Forall_forall.
    - intros h I. apply filter_In in I as [I P]. apply in_rev in I. apply picked_chosen in P. apply signable_lower. auto.
    - intros w I. apply signable_lower. rewrite Forall_forall in SN2. auto. }
  destruct (fields_announce _ _ _ _ _ _ _ _ _ SG PA CS SO SN) as (fields & E & F). exists fields. split; auto.
  split. { apply Forall2_length in F. rewrite <- F. unfold numbered. rewrite combine_length, seq_length, rev_length. change (all_signatures o') with (all_signatures o). lia. }
  pose proof (removed_exactly C o l n m) as R. fold o' in R. clear - F R. induction F as [|p x l0 l' (tags & AN) F IH]; constructor; auto.
  destruct (an_h _ _ _ _ _ _ AN) as (hv & HH & RL). exists tags, hv, (signed_names o' m). split; [exact (an_tags _ _ _ _ _ _ AN)|]. auto.
Qed.

(** ** A second call *)
Definition finish (C : crypto) (strict : bool) (clock : nat -> Z) (o : options) (hs : list header) (d : bytes) : outcome bytes :=
  let* toSign := omap (lower_str strict) (o_headers o) in
  let* (hashed, names) := sign_headers strict (o_chead o) toSign (rev hs) in
  let* over := omap (lower_str strict) (o_oversign o) in
  all_sigs C strict o clock 0 hashed (names ++ over) (digest C (o_digest o) d) (rev (all_signatures o)) [].
Lemma create_finish C strict clock o y m s b out : parse_all (y_msg y) (y_file y) = Ok (m, s) -> body_at s (m_offset m) b ->
  canonical_body (is_relaxed (o_cbody o)) b out -> o_signlen o = false ->
  exists s1, CreateSignature C strict clock o y = (mkSignatory m s1, finish C strict clock o (m_headers m) out) /\
    (m_offset m <> (-1)%Z -> good s1 = false) /\ (m_offset m = (-1)%Z -> s1 = s).
Proof.
  intros PA BA CB SL. unfold CreateSignature. rewrite PA, SL.
  destruct (body_canonical buffer_size s (o_cbody o) (m_offset m) b out buffer_pos BA CB (o_bodylen o)) as (calls & s' & E & K).
  unfold CanonicalizationBody. rewrite E. exists s'. unfold finish, digest_chunks. rewrite K. split; [reflexivity|].
  clear - E. unfold CanonicalizationBody_ in E. destruct (m_offset m =? -1)%Z eqn:O.
  - apply Z.eqb_eq in O. split; [congruence|]. intros _. cbn [obind] in E. destruct (negb true || _); cbn [emit] in E; congruence.
  - apply Z.eqb_neq in O. split; [|congruence]. intros _. cbv zeta in E.
    assert (G : forall f s size p n e calls calls' size' e' s', body_loop buffer_size (o_cbody o) false f s size p n e calls = Ok (calls', size', e', s') -> good s' = false).
    { clear. induction f as [|f IH]; intros s size p n e calls calls' size' e' s'; cbn [body_loop]; [discriminate|]. destruct (good s) eqn:G.
      - cbn [andb]. destruct (sread buffer_size s) as [d s1]. cbn [emit]. apply IH.
      - intros [= _ _ _ <-]. exact G. }
    destruct (body_loop buffer_size (o_cbody o) false _ _ _ _ _ _ _) as [[[[c1 z1] e1] s2]| | |] eqn:BL; cbn [obind] in E; try discriminate.
    apply G in BL. destruct (negb e1 || _); cbn [emit] in E; congruence.
Qed.
Lemma parse_blank_tmp ls h e body m s : header_block ls h -> line_end [] e ->
  parse_all new_message (open_str (h ++ e ++ body)) = Ok (m, s) -> m_tmp m = None.
Proof.
  intros HB LE. unfold parse_all. rewrite (St_fuel _ _ _ (St_open _)).
  destruct (parse_block ls h HB (S (length (h ++ e ++ body))) new_message _ _ (e ++ body) (St_open _) eq_refl eq_refl ltac:(lia))
    as (f' & s' & E & H' & G' & L' & D'). rewrite E. destruct f' as [|f']; [lia|]. cbn [parse_loop].
  destruct (ParseLine_blank (fold_left add_line ls new_message) s' _ e body H' LE) as (s2 & P & H2 & G2). rewrite P.
  cbn [negb andb close_block m_done]. intros [= <- _]. reflexivity.
Qed.
Lemma second_call C strict clock o ls h e body y r : header_block ls h -> line_end [] e -> o_signlen o = false ->
  CreateSignature C strict clock o (new_signatory (open_str (h ++ e ++ body))) = (y, r) ->
  snd (CreateSignature C strict clock o y) = snd (CreateSignature C strict clock o (new_signatory (open_str (h ++ e)))).
Proof.
  intros HB LE SL CS. set (mode := is_relaxed (o_cbody o)).
  assert (CN : forall b, canonical_body mode b (out_fun mode (canon_list mode b))) by (intros; apply canonical_out; reflexivity).
  destruct (parse_blank ls h e body HB LE) as (m & s & PA & OFF & HM & _ & S1 & G1).
  destruct (create_finish C strict clock o (new_signatory (open_str (h ++ e ++ body))) m s body (out_fun mode (canon_list mode body))) as (s1 & E1 & NG & _); auto.
  { right. exists (h ++ e). split; auto. transitivity (contents (open_str (h ++ e ++ body))).
    - unfold parse_all in PA. eapply parse_loop_contents; eauto.
    - rewrite app_assoc. reflexivity. }
  rewrite E1 in CS. injection CS as <- _.
  assert (NG1 : good s1 = false). { apply NG. rewrite OFF. lia. }
  set (m2 := mkMessage (m_tmp m) (-1) (m_headers m ++ opt_list (m_tmp m)) true).
  assert (P2 : parse_all m s1 = Ok (m2, set_fail s1)).
  { unfold parse_all, fuel_of. cbn [parse_loop]. unfold Message_ParseLine, getline. rewrite NG1. reflexivity. }
  destruct (create_finish C strict clock o (mkSignatory m s1) m2 (set_fail s1) [] (out_fun mode (canon_list mode []))) as (s3 & E3 & _); auto.
  { left. auto. }
  rewrite E3. cbn [snd].
  destruct (parse_blank ls h e [] HB LE) as (m4 & s4 & PA4 & OFF4 & HM4 & _). rewrite app_nil_r in PA4.
  destruct (create_finish C strict clock o (new_signatory (open_str (h ++ e))) m4 s4 [] (out_fun mode (canon_list mode []))) as (s5 & E5 & _); auto.
  { right. exists (h ++ e). split; auto. transitivity (contents (open_str (h ++ e))).
    - unfold parse_all in PA4. eapply parse_loop_contents; eauto.
    - rewrite app_nil_r. reflexivity. }
  rewrite E5. cbn [snd m2 m_headers]. rewrite (parse_blank_tmp ls h e body m s HB LE PA), HM, HM4. cbn [opt_list]. rewrite app_nil_r. reflexivity.
Qed.
Lemma second_same C strict clock o ls h e body out y r : header_block ls h -> line_end [] e -> o_signlen o = false ->
  canonical_body (is_relaxed (o_cbody o)) body out -> canonical_body (is_relaxed (o_cbody o)) [] out ->
  CreateSignature C strict clock o (new_signatory (open_str (h ++ e ++ body))) = (y, r) ->
  snd (CreateSignature C strict clock o y) = r.
Proof.
  intros HB LE SL C1 C2 CS. rewrite (second_call _ _ _ _ _ _ _ _ _ _ HB LE SL CS).
  destruct (parse_blank ls h e body HB LE) as (m & s & PA & OFF & HM & _ & S1 & G1).
  destruct (create_finish C strict clock o (new_signatory (open_str (h ++ e ++ body))) m s body out) as (s1 & E1 & _); auto.
  { right. exists (h ++ e). split; auto. transitivity (contents (open_str (h ++ e ++ body))).
    - unfold parse_all in PA. eapply parse_loop_contents; eauto.
    - rewrite app_assoc. reflexivity. }
  rewrite E1 in CS. injection CS as _ <-.
  destruct (parse_blank ls h e [] HB LE) as (m4 & s4 & PA4 & OFF4 & HM4 & _). rewrite app_nil_r in PA4.
  destruct (create_finish C strict clock o (new_signatory (open_str (h ++ e))) m4 s4 [] out) as (s5 & E5 & _); auto.
  { right. exists (h ++ e). split; auto. transitivity (contents (open_str (h ++ e))).
    - unfold parse_all in PA4. eapply parse_loop_contents; eauto.
    - rewrite app_nil_r. reflexivity. }
  rewrite E5. cbn [snd]. rewrite HM, HM4. reflexivity.
Qed.

Lemma unnumber {A B} (R : A -> B -> Prop) (l : list A) l' : Forall2 (fun p x => R (snd p) x) (numbered l) l' -> Forall2 R l l'.
Proof.
  unfold numbered. generalize 0. revert l'. induction l as [|a l IH]; intros l' k F; cbn [seq length combine] in F; inversion F; subst; constructor; eauto.
Qed.
(** The statements of PropsSign. *)
Lemma fields_algorithm C strict clock o t y H m s : signs_something C -> parse_all new_message (open_str t) = Ok (m, s) ->
  CreateSignature C strict clock o (new_signatory (open_str t)) = (y, Ok H) ->
  Forall (plain_options o) (all_signatures o) -> Forall signable_name (listed_names h_name o (m_headers m)) ->
  exists fields, H = joined fields /\
  Forall2 (fun q x => exists tags v, field_tags (header_of x) tags /\ has tags "a" v /\ v = a_text (o_digest o) (so_alg (o_main o)) /\
    (v = a_text (o_digest o) (so_alg q) <-> so_alg q = so_alg (o_main o))) (rev (all_signatures o)) fields.
Proof.
  intros SG PA CS SO SN. rewrite <- signed_listed in SN. destruct (fields_announce _ _ _ _ _ _ _ _ _ SG PA CS SO SN) as (fields & E & F). exists fields. split; auto.
  eapply (unnumber (fun q x => exists tags v, field_tags (header_of x) tags /\ has tags "a" v /\ v = a_text (o_digest o) (so_alg (o_main o)) /\
    (v = a_text (o_digest o) (so_alg q) <-> so_alg q = so_alg (o_main o)))).
  eapply Forall2_impl_in; [|exact F]. intros [i q] x I (tags & AN). cbn [fst snd] in *. exists tags. eexists.
  split; [exact (an_tags _ _ _ _ _ _ AN)|]. split; [exact (an_a _ _ _ _ _ _ AN)|]. split; [reflexivity|]. split; [|congruence].
  intros K. apply a_text_inj in K. auto.
Qed.
Lemma fields_length_tag C strict clock o t y H m s : signs_something C -> parse_all new_message (open_str t) = Ok (m, s) ->
  CreateSignature C strict clock o (new_signatory (open_str t)) = (y, Ok H) -> o_signlen o = true ->
  Forall (plain_options o) (all_signatures o) -> Forall signable_name (listed_names h_name o (m_headers m)) ->
  exists fields, H = joined fields /\ length fields = length (all_signatures o) /\
  Forall (fun x => exists tags v, field_tags (header_of x) tags /\ has tags "l" v /\ digits v /\ dec_value v = o_bodylen o) fields.
Proof.
  intros SG PA CS SL SO SN. rewrite <- signed_listed in SN. destruct (fields_announce _ _ _ _ _ _ _ _ _ SG PA CS SO SN) as (fields & E & F). exists fields. split; auto.
  split. { apply Forall2_length in F. rewrite <- F. unfold numbered. rewrite combine_length, seq_length, rev_length. lia. }
  clear - F SL. induction F as [|p x l0 l' (tags & AN) F IH]; constructor; auto. exists tags. pose proof (an_l _ _ _ _ _ _ AN) as L. rewrite SL in L.
  destruct L as (v & HL & D & V). exists v. split; [exact (an_tags _ _ _ _ _ _ AN)|auto].
Qed.
Lemma fields_folded C strict clock o t y H m s : signs_something C -> parse_all new_message (open_str t) = Ok (m, s) ->
  CreateSignature C strict clock o (new_signatory (open_str t)) = (y, Ok H) ->
  Forall (plain_options o) (all_signatures o) -> Forall signable_name (listed_names h_name o (m_headers m)) ->
  exists fields, H = joined fields /\ length fields = length (all_signatures o) /\
  Forall (fun x => folded_text x /\ exists tags v, field_tags (header_of x) tags /\ has tags "h" v /\ rendered_list (listed_names h_name o (m_headers m)) v) fields.
Proof.
  intros SG PA CS SO SN. rewrite <- signed_listed in *. destruct (fields_announce _ _ _ _ _ _ _ _ _ SG PA CS SO SN) as (fields & E & F). exists fields. split; auto.
  split. { apply Forall2_length in F. rewrite <- F. unfold numbered. rewrite combine_length, seq_length, rev_length. lia. }
  clear - F. induction F as [|p x l0 l' (tags & AN) F IH]; constructor; auto. split; [exact (an_folded _ _ _ _ _ _ AN)|].
  exists tags. destruct (an_h _ _ _ _ _ _ AN) as (v & HL & R). exists v. split; [exact (an_tags _ _ _ _ _ _ AN)|auto].
Qed.
