(** The field that signing produces: proofs. *)
From Verif Require Import VerifyProps Bytes Outcome Stream Tokenizer QuotedPrintable Base64 MailParser Canonicalization Util CStdlib Crypto PublicKey
  SignatoryOptions Signatory BytesFacts StreamFacts TokenizerFacts SpecText SpecTags SpecMail SpecCanon SpecVerify SpecSig SpecBase64 SpecPass SpecOptions SpecSign
  SpecError SpecOutcome SpecRelaxed SpecMade PassFacts MailFacts BodyFacts BodyProps HeaderFacts HeaderProps SelectFacts VerifyFacts SignNumbers SignText SignFacts
  SignMail SignRound LoneFacts SafetyFacts OutcomeFacts QPFacts Base64Bits ErrorFacts ShownFacts RelaxedFacts BindingProps.

(** ** Numbers *)
Lemma number_exact n d : number_text n d <-> d = fmt_lu n.
Proof.
  assert (Q : number_text n (fmt_lu n)).
  { split; [apply fmt_lu_digits|]. split; [apply fmt_lu_value|apply fmt_lu_lead]. }
  split; [|intros ->; exact Q]. assert (W : forall x, number_text n x -> dec_shown x (N.to_nat n)).
  { intros x. unfold number_text, dec_shown. rewrite N2Nat.id. auto. }
  intros H. exact (dec_shown_fun _ _ _ (W _ H) (W _ Q)).
Qed.
Lemma time_exact z d : time_text z d <-> d = fmt_lu_time z.
Proof. unfold time_text, fmt_lu_time. apply number_exact. Qed.

(** ** Quoted-printable *)
Lemma hex_facts h a : hex_digit h a -> (a < 16)%N /\ h = qp_digit a.
Proof.
  intros [c [A B]|c [A B]].
  - split; [lia|]. revert A B. enough (H : (negb ((48 <=? code c) && (code c <=? 57)) || (c =?c qp_digit (code c - 48)))%N = true).
    { intros A B. apply N.leb_le in A, B. rewrite A, B in H. apply ceqb_eq in H. exact H. }
    revert c. apply byte_sweep. vm_compute. reflexivity.
  - split; [lia|]. revert A B. enough (H : (negb ((65 <=? code c) && (code c <=? 70)) || (c =?c qp_digit (code c - 55)))%N = true).
    { intros A B. apply N.leb_le in A, B. rewrite A, B in H. apply ceqb_eq in H. exact H. }
    revert c. apply byte_sweep. vm_compute. reflexivity.
Qed.
Lemma qp_exact d e : qp_written d e <-> e = qp_encode d.
Proof.
  split.
  - induction 1 as [|c d e P NS NE _ IH|c h1 h2 a b d e NP H1 H2 EC _ IH]; [reflexivity| |]; rewrite qp_encode_cons; unfold qp_unit; rewrite qp_plain_safe.
    + assert (Q : qp_safe c = true) by (apply qp_safe_spec; auto). rewrite Q. cbn [app]. congruence.
    + assert (Q : qp_safe c = false) by (apply not_true_iff_false; rewrite qp_safe_spec; exact NP). rewrite Q. cbn [app].
      apply hex_facts in H1 as [L1 ->], H2 as [L2 ->]. assert (K : code c = (16 * a + b)%N) by (rewrite EC; apply code_chr; lia).
      rewrite K. replace ((16 * a + b) / 16)%N with a by (apply N.div_unique with b; lia).
      replace ((16 * a + b) mod 16)%N with b by (apply N.mod_unique with a; lia). congruence.
  - intros ->. induction d as [|c d IH]; [constructor|]. rewrite qp_encode_cons. unfold qp_unit. rewrite qp_plain_safe. destruct (qp_safe c) eqn:Q.
    + apply qp_safe_spec in Q as (A & B & D). apply qw_char; auto.
    + assert (NP : ~ (printable c /\ c <> SEMI /\ c <> EQUALS)) by (rewrite <- qp_safe_spec; congruence).
      assert (T : (is_uhex (qp_digit (code c / 16)) && is_uhex (qp_digit (code c mod 16)) &&
        (chr (16 * uhex_val (qp_digit (code c / 16)) + uhex_val (qp_digit (code c mod 16))) =?c c)) = true) by (revert c NP Q; intros c _ _; revert c; apply byte_sweep; vm_compute; reflexivity).
      apply andb_true_iff in T as [T T3]. apply andb_true_iff in T as [T1 T2]. apply ceqb_eq in T3.
      cbn [app]. eapply qw_hex; eauto; apply is_uhex_spec; auto.
Qed.

(** ** h= *)
Definition tail_of (first : bool) (g : list bytes) : bytes := match g with [] => [] | _ => (if first then [] else [COLON]) ++ colons g end.
Lemma tail_cons first n g : tail_of first (n :: g) = (if first then [] else [COLON]) ++ n ++ tail_of false g.
Proof. destruct g, first; cbn [tail_of colons app]; rewrite ?app_nil_r; reflexivity. Qed.
Lemma colons_tail n g : colons (n :: g) = n ++ tail_of false g.
Proof. exact (tail_cons true n g). Qed.
Definition still (first : bool) (g : list bytes) : bool := match g with [] => first | _ => false end.
Lemma h_run g : forall first cur rest out, length (cur ++ tail_of first g) <= 80 ->
  h_list first (g ++ rest) cur out = h_list (still first g) rest (cur ++ tail_of first g) out.
Proof.
  induction g as [|n g IH]; intros first cur rest out L.
  - cbn [app tail_of still]. rewrite app_nil_r. reflexivity.
  - rewrite tail_cons in L |- *. cbn [app h_list still]. rewrite !app_length in L.
    assert (Q : Nat.ltb 80 (length cur + length n + length (if first then [] else [COLON] : bytes)) = false) by (apply Nat.ltb_ge; lia). rewrite Q.
    rewrite IH by (rewrite !app_length; lia). rewrite <- !app_assoc. destruct g; reflexivity.
Qed.
Lemma line_run n g rest out : on_line next_starts (n :: g) ->
  h_list false (g ++ rest) (HT :: SP :: n) out = h_list false rest (next_starts ++ colons (n :: g)) out.
Proof.
  intros [L|(_ & m & E)].
  - rewrite colons_tail in L |- *. rewrite app_assoc in L |- *. change (HT :: SP :: n) with (next_starts ++ n). rewrite h_run by exact L. destruct g; reflexivity.
  - injection E as -> ->. reflexivity.
Qed.
Lemma first_run g rest out : on_line (HT :: str "h=") g ->
  h_list true (g ++ rest) (HT :: str "h=") out = h_list (still true g) rest ((HT :: str "h=") ++ colons g) out.
Proof.
  intros [L|(E & _)]; [|discriminate E]. assert (Q : tail_of true g = colons g) by (destruct g; reflexivity).
  rewrite <- Q in L |- *. apply h_run. exact L.
Qed.
Definition h_out (r : bytes * bytes) : bytes := fst r ++ snd r.
Lemma h_break f p g n rest out : f = still true g -> 80 < length (p ++ colons g ++ behind g) + length n ->
  h_list f (n :: rest) (p ++ colons g) out = h_list false rest (HT :: SP :: n) (out ++ p ++ colons g ++ behind g ++ CRLF).
Proof.
  intros -> L. cbn [h_list]. assert (Q : (if still true g then [] else [COLON]) = behind g) by (destruct g; reflexivity). rewrite Q.
  assert (K : Nat.ltb 80 (length (p ++ colons g) + length n + length (behind g)) = true) by (apply Nat.ltb_lt; rewrite !app_length in *; lia).
  rewrite K. rewrite <- !app_assoc. reflexivity.
Qed.
Lemma h_next p gs t : h_lines p gs t -> p = next_starts -> forall n g r, gs = (n :: g) :: r -> forall out,
  h_out (h_list false (g ++ concat r) (HT :: SP :: n) out) = out ++ t.
Proof.
  induction 1 as [p g0 OL|p g0 n1 g1 r1 t OL L _ IH]; intros -> n g r [= -> <-] out; rewrite line_run by exact OL.
  - reflexivity.
  - cbn [concat app]. rewrite (h_break _ _ (n :: g)) by (reflexivity || exact L). rewrite (IH eq_refl _ _ _ eq_refl). rewrite <- !app_assoc. reflexivity.
Qed.
Lemma h_sound names t : h_field names t -> t = h_out (h_list true names (HT :: str "h=") []).
Proof.
  intros (gs & <- & H). inversion H as [p g OL|p g n g2 r u OL L U]; subst; cbn [concat].
  - rewrite first_run by exact OL. cbn [concat h_list h_out fst snd app]. reflexivity.
  - rewrite first_run by exact OL. cbn [concat]. change ((n :: g2) ++ concat r) with (n :: g2 ++ concat r). rewrite (h_break _ (HT :: str "h=") g) by (reflexivity || exact L).
    pose proof (h_next _ _ _ U eq_refl _ _ _ eq_refl) as K. cbn [concat] in K. rewrite K. cbn [app]. rewrite <- !app_assoc. reflexivity.
Qed.
Lemma h_complete names : forall p g, on_line p g -> (p = next_starts -> g <> []) -> exists gs t, concat gs = g ++ names /\ h_lines p gs t /\ exists r, gs = (g ++ firstn r names) :: tl gs.
Proof.
  induction names as [|n names IH]; intros p g OL NE.
  - exists [g], (p ++ colons g). cbn [concat]. split; [reflexivity|]. split; [constructor; auto|]. exists 0. cbn [firstn tl]. rewrite app_nil_r. reflexivity.
  - destruct (Nat.le_gt_cases (length (p ++ colons g ++ behind g) + length n) 80) as [L|L].
    + assert (X : colons (g ++ [n]) = colons g ++ behind g ++ n).
      { clear. induction g as [|a [|b g] IH]; [reflexivity..|]. cbn [app] in *. change (colons (a :: b :: g ++ [n])) with (a ++ COLON :: colons (b :: g ++ [n])).
        rewrite IH. change (colons (a :: b :: g)) with (a ++ COLON :: colons (b :: g)). rewrite <- app_assoc. reflexivity. }
      destruct (IH p (g ++ [n])) as (gs & t & E & H & r & R).
      { left. rewrite X. rewrite !app_length in *. lia. }
      { intros _ K. destruct g; discriminate K. }
      exists gs, t. split; [rewrite E, <- app_assoc; reflexivity|]. split; auto. exists (S r). cbn [firstn]. rewrite <- app_assoc in R. exact R.
    + destruct (IH next_starts [n]) as (gs & t & E & H & r & R); [right; eauto|discriminate|].
      destruct gs as [|g1 gs]; [inversion H|]. cbn [tl app] in R. injection R as ->. exists (g :: (n :: firstn r names) :: gs), (p ++ colons g ++ behind g ++ CRLF ++ t).
      split; [cbn [concat app] in *; rewrite E; reflexivity|]. split; [constructor; auto|]. exists 0. cbn [firstn tl]. rewrite app_nil_r. reflexivity.
Qed.
Lemma h_exact names t : h_field names t <-> t = h_out (h_list true names (HT :: str "h=") []).
Proof.
  split; [apply h_sound|]. intros ->. destruct (h_complete names (HT :: str "h=") []) as (gs & t & E & H & _).
  - left. cbn. lia.
  - discriminate.
  - assert (HF : h_field names t) by (exists gs; auto). rewrite <- (h_sound _ _ HF). exact HF.
Qed.

(** ** b= *)
Lemma b_sound k e b : b_lines k e b -> forall f, 0 < k <= 80 -> length e < f -> fold_b f (80 - k) e = b.
Proof.
  induction 1 as [k e L|k l e t L NE _ IH]; intros [|f] K F; try lia; cbn [fold_b]; replace (80 - (80 - k)) with k by lia.
  - destruct e; [reflexivity|]. rewrite firstn_all2, skipn_all2 by exact L. apply app_nil_r.
  - destruct (l ++ e) as [|c x] eqn:E; [destruct l; [cbn in L; lia|discriminate E]|]. rewrite <- E.
    subst k. rewrite firstn_app_exact, skipn_app_exact. destruct e as [|d e]; [congruence|].
    rewrite <- E, app_length in F. change 2 with (80 - 78). rewrite IH by lia. reflexivity.
Qed.
Lemma b_complete n : forall k e, length e < n -> 0 < k -> exists b, b_lines k e b.
Proof.
  induction n as [|n IH]; intros k e L K; [lia|]. destruct (Nat.le_gt_cases (length e) k) as [Q|Q]; [eexists; apply bl_last; exact Q|].
  destruct (IH 78 (skipn k e)) as (b & B); [rewrite skipn_length; lia|lia|].
  exists (firstn k e ++ CRLF ++ next_starts ++ b). rewrite <- (firstn_skipn k e) at 1. apply bl_next; auto.
  - apply firstn_length_le. lia.
  - intros X. apply (f_equal (@length ascii)) in X. rewrite skipn_length in X. cbn in X. lia.
Qed.
Lemma b_exact e b : b_lines 77 e b <-> b = fold_b (S (length e)) 3 e.
Proof.
  split; [intros H; symmetry; change 3 with (80 - 77); apply b_sound; auto; lia|]. intros ->.
  destruct (b_complete (S (length e)) 77 e) as (b & B); [lia..|]. change 3 with (80 - 77). rewrite (b_sound _ _ _ B) by lia. exact B.
Qed.

(** ** The field up to b= *)
Lemma in_time_int64 o now : in_time o now <-> (o_exsign o = true -> in_int64 (expiry o now) = true).
Proof. unfold in_time, in_int64, LONG_MIN, LONG_MAX. rewrite andb_true_iff, !Z.leb_le. tauto. Qed.
Lemma ex_eq {A} (x : A) (P : A -> Prop) : (exists y, y = x /\ P y) <-> P x.
Proof. split; [intros (y & -> & H); exact H|eauto]. Qed.
Definition i_text (o : options) : bytes := match o_identity o with [] => [] | i => str "; i=" ++ qp_encode i end.
Lemma i_exact o t : i_tag o t <-> t = i_text o.
Proof.
  unfold i_tag, i_text. destruct (o_identity o) as [|c i] eqn:E.
  - split; [intros [[_ H]|[H _]]; [exact H|congruence]|auto].
  - split; [intros [[H _]|[_ (e & -> & Q)]]; [discriminate|apply qp_exact in Q; congruence]|]. intros ->. right. split; [discriminate|]. eexists. split; [reflexivity|]. apply qp_exact. reflexivity.
Qed.
Lemma if_exact b P x t : (forall t, P t <-> t = x) -> if_set b P t <-> t = if b then x else [].
Proof. intros H. destruct b; cbn [if_set]; [apply H|tauto]. Qed.
Lemma t_exact o now t : t_tag o now t <-> t = str " t=" ++ fmt_lu_time (stamp o now) ++ str ";".
Proof. unfold t_tag, stamp. split; [intros (d & -> & D); apply time_exact in D; subst; reflexivity|]. intros ->. eexists. split; [reflexivity|]. apply time_exact. reflexivity. Qed.
Lemma x_exact o now t : x_tag o now t <-> t = str " x=" ++ fmt_lu_time (expiry o now) ++ str ";".
Proof. unfold x_tag. split; [intros (d & -> & D); apply time_exact in D; subst; reflexivity|]. intros ->. eexists. split; [reflexivity|]. apply time_exact. reflexivity. Qed.
Lemma l_exact o t : l_tag o t <-> t = str "; l=" ++ fmt_lu (o_bodylen o).
Proof. unfold l_tag. split; [intros (d & -> & D); apply number_exact in D; subst; reflexivity|]. intros ->. eexists. split; [reflexivity|]. apply number_exact. reflexivity. Qed.
Definition v_text (o : options) : bytes := if (o_arc o =? 0)%N then str "DKIM-Signature: v=1" else str "ARC-Message-Signature: i=" ++ fmt_lu (o_arc o).
Lemma v_exact o t : begins o t <-> t = v_text o.
Proof.
  unfold begins, v_text. destruct (o_arc o =? 0)%N; [tauto|]. split; [intros (d & -> & D); apply number_exact in D; subst; reflexivity|].
  intros ->. eexists. split; [reflexivity|]. apply number_exact. reflexivity.
Qed.
Lemma alg_text o : Algorithm2String (so_alg (o_main o)) (o_digest o) = a_text (o_digest o) (so_alg (o_main o)).
Proof. destruct (so_alg (o_main o)), (o_digest o); reflexivity. Qed.
Lemma mode_text m : CanonMode2String m = mode_name m. Proof. destruct m; reflexivity. Qed.
Lemma up_to_b o q now names bh T : in_time o now /\ field_up_to_b o q now names bh T <-> sig_template o q now names bh = Ok T.
Proof.
  unfold sig_template. rewrite time_tags_text. rewrite in_time_int64.
  assert (IDX : (match o_identity o with [] => [] | i => str "; i=" ++ c_str (qp_encode i) end) = i_text o) by (unfold i_text; destruct (o_identity o); [reflexivity|rewrite qp_c_str; reflexivity]).
  rewrite IDX, alg_text, !mode_text. destruct (h_list true names (HT :: str "h=") []) as [hl cur] eqn:HL.
  destruct (o_exsign o && negb (in_int64 (expiry o now))) eqn:XE; cbn [obind].
  { split; [|discriminate]. intros [H _]. apply andb_true_iff in XE as [XE XF]. rewrite (H XE) in XF. discriminate XF. }
  assert (G : o_exsign o = true -> in_int64 (expiry o now) = true) by (intros X; rewrite X in XE; apply negb_false_iff in XE; exact XE).
  assert (HX : forall t, h_field names t <-> t = hl ++ cur) by (intros t; rewrite h_exact, HL; reflexivity).
  unfold field_up_to_b. split.
  - intros [_ (v & t & x & i & l & h & e & V & T1 & X & I & L & H & E & ->)].
    apply v_exact in V. apply (if_exact _ _ _ _ (t_exact o now)) in T1. apply (if_exact _ _ _ _ (x_exact o now)) in X. apply i_exact in I.
    apply (if_exact _ _ _ _ (l_exact o)) in L. apply HX in H. apply b64_exact in E. subst. unfold v_text, line_end. f_equal.
    destruct (o_arc o =? 0)%N; repeat (rewrite <- ?app_assoc; cbn [app]); reflexivity.
  - intros E. apply Ok_inj in E. subst T. split; [exact G|].
    exists (v_text o), (if o_tssign o then str " t=" ++ fmt_lu_time (stamp o now) ++ str ";" else []), (if o_exsign o then str " x=" ++ fmt_lu_time (expiry o now) ++ str ";" else []),
      (i_text o), (if o_signlen o then str "; l=" ++ fmt_lu (o_bodylen o) else []), (hl ++ cur), (Base64_Encode bh).
    split; [apply v_exact; auto|]. split; [apply (if_exact _ _ _ _ (t_exact o now)); auto|]. split; [apply (if_exact _ _ _ _ (x_exact o now)); auto|].
    split; [apply i_exact; auto|]. split; [apply (if_exact _ _ _ _ (l_exact o)); auto|]. split; [apply HX; auto|]. split; [apply b64_exact; auto|].
    unfold v_text, line_end. destruct (o_arc o =? 0)%N; repeat (rewrite <- ?app_assoc; cbn [app]); reflexivity.
Qed.

(** ** One signature *)
Lemma signs_exact C o q md x : signs_as C o q md x <-> make_signature C o q md = Ok x.
Proof.
  unfold signs_as, make_signature. destruct (so_alg q).
  - destruct (so_rsa q) as [k|]; [|split; [intros (k & E & _); discriminate E|intros E; discriminate E]].
    split; [intros (k' & [= <-] & ->); reflexivity|]. destruct c_rsa_sign eqn:E; [|intros K; discriminate K]. intros [= <-]. eauto.
  - unfold c_read. destruct (Nat.leb_spec 64 (S (length (so_ed q)))) as [L|L]; cbn [obind].
    + split; [intros [_ ->]; reflexivity|]. destruct c_ed_sign eqn:E; [|intros K; discriminate K]. intros [= <-]. split; [lia|reflexivity].
    + split; [intros [K _]; lia|discriminate].
Qed.
Lemma one_made C o now data names bh q H : one_signature C false o now data names bh q = Ok H <-> made C o now names data bh q H.
Proof.
  unfold one_signature, made. change (o_exsign o = true -> (-9223372036854775808 <= expiry o now <= 9223372036854775807)%Z) with (in_time o now). split.
  - destruct (sig_template o q now names bh) as [T| | |] eqn:ET; cbn [obind]; try discriminate. apply up_to_b in ET as [IT UB].
    destruct (FilterHeader false (o_chead o) T) as [c| | |] eqn:EF; cbn [obind]; try discriminate. apply form_text in EF.
    destruct (make_signature C o q (digest C (o_digest o) (data ++ c))) as [x| | |] eqn:ES; cbn [obind]; try discriminate. apply signs_exact in ES.
    intros [= <-]. split; [exact IT|]. exists T, c, x, (Base64_Encode x), (fold_b (S (length (Base64_Encode x))) 3 (Base64_Encode x)).
    split; [exact UB|]. split; [exact EF|]. split; [exact ES|]. split; [apply b64_exact; reflexivity|]. split; [apply b_exact; reflexivity|reflexivity].
  - intros [IT (T & c & x & e & b & UB & EF & ES & E & B & ->)]. assert (ET : sig_template o q now names bh = Ok T) by (apply up_to_b; auto). rewrite ET. cbn [obind].
    apply form_text in EF. rewrite EF. cbn [obind]. apply signs_exact in ES. rewrite ES. cbn [obind]. apply b64_exact in E. apply b_exact in B. subst. reflexivity.
Qed.

(** ** All of them *)
Lemma made_some C o now names data bh q H : made C o now names data bh q H -> H <> [].
Proof.
  intros [_ (T & c & x & e & b & (v & t & xx & i & l & h & e2 & V & _ & _ & _ & _ & _ & _ & ->) & _ & _ & _ & _ & ->)].
  unfold begins in V. destruct (o_arc o =? 0)%N; [subst v|destruct V as (d & -> & _)]; discriminate.
Qed.
Definition glue (acc H : bytes) : bytes := match acc with [] => H | _ => acc ++ CRLF ++ H end.
Lemma all_made_exact C o clock data names bh l : forall n acc H, l <> [] -> all_sigs C false o clock n data names bh l acc = Ok H <->
  exists Hs, length Hs = length l /\ (forall k q h, nth_error l k = Some q -> nth_error Hs k = Some h -> made C o (clock (n + k)) names data bh q h) /\ H = glue acc (joined Hs).
Proof.
  induction l as [|q l IH]; intros n acc H NE; [congruence|]. cbn [all_sigs].
  destruct (one_signature C false o (clock n) data names bh q) as [h0| | |] eqn:E1; cbn [obind].
  2-4: split; [discriminate|]; intros ([|h Hs] & L & G & _); [discriminate L|];
       specialize (G 0 q h eq_refl eq_refl); rewrite Nat.add_0_r in G; apply one_made in G; rewrite G in E1; discriminate E1.
  pose proof (proj1 (one_made _ _ _ _ _ _ _ _) E1) as M. pose proof (made_some _ _ _ _ _ _ _ _ M) as N0.
  change (match acc with [] => h0 | _ => acc ++ CRLF ++ h0 end) with (glue acc h0).
  assert (AN : glue acc h0 <> []) by (unfold glue; destruct acc; [exact N0|discriminate]).
  destruct l as [|q2 l].
  - cbn [all_sigs]. split.
    + intros [= <-]. exists [h0]. split; [reflexivity|]. split; [|reflexivity]. intros [|k] q1 h; cbn [nth_error]; [intros [= <-] [= <-]; rewrite Nat.add_0_r; exact M|].
      destruct k; discriminate.
    + intros (Hs & L & G & ->). destruct Hs as [|h [|]]; try discriminate L. specialize (G 0 q h eq_refl eq_refl). rewrite Nat.add_0_r in G. apply one_made in G. rewrite G in E1. injection E1 as ->. reflexivity.
  - rewrite (IH (S n) (glue acc h0) H) by discriminate. split.
    + intros (Hs & L & G & ->). exists (h0 :: Hs). split; [cbn [length] in *; congruence|]. split.
      * intros [|k] q1 h; cbn [nth_error]; [intros [= <-] [= <-]; rewrite Nat.add_0_r; exact M|]. intros A B. specialize (G k q1 h A B). replace (n + S k) with (S n + k) by lia. exact G.
      * destruct Hs as [|h1 Hs]; [discriminate L|]. unfold glue at 1. destruct (glue acc h0) as [|c1 g1] eqn:GE; [congruence|]. rewrite <- GE. unfold glue.
        destruct acc; rewrite joined_cons2; rewrite <- ?app_assoc; reflexivity.
    + intros ([|h Hs] & L & G & ->); [discriminate L|]. pose proof (G 0 q h eq_refl eq_refl) as G0. rewrite Nat.add_0_r in G0. apply one_made in G0. rewrite G0 in E1. injection E1 as ->.
      exists Hs. split; [cbn [length] in *; congruence|]. split.
      * intros k q1 h A B. specialize (G (S k) q1 h A B). replace (n + S k) with (S n + k) in G by lia. exact G.
      * destruct Hs as [|h1 Hs]; [discriminate L|]. unfold glue at 2. destruct (glue acc h0) as [|c1 g1] eqn:GE; [congruence|]. rewrite <- GE. unfold glue.
        destruct acc; rewrite joined_cons2; rewrite <- ?app_assoc; reflexivity.
Qed.
Lemma fields_form mode toSign hs : forall d names, sign_headers false mode toSign hs = Ok (d, names) <->
  exists outs, Forall2 (fun h out => text_form (relaxes mode) (h_text h) out) (filter (picked toSign) hs) outs /\ d = with_crlf outs /\ names = map lname (filter (picked toSign) hs).
Proof.
  induction hs as [|h hs IH]; intros d names.
  - cbn [sign_headers filter map]. split; [intros [= <- <-]; exists []; repeat constructor|]. intros (outs & F & -> & ->). inversion F. reflexivity.
  - cbn [sign_headers filter]. unfold lower_str. cbn [andb obind].
    destruct (picked toSign h) eqn:P.
    + assert (Q : exists c n, lower (h_name h) = c :: n /\ negb match toSign with [] => true | _ => false end && negb (memb (c :: n) toSign) = false).
      { unfold picked in P. destruct (lower (h_name h)) as [|c n]; [discriminate P|]. exists c, n. split; [reflexivity|]. destruct toSign; [reflexivity|]. rewrite P. reflexivity. }
      destruct Q as (c & n & EN & Q). rewrite EN, Q. split.
      * destruct (FilterHeader false mode (h_text h)) as [x| | |] eqn:EF; cbn [obind]; try discriminate. apply form_text in EF.
        destruct (sign_headers false mode toSign hs) as [[d2 n2]| | |]; cbn [obind]; try discriminate. intros [= <- <-].
        destruct (proj1 (IH d2 n2) eq_refl) as (outs & F & -> & ->). exists (x :: outs). split; [constructor; [exact EF|exact F]|].
        split; [unfold with_crlf; cbn [map concat]; rewrite <- !app_assoc; reflexivity|]. cbn [map]. unfold lname at 2. rewrite EN. reflexivity.
      * intros (outs & F & -> & ->). inversion F as [|h1 x hs1 outs1 FX FO]; subst. apply form_text in FX. rewrite FX. cbn [obind].
        assert (E2 : sign_headers false mode toSign hs = Ok (with_crlf outs1, map lname (filter (picked toSign) hs))) by (apply IH; eauto).
        rewrite E2. cbn [obind]. cbn [map]. unfold with_crlf. cbn [map concat]. unfold lname at 2. rewrite EN. rewrite <- !app_assoc. reflexivity.
    + destruct (lower (h_name h)) as [|c n] eqn:EN; [apply IH|].
      assert (Q : negb match toSign with [] => true | _ => false end && negb (memb (c :: n) toSign) = true).
      { unfold picked in P. rewrite EN in P. destruct toSign; [discriminate P|]. rewrite P. reflexivity. }
      rewrite Q. apply IH.
Qed.
(** ** CreateSignature *)
Lemma with_same {A} (P : A -> Prop) x : (exists y, P y /\ y = x) <-> P x.
Proof. split; [intros (y & H & ->); exact H|eauto]. Qed.
Lemma create_made C clock o t fs b out H : has_fields t fs -> message_body t b -> canonical_body (is_relaxed (o_cbody o)) b out ->
  snd (CreateSignature C false clock o (new_signatory (open_str t))) = Ok H <-> all_made C o clock fs out H.
Proof.
  intros HF MB CB. unfold CreateSignature, new_signatory, all_made. cbn [y_msg y_file].
  destruct (message_fields' t) as (_ & _ & _ & m & s & _ & _ & PA & _). rewrite PA.
  assert (EF : m_headers m = fs) by (eapply has_fields_unique; [eapply parse_fields; eauto|exact HF]).
  assert (BA : body_at s (m_offset m) b).
  { eapply message_body_at; eauto. transitivity (contents (open_str t)); [|reflexivity]. unfold parse_all in PA. eapply parse_loop_contents; eauto. }
  assert (X : exists chunks ok s1, CanonicalizationBody s (o_cbody o) (m_offset m) (o_signlen o) (o_bodylen o) = Ok (chunks, ok, s1) /\
    concat chunks = cut (o_signlen o) (o_bodylen o) out /\ (ok = true <-> (o_signlen o = true -> (o_bodylen o <= N.of_nat (length out))%N))).
  { unfold CanonicalizationBody, cut. destruct (o_signlen o).
    - destruct (body_limited buffer_size s (o_cbody o) (m_offset m) b out buffer_pos BA CB (o_bodylen o)) as (calls & s' & E & K). rewrite E.
      do 3 eexists. split; [reflexivity|]. rewrite N.leb_le. tauto.
    - destruct (body_canonical buffer_size s (o_cbody o) (m_offset m) b out buffer_pos BA CB (o_bodylen o)) as (calls & s' & E & K). rewrite E.
      do 3 eexists. split; [reflexivity|]. split; [exact K|]. split; auto; discriminate. }
  destruct X as (chunks & ok & s1 & E & EC & LIM). rewrite E. cbn [snd]. destruct ok.
  2: { split; [intros K; discriminate K|]. intros [K _]. apply LIM in K. discriminate K. }
  cbv zeta. rewrite !omap_lower_false. cbn [obind]. rewrite EF. unfold digest_chunks. rewrite EC. set (bh := digest C (o_digest o) (cut (o_signlen o) (o_bodylen o) out)).
  assert (FP : filter (picked (map lower (o_headers o))) (rev fs) = filter (fun h => choice o (h_name h)) (rev fs)).
  { apply filter_ext. intros h. apply picked_choice. }
  assert (LN : listed_names h_name o fs = map lname (filter (picked (map lower (o_headers o))) (rev fs)) ++ map lower (o_oversign o)).
  { unfold listed_names. rewrite FP. reflexivity. }
  assert (NE : rev (all_signatures o) <> []).
  { intros K. apply (f_equal (@length _)) in K. rewrite rev_length in K. discriminate K. }
  split.
  - destruct (sign_headers false (o_chead o) (map lower (o_headers o)) (rev fs)) as [[d names]| | |] eqn:SH; cbn [obind]; try discriminate.
    apply fields_form in SH as (outs & F & -> & ->). rewrite <- LN. intros AS. apply all_made_exact in AS as (Hs & L & G & ->); auto. rewrite rev_length in L.
    split; [apply LIM; reflexivity|]. exists outs, Hs. split; [rewrite <- FP; exact F|]. split; [exact L|]. split; [exact G|reflexivity].
  - intros (_ & outs & Hs & F & L & G & ->).
    assert (SH : sign_headers false (o_chead o) (map lower (o_headers o)) (rev fs) = Ok (with_crlf outs, map lname (filter (picked (map lower (o_headers o))) (rev fs)))).
    { apply fields_form. exists outs. rewrite FP. auto. }
    rewrite SH. cbn [obind]. rewrite <- LN. apply all_made_exact; auto. exists Hs. rewrite rev_length. split; [exact L|]. split; [exact G|reflexivity].
Qed.

(** ** With tolower undefined for negative chars *)
Lemma eight_seven n : existsb is_8bit n = false <-> Forall (fun c => (code c < 128)%N) n.
Proof.
  rewrite <- not_true_iff_false, existsb_exists, Forall_forall. split.
  - intros H c I. destruct (N.ltb_spec (code c) 128); auto. destruct H. exists c. split; auto. apply N.leb_le. auto.
  - intros H (c & I & K). apply N.leb_le in K. specialize (H c I). lia.
Qed.
Lemma lower_seven strict n x : lower_str strict n = Ok x <-> x = lower n /\ (strict = true -> Forall (fun c => (code c < 128)%N) n).
Proof.
  unfold lower_str. rewrite <- eight_seven. destruct strict; cbn [andb]; [|intuition congruence]. destruct (existsb is_8bit n); [|intuition congruence].
  split; [discriminate|]. intros [_ H]. discriminate (H eq_refl).
Qed.
Lemma omap_seven strict l x : omap (lower_str strict) l = Ok x <-> x = map lower l /\ (strict = true -> Forall (Forall (fun c => (code c < 128)%N)) l).
Proof.
  revert x. induction l as [|n l IH]; intros x; cbn [omap map].
  - split; [intros [= <-]; auto|intros [-> _]; reflexivity].
  - split.
    + destruct (lower_str strict n) as [y| | |] eqn:E; cbn [obind]; try discriminate. apply lower_seven in E as [-> E].
      destruct (omap (lower_str strict) l) as [z| | |]; cbn [obind]; try discriminate. intros [= <-]. destruct (proj1 (IH z) eq_refl) as [-> F]. split; auto.
    + intros [-> F]. assert (E : lower_str strict n = Ok (lower n)) by (apply lower_seven; split; auto; intros S1; specialize (F S1); inversion F; auto).
      rewrite E. cbn [obind]. assert (E2 : omap (lower_str strict) l = Ok (map lower l)) by (apply IH; split; auto; intros S1; specialize (F S1); inversion F; auto).
      rewrite E2. reflexivity.
Qed.
Definition own_name (h : header) : Prop := h_name h <> [] -> exists w1 w2 r, h_text h = (w1 ++ h_name h ++ w2) ++ COLON :: r /\ ~ In COLON (w1 ++ h_name h ++ w2) /\ Forall WSP w1 /\ Forall WSP w2.
Lemma filter_seven strict mode h : h_name h <> [] -> own_name h -> Forall (fun c => (code c < 128)%N) (h_name h) -> FilterHeader strict mode (h_text h) = FilterHeader false mode (h_text h).
Proof.
  intros NE ON S7. destruct mode; [reflexivity|]. destruct (ON NE) as (w1 & w2 & r & -> & NC & W1 & W2). unfold FilterHeader. rewrite find_char_app by exact NC.
  rewrite firstn_app_exact. assert (X : lower_str strict (w1 ++ h_name h ++ w2) = lower_str false (w1 ++ h_name h ++ w2)); [|rewrite X; reflexivity].
  assert (Y : lower_str strict (w1 ++ h_name h ++ w2) = Ok (lower (w1 ++ h_name h ++ w2))); [|rewrite Y; reflexivity].
  apply lower_seven. split; [reflexivity|]. intros _.
  assert (W : forall w, Forall WSP w -> Forall (fun c => (code c < 128)%N) w) by (intros w; apply Forall_impl; intros c [->| ->]; vm_compute; reflexivity).
  repeat (apply Forall_app; split); auto.
Qed.
Lemma fields_seven strict mode ts hs x : (forall h, In h hs -> own_name h) ->
  sign_headers strict mode ts hs = Ok x <-> sign_headers false mode ts hs = Ok x /\ (strict = true -> Forall (fun h => Forall (fun c => (code c < 128)%N) (h_name h)) hs).
Proof.
  revert x. induction hs as [|h hs IH]; intros x ON; [cbn [sign_headers]; intuition|].
  specialize (fun x => IH x (fun g I => ON g (or_intror I))). specialize (ON h (or_introl eq_refl)). cbn [sign_headers].
  destruct (lower_str strict (h_name h)) as [n| | |] eqn:E.
  2-4: cbn [obind]; split; [discriminate|]; intros [_ F]; rewrite (proj2 (lower_seven strict (h_name h) _) (conj eq_refl (fun S1 => Forall_inv (F S1)))) in E; discriminate E.
  apply lower_seven in E as [-> S7]. cbn [obind]. change (lower_str false (h_name h)) with (Ok (lower (h_name h))). cbn [obind].
  assert (SK : sign_headers strict mode ts hs = Ok x <-> sign_headers false mode ts hs = Ok x /\ (strict = true -> Forall (fun h => Forall (fun c => (code c < 128)%N) (h_name h)) (h :: hs))).
  { rewrite IH. split; intros [A B]; (split; [exact A|]); intros S1; [constructor; auto|]. specialize (B S1). inversion B; auto. }
  destruct (lower (h_name h)) as [|c n] eqn:EN; [exact SK|].
  assert (NE : h_name h <> []) by (intros K; rewrite K in EN; discriminate EN).
  destruct (negb match ts with [] => true | _ => false end && negb (memb (c :: n) ts)); [exact SK|].
  assert (FE : FilterHeader strict mode (h_text h) = FilterHeader false mode (h_text h)) by (destruct strict; [apply filter_seven; auto|reflexivity]).
  rewrite FE. destruct (FilterHeader false mode (h_text h)) as [y| | |]; cbn [obind]; try (split; [discriminate|intros [K _]; discriminate K]).
  split.
  - destruct (sign_headers strict mode ts hs) as [[d names]| | |]; cbn [obind]; try discriminate. intros [= <-].
    destruct (proj1 (IH (d, names)) eq_refl) as [-> F]. cbn [obind]. split; auto.
  - intros [A F]. destruct (sign_headers false mode ts hs) as [[d names]| | |] eqn:E2; cbn [obind] in A; try discriminate A.
    assert (E3 : sign_headers strict mode ts hs = Ok (d, names)) by (apply IH; split; auto; intros S1; specialize (F S1); inversion F; auto).
    rewrite E3. exact A.
Qed.
Lemma own_fields t fs h : has_fields t fs -> In h fs -> own_name h.
Proof.
  intros HF K NE. pose proof (fields_named _ _ _ HF K) as N. inversion N as [|w1 n w2 rest NC W1 W2 TR E1 E2 E3]; [congruence|]. subst n. eauto 10.
Qed.
Lemma one_seven C strict o now data names bh q : one_signature C strict o now data names bh q = one_signature C false o now data names bh q.
Proof.
  unfold one_signature. destruct (sig_template o q now names bh) as [T| | |] eqn:ET; cbn [obind]; try reflexivity. apply up_to_b in ET as [_ UB].
  assert (X : FilterHeader strict (o_chead o) T = FilterHeader false (o_chead o) T); [|rewrite X; reflexivity].
  destruct UB as (v & t & xx & i & l & h & e2 & V & _ & _ & _ & _ & _ & _ & ET). 
  assert (Y : exists n r, T = n ++ COLON :: r /\ ~ In COLON n /\ lower_str strict n = lower_str false n).
  { unfold begins in V. destruct (o_arc o =? 0)%N; [subst v|destruct V as (d & -> & _)].
    - exists (str "DKIM-Signature"). eexists. split; [rewrite ET; reflexivity|]. split; [|destruct strict; vm_compute; reflexivity]. intros K. repeat (destruct K as [K|K]; [discriminate K|]). exact K.
    - exists (str "ARC-Message-Signature"). eexists. split; [rewrite ET; reflexivity|]. split; [|destruct strict; vm_compute; reflexivity]. intros K. repeat (destruct K as [K|K]; [discriminate K|]). exact K. }
  destruct Y as (n & r & -> & NC & LS). destruct (o_chead o); [reflexivity|]. unfold FilterHeader. rewrite find_char_app by exact NC. rewrite firstn_app_exact, LS. reflexivity.
Qed.
Lemma all_seven C strict o clock data names bh l : forall n acc, all_sigs C strict o clock n data names bh l acc = all_sigs C false o clock n data names bh l acc.
Proof. induction l as [|q l IH]; intros n acc; cbn [all_sigs]; [reflexivity|]. rewrite one_seven. destruct one_signature; cbn [obind]; auto. Qed.
Definition ascii_names (o : options) (fs : list header) : Prop :=
  Forall (Forall (fun c => (code c < 128)%N)) (o_headers o ++ o_oversign o ++ map h_name fs).
Lemma create_seven C strict clock o t fs H : has_fields t fs ->
  snd (CreateSignature C strict clock o (new_signatory (open_str t))) = Ok H <->
  snd (CreateSignature C false clock o (new_signatory (open_str t))) = Ok H /\ (strict = true -> ascii_names o fs).
Proof.
  intros HF. unfold CreateSignature, new_signatory, ascii_names. cbn [y_msg y_file].
  destruct (message_fields' t) as (_ & _ & _ & m & s & _ & _ & PA & _). rewrite PA.
  assert (EF : m_headers m = fs) by (eapply has_fields_unique; [eapply parse_fields; eauto|exact HF]).
  destruct (CanonicalizationBody s (o_cbody o) (m_offset m) (o_signlen o) (o_bodylen o)) as [[[chunks ok] s1]| | |]; cbn [snd]; try (split; [discriminate|intros [K _]; discriminate K]).
  destruct ok; [|split; [intros K; discriminate K|intros [K _]; discriminate K]]. rewrite EF. cbv zeta. split.
  - destruct (omap (lower_str strict) (o_headers o)) as [ts| | |] eqn:E1; cbn [obind]; try discriminate. apply omap_seven in E1 as [-> S1].
    destruct (sign_headers strict (o_chead o) (map lower (o_headers o)) (rev fs)) as [[d names]| | |] eqn:E2; cbn [obind]; try discriminate.
    apply fields_seven in E2 as [E2 S2]; [|intros h I; apply in_rev in I; eapply own_fields; eauto].
    destruct (omap (lower_str strict) (o_oversign o)) as [ov| | |] eqn:E3; cbn [obind]; try discriminate. apply omap_seven in E3 as [-> S3].
    rewrite all_seven. intros A. rewrite !omap_lower_false. cbn [obind]. rewrite E2. cbn [obind]. split; [exact A|]. intros S0.
    apply Forall_app. split; [auto|]. apply Forall_app. split; [auto|]. apply Forall_map. specialize (S2 S0). apply Forall_rev in S2. rewrite rev_involutive in S2. exact S2.
  - intros [A S0]. rewrite !omap_lower_false in A. cbn [obind] in A.
    assert (K : forall l x, incl l (o_headers o ++ o_oversign o ++ map h_name fs) -> x = map lower l -> omap (lower_str strict) l = Ok x).
    { intros l x I ->. apply omap_seven. split; [reflexivity|]. intros S1. specialize (S0 S1). rewrite Forall_forall in *. auto. }
    rewrite (K (o_headers o) _ ltac:(intros z Z; apply in_or_app; auto) eq_refl). cbn [obind].
    destruct (sign_headers false (o_chead o) (map lower (o_headers o)) (rev fs)) as [[d names]| | |] eqn:E2; cbn [obind] in A; try discriminate A.
    rewrite (proj2 (fields_seven strict (o_chead o) (map lower (o_headers o)) (rev fs) (d, names) ltac:(intros h I; apply in_rev in I; eapply own_fields; eauto))).
    2: { split; [exact E2|]. intros S1. specialize (S0 S1). apply Forall_app in S0 as [_ S0]. apply Forall_app in S0 as [_ S0]. apply Forall_rev. exact (proj1 (Forall_map _ _ _) S0). }
    cbn [obind]. rewrite (K (o_oversign o) _ ltac:(intros z Z; apply in_or_app; right; apply in_or_app; auto) eq_refl). cbn [obind]. rewrite all_seven. exact A.
Qed.
Lemma create_exactly C strict clock o t fs b out H : has_fields t fs -> message_body t b -> canonical_body (is_relaxed (o_cbody o)) b out ->
  snd (CreateSignature C strict clock o (new_signatory (open_str t))) = Ok H <->
  all_made C o clock fs out H /\ (strict = true -> Forall (Forall (fun c => (code c < 128)%N)) (o_headers o ++ o_oversign o ++ map h_name fs)).
Proof. intros HF MB CB. rewrite (create_seven C strict clock o t fs H HF), (create_made C clock o t fs b out H HF MB CB). reflexivity. Qed.
