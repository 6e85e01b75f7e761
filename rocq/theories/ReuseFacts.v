(** Signature::Parse on objects that were used before (for C95). *)
From Verif Require Import Bytes Outcome Stream Tokenizer QuotedPrintable Base64 TagList MailParser Canonicalization Util CStdlib Crypto Signature
  BytesFacts SpecText SpecTags SpecMail SpecCanon SpecSig SpecParse SpecReuse SpecVerify QPFacts ListFacts TagListFacts HeaderFacts SigFacts SigProps SigExact ReuseTags.
Local Open Scope string_scope. Local Open Scope list_scope.

(** ** What holds of every used object *)
Record sound (g : signature) : Prop := {
  so_good : good_ents (sg_tags g);
  so_once : NoDup (keys (sg_tags g));
  so_c : V (sg_tags g) "c" = None -> sg_chead g = SIMPLE /\ sg_cbody g = SIMPLE;
  so_l : V (sg_tags g) "l" = None -> sg_size g = 0%N /\ sg_limit g = false;
  so_i : sg_arc g = false -> sg_instance g = 0%N;
  so_new : sg_tags g = [] -> g = set_arc (sg_arc g) new_signature }.
Definition keeps (step : sig_st -> sig_st * outcome unit) : Prop :=
  forall st, sound (fst st) -> sound (fst (fst (step st))).
Lemma tag_held n st e : tag n st = Some e -> sg_tags (fst st) <> [].
Proof. unfold tag. intros T E. rewrite E in T. discriminate T. Qed.
Lemma V_tag n st : V (sg_tags (fst st)) n = option_map te_value (tag n st). Proof. reflexivity. Qed.

Lemma sound_algs d a g : sound g -> sg_tags g <> [] -> sound (set_algs d a g).
Proof. intros [A B D E F G] N. split; auto. intros X. destruct (N X). Qed.
Lemma sound_b x g : sound g -> sg_tags g <> [] -> sound (set_b x g).
Proof. intros [A B D E F G] N. split; auto. intros X. destruct (N X). Qed.
Lemma sound_bh x g : sound g -> sg_tags g <> [] -> sound (set_bh x g).
Proof. intros [A B D E F G] N. split; auto. intros X. destruct (N X). Qed.
Lemma sound_domain x g : sound g -> sg_tags g <> [] -> sound (set_domain x g).
Proof. intros [A B D E F G] N. split; auto. intros X. destruct (N X). Qed.
Lemma sound_headers x g : sound g -> sg_tags g <> [] -> sound (set_headers x g).
Proof. intros [A B D E F G] N. split; auto. intros X. destruct (N X). Qed.
Lemma sound_selector x g : sound g -> sg_tags g <> [] -> sound (set_selector x g).
Proof. intros [A B D E F G] N. split; auto. intros X. destruct (N X). Qed.
Lemma sound_mail x y g : sound g -> sg_tags g <> [] -> sound (set_mail x y g).
Proof. intros [A B D E F G] N. split; auto. intros X. destruct (N X). Qed.
Lemma sound_same g : sound g -> sound (set_mail [] (sg_domain g) g) \/ sg_tags g <> [].
Proof.
  intros [A B D E F G]. assert (X : sg_tags g = [] \/ sg_tags g <> []) by (destruct (sg_tags g); [left|right]; congruence).
  destruct X as [T|T]; [left|right; exact T]. split; auto. intros _. rewrite (G T). reflexivity.
Qed.
Lemma sound_chead x g : sound g -> V (sg_tags g) "c" <> None -> sound (set_chead x g).
Proof. intros [A B D E F G] N. split; auto. { intros X. destruct (N X). } intros X. exfalso. apply N. change (sg_tags (set_chead x g)) with (sg_tags g) in X. rewrite X. reflexivity. Qed.
Lemma sound_cbody x g : sound g -> V (sg_tags g) "c" <> None -> sound (set_cbody x g).
Proof. intros [A B D E F G] N. split; auto. { intros X. destruct (N X). } intros X. exfalso. apply N. change (sg_tags (set_cbody x g)) with (sg_tags g) in X. rewrite X. reflexivity. Qed.
Lemma sound_size x y g : sound g -> V (sg_tags g) "l" <> None -> sound (set_size x y g).
Proof. intros [A B D E F G] N. split; auto. { intros X. destruct (N X). } intros X. exfalso. apply N. change (sg_tags (set_size x y g)) with (sg_tags g) in X. rewrite X. reflexivity. Qed.
Lemma sound_instance x g : sound g -> sg_arc g = true -> sg_tags g <> [] -> sound (set_instance x g).
Proof. intros [A B D E F G] N T. split; auto. { cbn. congruence. } intros X. destruct (T X). Qed.
Lemma sound_arc g : sound g -> sound (set_arc true g).
Proof. intros [A B D E F G]. split; auto. { discriminate. } intros X. rewrite (G X). reflexivity. Qed.

Lemma keeps_arc strict name : keeps (parse_arc strict name).
Proof.
  intros st K. unfold parse_arc. destruct (lower_str strict name); cbn [slift fst]; auto.
  destruct (beqb a (str "arc-message-signature")); cbn [done upd fst]; auto using sound_arc.
Qed.
Lemma keeps_d strict : keeps (parse_d strict).
Proof.
  intros st K. unfold parse_d. destruct (tag "d" st) as [d|] eqn:T; [|exact K]. apply tag_held in T.
  destruct (lower_str strict (te_value d)); cbn [slift fst done upd]; auto using sound_domain.
Qed.
Lemma keeps_v : keeps parse_v.
Proof.
  intros st K. unfold parse_v. destruct (sg_arc (fst st)); [exact K|]. destruct (tag "v" st) as [d|]; [|exact K].
  destruct (beqb (te_value d) (str "1")); exact K.
Qed.
Lemma keeps_a : keeps parse_a.
Proof.
  intros st K. unfold parse_a. destruct (tag "a" st) as [d|] eqn:T; [|exact K]. apply tag_held in T.
  repeat match goal with |- context [if ?x then _ else _] => destruct x end; cbn [done fail_perm upd fst]; auto using sound_algs.
Qed.
Lemma keeps_b C strict : keeps (parse_b C strict).
Proof.
  intros st K. unfold parse_b. destruct (tag "b" st) as [d|] eqn:T; [|exact K]. apply tag_held in T. destruct (te_value d) as [|c w]; [exact K|].
  destruct (strip_space strict (c :: w)); cbn [slift fst done upd]; auto using sound_b.
Qed.
Lemma keeps_bh C strict : keeps (parse_bh C strict).
Proof.
  intros st K. unfold parse_bh. destruct (tag "bh" st) as [d|] eqn:T; [|exact K]. apply tag_held in T.
  destruct (strip_space strict (te_value d)); cbn [slift fst done upd]; auto using sound_bh.
Qed.
Lemma keeps_c : keeps parse_c.
Proof.
  intros st K. unfold parse_c. destruct (tag "c" st) as [d|] eqn:T; [|exact K].
  assert (N : V (sg_tags (fst st)) "c" <> None) by (rewrite V_tag, T; discriminate).
  match goal with |- context [let '(_, _) := ?x in _] => destruct x as [u w] end.
  destruct (mode_of u); [|exact K]. destruct (mode_of w); cbn [done fail_perm upd fst].
  - apply sound_cbody; [apply sound_chead; auto|exact N].
  - apply sound_chead; auto.
Qed.
Lemma keeps_h : keeps parse_h.
Proof.
  intros st K. unfold parse_h. destruct (tag "h" st) as [d|] eqn:T; [|exact K]. apply tag_held in T.
  destruct (ValueList (te_value d)) as [l| | |]; cbn [slift fst]; auto. destruct (existsb is_from l); cbn [done fail_perm upd fst]; auto using sound_headers.
Qed.
Lemma keeps_i strict : keeps (parse_i strict).
Proof.
  intros st K. unfold parse_i. destruct (sg_arc (fst st)) eqn:A.
  - destruct (tag "i" st) as [d|] eqn:T; [|exact K]. apply tag_held in T. destruct (strtoul (te_value d)) as [[n r] e].
    destruct ((n <? 1) || (50 <? n))%N; cbn [done fail_perm fst]; auto using sound_instance.
  - destruct (tag "i" st) as [d|] eqn:T.
    + apply tag_held in T. destruct (qp_decode (te_value d) false) as [m| | |]; cbn [slift fst]; auto.
      destruct (find_char AT m); [|exact K]. cbv zeta. destruct (lower_str strict (skipn (S n) m)); cbn [slift fst upd]; auto using sound_mail.
      match goal with |- context [if ?x then _ else _] => destruct x end; cbn [done fail_perm upd fst]; auto using sound_mail.
    + cbn [done upd fst]. destruct (sound_same _ K); auto using sound_mail.
Qed.
Lemma keeps_l : keeps parse_l.
Proof.
  intros st K. unfold parse_l. destruct (tag "l" st) as [d|] eqn:T; [|exact K].
  assert (N : V (sg_tags (fst st)) "l" <> None) by (rewrite V_tag, T; discriminate).
  destruct (Nat.ltb 76 (length (te_value d))); [exact K|]. destruct (strtoul (te_value d)) as [[n r] e]. cbv zeta. cbn [fst snd].
  destruct (snd st || e); [exact K|]. destruct (9223372036854775808 <=? n)%N; [exact K|]. destruct r; cbn [done fail_perm upd fst]; auto using sound_size.
Qed.
Lemma keeps_q : keeps parse_q.
Proof. intros st K. unfold parse_q. destruct (tag "q" st) as [d|]; [|exact K]. destruct (beqb (te_value d) (str "dns/txt")); exact K. Qed.
Lemma keeps_s : keeps parse_s.
Proof.
  intros st K. unfold parse_s. destruct (tag "s" st) as [d|] eqn:T; [|exact K]. apply tag_held in T. cbn [done upd fst]. auto using sound_selector.
Qed.
Lemma keeps_x now : keeps (parse_x now).
Proof.
  intros st K. unfold parse_x. destruct (tag "x" st) as [d|]; [|exact K]. destruct (strtol (te_value d)) as [v e]. cbv zeta. destruct (v <? now)%Z; exact K.
Qed.
Lemma sbind_keeps (r : sig_st * outcome unit) k : sound (fst (fst r)) -> keeps k -> sound (fst (fst (sbind r k))).
Proof. intros H K. destruct r as [st [u| | |]]; cbn [sbind]; auto. Qed.
Lemma keeps_then k1 k2 : keeps k1 -> keeps k2 -> keeps (fun st => sbind (k1 st) k2).
Proof. intros H K st S0. apply sbind_keeps; auto. Qed.
Lemma keeps_rest C strict now name : keeps (parse_rest C strict now name).
Proof.
  unfold parse_rest.
  apply (keeps_then (parse_arc strict name)); [apply keeps_arc|].
  apply (keeps_then (parse_d strict)); [apply keeps_d|].
  apply (keeps_then parse_v); [apply keeps_v|].
  apply (keeps_then parse_a); [apply keeps_a|].
  apply (keeps_then (parse_b C strict)); [apply keeps_b|].
  apply (keeps_then (parse_bh C strict)); [apply keeps_bh|].
  apply (keeps_then parse_c); [apply keeps_c|].
  apply (keeps_then parse_h); [apply keeps_h|].
  apply (keeps_then (parse_i strict)); [apply keeps_i|].
  apply (keeps_then parse_l); [apply keeps_l|].
  apply (keeps_then parse_q); [apply keeps_q|].
  apply (keeps_then parse_s); [apply keeps_s|].
  apply keeps_x.
Qed.

Lemma used_rest C now name name' g e0 st : sound g -> good_tags (sg_tags g) ->
  same_name name' arc_name = sg_arc g || same_name name arc_name ->
  parse_rest C false now name (g, e0) = (st, Ok tt) <->
  exists st', sig_ok C false now name' (sg_tags g) e0 st' /\ st = (old_identity g (fst st'), snd st').
Proof.
  intros [_ _ SC SL SI _] G A. destruct g as [tags dg0 al0 b0 bh0 ch0 cb0 d0 hs0 lo0 md0 sz0 li0 se0 arc0 in0].
  cbn [sg_tags sg_arc sg_chead sg_cbody sg_size sg_limit sg_instance] in *. set (g := mkSig tags dg0 al0 b0 bh0 ch0 cb0 d0 hs0 lo0 md0 sz0 li0 se0 arc0 in0).
  set (arc := arc0 || same_name name arc_name) in *.
  unfold parse_rest. split.
  - intros P.
    apply sbind_Ok in P as (s2 & P2 & P). apply parse_arc_Ok in P2 as [N8 E2]. rewrite <- same_arc in E2.
    assert (E2' : s2 = upd (set_arc arc) (g, e0)).
    { rewrite E2. unfold arc. destruct (same_name name arc_name); [destruct arc0|rewrite orb_false_r]; reflexivity. }
    clear E2. subst s2.
    apply sbind_Ok in P as (s3 & P3 & P). rewrite parse_d_Ok in P3 by exact G. destruct P3 as (d & Ed & ->).
    apply sbind_Ok in P as (s4 & P4 & P). apply (proj1 (parse_v_Ok _ _)) in P4 as (-> & Ev).
    apply sbind_Ok in P as (s5 & P5 & P). apply (proj1 (parse_a_Ok _ _)) in P5 as (a & dg & al & Ea & Av & ->).
    apply sbind_Ok in P as (s6 & P6 & P). rewrite parse_b_Ok in P6 by exact G. destruct P6 as (b & Eb & Nb & ->).
    apply sbind_Ok in P as (s7 & P7 & P). rewrite parse_bh_Ok in P7 by exact G. destruct P7 as (bh & Ebh & ->).
    apply sbind_Ok in P as (s8 & P8 & P). apply (proj1 (parse_c_Ok _ _)) in P8.
    assert (P8' : exists ch cb, match V tags "c" with None => ch = SIMPLE /\ cb = SIMPLE | Some c => c_value c ch cb end /\
      s8 = (mkSig tags dg al (b64d C (unspaced b)) (b64d C (unspaced bh)) ch cb (lower d) hs0 lo0 md0 sz0 li0 se0 arc in0, e0)).
    { change (stV _ "c") with (V tags "c") in P8. destruct (V tags "c").
      - destruct P8 as (ch & cb & K & ->). exists ch, cb. split; auto.
      - subst s8. exists ch0, cb0. split; auto. }
    destruct P8' as (ch & cb & Kc & ->). clear P8.
    apply sbind_Ok in P as (s9 & P9 & P). rewrite parse_h_Ok in P9 by exact G. destruct P9 as (hv & hs & Eh & Vh & Fh & ->).
    apply sbind_Ok in P as (s10 & P10 & P). apply (proj1 (parse_i_Ok _ _ _)) in P10.
    change (stV _ "i") with (V tags "i") in P10. cbn [upd set_headers fst snd sg_arc sg_domain] in P10.
    assert (P10' : exists loc mdom inst ei, (if arc then
       loc = [] /\ mdom = [] /\ in_range_N 1 50 inst /\
       exists i rest, V tags "i" = Some i /\ strtoul i = (inst, rest, ei)
     else inst = 0%N /\ ei = false /\
       match V tags "i" with
       | None => loc = [] /\ mdom = lower d
       | Some i => exists raw, qp_decode i false = Ok (loc ++ AT :: raw) /\ ~ In AT loc /\
                     false && existsb is_8bit raw = false /\ mdom = lower raw /\ in_domain mdom (lower d)
       end) /\ s10 = (mkSig tags dg al (b64d C (unspaced b)) (b64d C (unspaced bh)) ch cb (lower d) hs (if arc then lo0 else loc) (if arc then md0 else mdom) sz0 li0 se0 arc inst, e0 || ei)).
    { assert (SI' : arc = false -> in0 = 0%N) by (unfold arc; destruct arc0; [discriminate|auto]). destruct arc.
      - destruct P10 as (i & n & rest & er & Ei & U & R & ->). exists [], [], n, er. split; [|reflexivity].
        split; auto. split; auto. split; auto. eauto.
      - destruct (V tags "i") as [i|].
        + destruct P10 as (loc & raw & Q & NI & ST & D & ->). exists loc, (lower raw), 0%N, false. rewrite orb_false_r. rewrite <- (SI' eq_refl).
          split; [|reflexivity]. split; auto. split; auto. exists raw. auto.
        + subst s10. exists [], (lower d), 0%N, false. rewrite orb_false_r. rewrite <- (SI' eq_refl). split; auto. }
    destruct P10' as (loc & mdom & inst & ei & Ki & ->). clear P10.
    apply sbind_Ok in P as (s11 & P11 & P). apply (proj1 (parse_l_Ok _ _)) in P11.
    change (stV _ "l") with (V tags "l") in P11. cbn [fst snd] in P11.
    assert (P11' : exists size lim, match V tags "l" with
    | None => size = 0%N /\ lim = false
    | Some l => length l <= 76 /\ (e0 || ei = false) /\ strtoul l = (size, [], false) /\
                (size < 9223372036854775808)%N /\ lim = true
    end /\ s11 = (mkSig tags dg al (b64d C (unspaced b)) (b64d C (unspaced bh)) ch cb (lower d) hs (if arc then lo0 else loc) (if arc then md0 else mdom) size lim se0 arc inst, e0 || ei)).
    { destruct (V tags "l").
      - destruct P11 as (L & E & n & U & B & ->). exists n, true. split; [|reflexivity]. auto.
      - subst s11. exists sz0, li0. split; auto. }
    destruct P11' as (size & lim & Kl & ->). clear P11.
    apply sbind_Ok in P as (s12 & P12 & P). apply (proj1 (parse_q_Ok _ _)) in P12 as (-> & Kq).
    apply sbind_Ok in P as (s13 & P13 & P). apply (proj1 (parse_s_Ok _ _)) in P13 as (sel & Es & ->).
    apply (proj1 (parse_x_Ok _ _ _)) in P. change (stV _ "x") with (V tags "x") in P. cbn [upd set_selector fst snd] in P.
    assert (P' : exists ex, match V tags "x" with None => ex = false | Some x => exists v, strtol x = (v, ex) /\ (now <= v)%Z end /\
      st = (mkSig tags dg al (b64d C (unspaced b)) (b64d C (unspaced bh)) ch cb (lower d) hs (if arc then lo0 else loc) (if arc then md0 else mdom) size lim sel arc inst, e0 || ei || ex)).
    { destruct (V tags "x").
      - destruct P as (v & ex & U & L & ->). exists ex. split; eauto.
      - subst st. exists false. rewrite orb_false_r. split; auto. }
    destruct P' as (ex & Kx & ->).
    exists (mkSig tags dg al (b64d C (unspaced b)) (b64d C (unspaced bh)) ch cb (lower d) hs loc mdom size lim sel (same_name name' arc_name) inst, e0 || ei || ex). split.
    + eapply sig_ok_intro; eauto; rewrite A; auto.
    + unfold old_identity. cbn [fst snd sg_arc]. rewrite A. destruct arc; reflexivity.
  - intros (st' & K & ->). destruct K as [d a dg al b bh ch cb hv hs loc mdom inst ei size lim sel ex N8 Ed Ev Ea Av Eb Nb Ebh Kc Eh Vh Fh Ki Kl Kq Es Kx].
    rewrite A in *. unfold old_identity. cbn [fst snd sg_arc].
    replace (if arc then _ else _) with (mkSig tags dg al (b64d C (unspaced b)) (b64d C (unspaced bh)) ch cb (lower d) hs (if arc then lo0 else loc) (if arc then md0 else mdom) size lim sel arc inst) by (destruct arc; reflexivity).
    apply sbind_Ok. exists (upd (set_arc arc) (g, e0)). split.
    { apply parse_arc_Ok. split; auto. rewrite <- same_arc. unfold arc. destruct (same_name name arc_name); [destruct arc0|rewrite orb_false_r]; reflexivity. }
    apply sbind_Ok. eexists. split. { apply parse_d_Ok; [exact G|]. exists d. split; [exact Ed|reflexivity]. }
    apply sbind_Ok. eexists. split. { apply parse_v_Ok. split; [reflexivity|]. exact Ev. }
    apply sbind_Ok. eexists. split. { apply parse_a_Ok. exists a, dg, al. split; [exact Ea|]. split; [exact Av|reflexivity]. }
    apply sbind_Ok. eexists. split. { apply parse_b_Ok; [exact G|]. exists b. split; [exact Eb|]. split; [exact Nb|reflexivity]. }
    apply sbind_Ok. eexists. split. { apply parse_bh_Ok; [exact G|]. exists bh. split; [exact Ebh|reflexivity]. }
    apply sbind_Ok. exists (mkSig tags dg al (b64d C (unspaced b)) (b64d C (unspaced bh)) ch cb (lower d) hs0 lo0 md0 sz0 li0 se0 arc in0, e0). split.
    { apply parse_c_Ok. change (stV _ "c") with (V tags "c"). destruct (V tags "c").
      - exists ch, cb. split; auto.
      - destruct Kc as [-> ->]. destruct (SC eq_refl) as [-> ->]. reflexivity. }
    apply sbind_Ok. eexists. split. { apply parse_h_Ok; [exact G|]. exists hv, hs. split; [exact Eh|]. split; [exact Vh|]. split; [exact Fh|reflexivity]. }
    apply sbind_Ok. exists (mkSig tags dg al (b64d C (unspaced b)) (b64d C (unspaced bh)) ch cb (lower d) hs (if arc then lo0 else loc) (if arc then md0 else mdom) sz0 li0 se0 arc inst, e0 || ei). split.
    { apply parse_i_Ok. change (stV _ "i") with (V tags "i"). cbn [upd set_headers fst snd sg_arc sg_domain].
      assert (SI' : arc = false -> in0 = 0%N) by (unfold arc; destruct arc0; [discriminate|auto]). destruct arc.
      - destruct Ki as (-> & -> & R & i & rest & Ei & U). exists i, inst, rest, ei. auto.
      - rewrite (SI' eq_refl). destruct Ki as (-> & -> & Ki). rewrite orb_false_r. destruct (V tags "i").
        + destruct Ki as (raw & Q & NI & ST & -> & D). exists loc, raw. auto.
        + destruct Ki as [-> ->]. reflexivity. }
    apply sbind_Ok. exists (mkSig tags dg al (b64d C (unspaced b)) (b64d C (unspaced bh)) ch cb (lower d) hs (if arc then lo0 else loc) (if arc then md0 else mdom) size lim se0 arc inst, e0 || ei). split.
    { apply parse_l_Ok. change (stV _ "l") with (V tags "l"). destruct (V tags "l").
      - destruct Kl as (L & E & U & B & ->). split; auto. split; auto. exists size. auto.
      - destruct Kl as [-> ->]. destruct (SL eq_refl) as [-> ->]. reflexivity. }
    apply sbind_Ok. eexists. split. { apply parse_q_Ok. split; [reflexivity|exact Kq]. }
    apply sbind_Ok. eexists. split. { apply parse_s_Ok. exists sel. split; [exact Es|reflexivity]. }
    apply parse_x_Ok. change (stV _ "x") with (V tags "x"). destruct (V tags "x").
    + destruct Kx as (v & U & L). exists v, ex. auto.
    + subst ex. rewrite orb_false_r. reflexivity.
Qed.

(** ** Tags that are added *)
Lemma GetTag_app n a b : GetTag n (a ++ b) = match GetTag n a with Some e => Some e | None => GetTag n b end.
Proof. induction a as [|[m e] a IH]; cbn [GetTag app]; [reflexivity|]. destruct (beqb m n); auto. Qed.
Lemma V_app_None a b n : V (a ++ b) n = None -> V a n = None.
Proof. unfold V. rewrite GetTag_app. destruct (GetTag (str n) a); [discriminate|reflexivity]. Qed.
Lemma V_app_Some a b n v : V a n = Some v -> V (a ++ b) n = Some v.
Proof. unfold V. rewrite GetTag_app. destruct (GetTag (str n) a); [auto|discriminate]. Qed.
Lemma good_app a b : good_ents a -> good_ents b -> good_ents (a ++ b).
Proof. unfold good_ents. rewrite Forall_app. auto. Qed.
Lemma once_app a b : NoDup (keys a) -> fresh_names a (nv b) -> NoDup (keys (a ++ b)).
Proof.
  intros N [D F]. rewrite keys_nv in D, F. unfold keys. rewrite map_app. fold (keys a) (keys b).
  induction (keys a) as [|x k IH]; cbn [app]; [exact D|]. inversion N as [|? ? NI N']; subst. constructor.
  - rewrite in_app_iff. intros [I|I]; [exact (NI I)|]. apply (F x I). left. reflexivity.
  - apply IH; auto. intros n I J. apply (F n I). right. exact J.
Qed.
Lemma good_V t : good_ents t -> good_tags t.
Proof.
  intros G n v E. unfold V in E. destruct (GetTag (str n) t) as [e|] eqn:T; [|discriminate]. injection E as <-.
  induction t as [|[m e'] t IH]; cbn [GetTag] in T; [discriminate|]. inversion G as [|? ? G1 G2]; subst.
  destruct (beqb m (str n)); [injection T as <-; exact G1|auto].
Qed.
Lemma held_has t n v : NoDup (keys t) -> V t n = Some v <-> has (held t) n v.
Proof.
  intros N. unfold V, has, held. rewrite in_map_iff. split.
  - destruct (GetTag (str n) t) as [e|] eqn:T; [|discriminate]. intros [= <-]. exists (str n, e). split; [reflexivity|]. apply GetTag_In; auto.
  - intros ([m e] & E & I). injection E as -> <-. cbn [snd]. apply (GetTag_In _ _ _ N) in I. rewrite I. reflexivity.
Qed.
Lemma held_lacks t n : V t n = None <-> lacks (held t) n.
Proof.
  unfold V, lacks, held. rewrite map_map. cbn [fst]. change (map (fun x : bytes * tag_entry => fst x) t) with (keys t). rewrite <- GetTag_None.
  destruct (GetTag (str n) t); cbn; split; auto; discriminate.
Qed.
Lemma held_app a b : held (a ++ b) = held a ++ held b. Proof. apply map_app. Qed.
Lemma held_names t : map fst (held t) = keys t. Proof. exact (keys_nv t). Qed.

Lemma keeps_tags h : keeps (parse_tags h).
Proof.
  intros st [A B D E F G]. unfold parse_tags. destruct (substr_from (h_text h) (h_voff h)) as [v| | |]; cbn [slift fst]; [|split; auto..].
  destruct (TagList_left (sg_tags (fst st)) v) as (ents & o & P & FN & GE & _). rewrite P. cbn [upd fst]. split; cbn [sg_tags set_tags sg_chead sg_cbody sg_size sg_limit sg_instance sg_arc].
  - apply good_app; auto.
  - apply once_app; auto.
  - intros X. apply D. eapply V_app_None; eauto.
  - intros X. apply E. eapply V_app_None; eauto.
  - exact F.
  - intros X. apply app_eq_nil in X as [X ->]. rewrite X. rewrite (G X) at 1. reflexivity.
Qed.
Lemma parse_split C strict now h st : Signature_Parse C strict now h st = sbind (parse_tags h st) (parse_rest C strict now (h_name h)).
Proof. reflexivity. Qed.
Lemma sound_new : sound new_signature.
Proof. split; cbn; auto; constructor. Qed.
Lemma used_sound C g : used C g -> sound g.
Proof.
  induction 1 as [|g strict now h e U IH]; [apply sound_new|].
  rewrite parse_split. apply (keeps_then (parse_tags h) (parse_rest C strict now (h_name h))); [apply keeps_tags|apply keeps_rest|exact IH].
Qed.
Lemma used_blank C g : used C g -> sg_tags g = [] -> g = set_arc (sg_arc g) new_signature.
Proof. intros U. apply so_new. exact (used_sound C g U). Qed.

(** ** The tags stay *)
Definition same_tags (step : sig_st -> sig_st * outcome unit) : Prop := forall st, sg_tags (fst (fst (step st))) = sg_tags (fst st).
Lemma then_tags k1 k2 : same_tags k1 -> same_tags k2 -> same_tags (fun st => sbind (k1 st) k2).
Proof. intros H K st. specialize (H st). destruct (k1 st) as [s1 [u| | |]]; cbn [sbind fst] in *; auto. rewrite K. exact H. Qed.
Lemma slift_tags {A} (m : outcome A) (k : A -> sig_st * outcome unit) (st s0 : sig_st) : (forall x, sg_tags (fst (fst (k x))) = sg_tags (fst st)) -> sg_tags (fst s0) = sg_tags (fst st) ->
  sg_tags (fst (fst (slift s0 m k))) = sg_tags (fst st).
Proof. intros K E. destruct m; cbn [slift fst]; auto. Qed.
Ltac stays := intros st; repeat first [reflexivity | apply slift_tags; [intros|] | progress cbv zeta |
  match goal with |- context [match ?x with _ => _ end] => destruct x end].
Lemma rest_tags C strict now name : same_tags (parse_rest C strict now name).
Proof.
  unfold parse_rest.
  apply (then_tags (parse_arc strict name)); [unfold parse_arc; stays|].
  apply (then_tags (parse_d strict)); [unfold parse_d; stays|].
  apply (then_tags parse_v); [unfold parse_v; stays|].
  apply (then_tags parse_a); [unfold parse_a; stays|].
  apply (then_tags (parse_b C strict)); [unfold parse_b; stays|].
  apply (then_tags (parse_bh C strict)); [unfold parse_bh; stays|].
  apply (then_tags parse_c); [unfold parse_c; stays|].
  apply (then_tags parse_h); [unfold parse_h; stays|].
  apply (then_tags (parse_i strict)); [unfold parse_i; stays|].
  apply (then_tags parse_l); [unfold parse_l; stays|].
  apply (then_tags parse_q); [unfold parse_q; stays|].
  apply (then_tags parse_s); [unfold parse_s; stays|].
  unfold parse_x; stays.
Qed.

(** ** What is left behind is determined *)
Lemma left_once names l1 t : left_behind names l1 t -> forall names2 l2, (forall n, In n names <-> In n names2) -> left_behind names2 l2 t -> l1 = l2.
Proof.
  induction 1 as [names t S1|names w1 n w2 w3 v w4 l t W1 N W2 W3 Vv W4 NI L IH]; intros names2 l2 EQ K.
  - destruct K as [names2 t S2|names2 w1 n w2 w3 v w4 l t W1 N W2 W3 Vv W4 NI L]; [reflexivity|]. exfalso. apply NI. apply EQ.
    exact (S1 w1 n w2 w3 v w4 t W1 N W2 W3 Vv W4 eq_refl).
  - remember (w1 ++ n ++ w2 ++ EQUALS :: w3 ++ v ++ w4 ++ SEMI :: t) as t0 eqn:Et.
    destruct K as [names2 t' S2|names2 a1 m a2 a3 u a4 l' t' A1 M A2 A3 Uu A4 MI L'].
    + exfalso. apply NI. apply EQ. exact (S2 w1 n w2 w3 v w4 t W1 N W2 W3 Vv W4 Et).
    + destruct (tag_spans w1 n w2 w3 v w4 t) as (X1 & X2 & X3 & x & y & X4 & b & X5 & X6); [repeat (split; auto)|].
      destruct (tag_spans a1 m a2 a3 u a4 t') as (Y1 & Y2 & Y3 & x' & y' & Y4 & b' & Y5 & Y6); [repeat (split; auto)|].
      fold (tag_text w1 n w2 w3 v w4 t) in Et. fold (tag_text a1 m a2 a3 u a4 t') in Et. rewrite Et in Y1. rewrite X1 in Y1. injection Y1 as _ EY. clear Et.
      rewrite <- EY in Y2. rewrite X2 in Y2. injection Y2 as <- EY2. rewrite <- EY2 in Y3. rewrite X3 in Y3. injection Y3 as _ EY3.
      rewrite <- EY3 in Y4. rewrite X4 in Y4. injection Y4 as <- <-. rewrite X5 in Y5. injection Y5 as <- <-. rewrite X6 in Y6. subst u.
      f_equal. apply (IH (n :: names2)); auto. intros k. cbn [In]. rewrite EQ. tauto.
Qed.

(** ** Signature::Parse *)
Lemma new_fresh t l : NoDup (map fst l) -> new_names (held t) l -> fresh_names t l.
Proof. intros N F. split; [exact N|]. intros n I. rewrite <- held_names. apply F. exact I. Qed.
Lemma fresh_new t l : fresh_names t l -> new_names (held t) l.
Proof. intros [_ F] n I. rewrite held_names. apply F. exact I. Qed.
Lemma tags_taken t l text : rendered_tags l text -> NoDup (map fst l) -> new_names (held t) l ->
  exists ents, TagList_Parse t text = (t ++ ents, Ok tt) /\ held ents = l /\ good_ents ents /\ fresh_names t (nv ents).
Proof.
  intros R N F. destruct (TagList_Parse_cases t text) as [(ents & P & R2 & FN & _)|[_ K]]; [|destruct (K l R); apply new_fresh; auto].
  exists ents. assert (nv ents = l) by (eapply rendered_unique; eauto). split; [exact P|]. split; [assumption|]. split; [|exact FN].
  apply good_nv, (rendered_good _ _ R2).
Qed.
Lemma tags_refused t text : (forall l, rendered_tags l text -> NoDup (map fst l) -> ~ new_names (held t) l) ->
  exists ents l, TagList_Parse t text = (t ++ ents, perm) /\ held ents = l /\ (forall l', left_behind (map fst (held t)) l' text <-> l' = l).
Proof.
  intros K. destruct (TagList_left t text) as (ents & o & P & FN & GE & [[-> R]|[-> L]]).
  - exfalso. apply (K _ R (proj1 FN)). apply fresh_new. exact FN.
  - exists ents, (held ents). split; [exact P|]. split; [reflexivity|]. intros l'. rewrite held_names. split; [|intros ->; exact L].
    intros L'. eapply left_once; [exact L'| |exact L]. tauto.
Qed.

Lemma used_kept C g strict now h l e : used C g -> field_tags h l -> new_names (held (sg_tags g)) l ->
  held (sg_tags (fst (fst (Signature_Parse C strict now h (g, e))))) = held (sg_tags g) ++ l.
Proof.
  intros U (LE & R & N) F. rewrite parse_split. unfold parse_tags, substr_from. apply Nat.leb_le in LE. rewrite LE. cbn [slift fst].
  destruct (tags_taken (sg_tags g) l _ R N F) as (ents & -> & HE & _). cbn [sbind]. rewrite rest_tags. cbn [upd fst set_tags sg_tags]. rewrite held_app, HE. reflexivity.
Qed.
Lemma used_left C g strict now h e : used C g -> h_voff h <= length (h_text h) -> (forall l, field_tags h l -> ~ new_names (held (sg_tags g)) l) ->
  exists tags l, Signature_Parse C strict now h (g, e) = ((set_tags tags g, e), Throw (PermanentError AR_PERMERROR)) /\ held tags = held (sg_tags g) ++ l /\
    (forall l', left_behind (map fst (held (sg_tags g))) l' (skipn (h_voff h) (h_text h)) <-> l' = l).
Proof.
  intros U LE K. destruct (tags_refused (sg_tags g) (skipn (h_voff h) (h_text h))) as (ents & l & P & HE & LB).
  { intros l R N. apply K. split; auto. }
  exists (sg_tags g ++ ents), l. rewrite parse_split. unfold parse_tags, substr_from. apply Nat.leb_le in LE. rewrite LE. cbn [slift fst]. rewrite P. cbn [sbind].
  split; [reflexivity|]. split; [rewrite held_app, HE; reflexivity|exact LB].
Qed.

Lemma used_exact C g now h h' l e : used C g -> field_tags h l -> new_names (held (sg_tags g)) l ->
  same_name (h_name h') (str "arc-message-signature") = sg_arc g || same_name (h_name h) (str "arc-message-signature") -> forall g2 e1,
  (exists tags, Signature_Parse C false now h (g, e) = ((set_tags tags g2, e1), Ok tt)) <->
  exists g', taken C now h' (held (sg_tags g) ++ l) e g' e1 /\ g2 = old_identity g g'.
Proof.
  intros U (LE & R & N) F A g2 e1. pose proof (used_sound C g U) as SO.
  destruct (tags_taken (sg_tags g) l _ R N F) as (ents & P & HE & GE & FN). set (T := sg_tags g ++ ents) in *.
  assert (SO1 : sound (set_tags T g)).
  { pose proof (keeps_tags h (g, e) SO) as X. unfold parse_tags, substr_from in X. apply Nat.leb_le in LE. rewrite LE in X. cbn [slift fst] in X. rewrite P in X. exact X. }
  assert (GT : good_tags T) by (apply good_V; exact (so_good _ SO1)).
  assert (HV : forall n v, V T n = Some v <-> has (held (sg_tags g) ++ l) n v).
  { intros n v. rewrite (held_has T n v (so_once _ SO1)). unfold T. rewrite held_app, HE. reflexivity. }
  assert (LV : forall n, V T n = None <-> lacks (held (sg_tags g) ++ l) n).
  { intros n. rewrite (held_lacks T n). unfold T. rewrite held_app, HE. reflexivity. }
  pose proof (fun g' => ok_taken C now h' e (held (sg_tags g) ++ l) T HV LV GT g' e1) as OT.
  assert (PS : Signature_Parse C false now h (g, e) = parse_rest C false now (h_name h) (set_tags T g, e)).
  { rewrite parse_split. unfold parse_tags, substr_from. apply Nat.leb_le in LE. rewrite LE. cbn [slift fst]. rewrite P. reflexivity. }
  pose proof (fun st => used_rest C now (h_name h) (h_name h') (set_tags T g) e st SO1 GT A) as UR. cbn [sg_tags set_tags] in UR. rewrite PS. split.
  - intros (tags & Q). apply UR in Q as ([g3 e3] & K & E). cbn [fst snd] in E. injection E as E ->.
    pose proof (ok_tags _ _ _ _ _ _ _ _ K) as ET. cbn [sg_tags] in ET.
    exists (set_tags (sg_tags g2) g3). split.
    + apply OT. replace (set_tags T (set_tags (sg_tags g2) g3)) with g3 by (rewrite <- ET; destruct g3; reflexivity). exact K.
    + destruct g2, g3, g. unfold old_identity, set_tags, set_mail in *. cbn in *. destruct sg_arc0; injection E; intros; subst; reflexivity.
  - intros (g' & K & ->). apply OT in K. exists T. apply UR. exists (set_tags T g', e1). split; [exact K|]. cbn [fst snd].
    unfold old_identity. cbn [set_tags sg_arc]. destruct (sg_arc g'); reflexivity.
Qed.
Lemma arc_tags strict name : same_tags (parse_arc strict name). Proof. unfold parse_arc. stays. Qed.
Lemma parsed_d C strict now h st st' : Signature_Parse C strict now h st = (st', Ok tt) -> V (sg_tags (fst st')) "d" <> None.
Proof.
  intros P. rewrite parse_split in P. apply sbind_Ok in P as (s1 & _ & P). pose proof (rest_tags C strict now (h_name h) s1) as E. rewrite P in E. cbn [fst] in E. rewrite E.
  unfold parse_rest in P. apply sbind_Ok in P as (s2 & P2 & P). pose proof (arc_tags strict (h_name h) s1) as E2. rewrite P2 in E2. cbn [fst] in E2. rewrite <- E2.
  apply sbind_Ok in P as (s3 & P3 & _). unfold parse_d in P3. rewrite V_tag. destruct (tag "d" s2); [discriminate|discriminate P3].
Qed.
Lemma used_after C g strict1 now1 h1 e st1 strict2 now2 h2 e2 st2 e3 : used C g ->
  Signature_Parse C strict1 now1 h1 (g, e) = (st1, Ok tt) -> Signature_Parse C strict2 now2 h2 (new_signature, e2) = (st2, Ok tt) ->
  snd (Signature_Parse C strict2 now2 h2 (fst st1, e3)) = Throw (PermanentError AR_PERMERROR).
Proof.
  intros U P1 P2. assert (U1 : used C (fst st1)) by (replace st1 with (fst (Signature_Parse C strict1 now1 h1 (g, e))) by (rewrite P1; reflexivity); apply used_again; exact U).
  pose proof (parsed_d _ _ _ _ _ _ P1) as D1. pose proof (parsed_d _ _ _ _ _ _ P2) as D2.
  destruct (Parse_has_tags _ _ _ _ _ _ P2) as (l & FT). destruct (field_tags_parse h2 l FT) as (tags & PT & HV & LV & G).
  apply Signature_Parse_Ok in P2 as (LE & tags2 & PT2 & K). rewrite PT in PT2. injection PT2 as <-.
  assert (ET : sg_tags (fst st2) = tags) by (inversion K; reflexivity). rewrite ET in D2.
  destruct (used_left C (fst st1) strict2 now2 h2 e3 U1 LE) as (tg & l1 & -> & _); [|reflexivity].
  intros l' FT' NN. assert (l' = l). { destruct FT as (_ & R & _), FT' as (_ & R' & _). eapply rendered_unique; eauto. }
  subst l'. apply (NN (str "d")).
  - destruct (in_dec (list_eq_dec ascii_dec) (str "d") (map fst l)) as [I|I]; [exact I|]. exfalso. apply D2. apply LV. exact I.
  - rewrite held_names. destruct (in_dec (list_eq_dec ascii_dec) (str "d") (keys (sg_tags (fst st1)))) as [I|I]; [exact I|]. exfalso. apply D1.
    unfold V. apply GetTag_None in I. rewrite I. reflexivity.
Qed.
