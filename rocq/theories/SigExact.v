(** Success of Signature::Parse, exactly (for C29 to C33). *)
From Verif Require Import Bytes Outcome Stream Tokenizer QuotedPrintable Base64 TagList MailParser Canonicalization Util
  CStdlib Crypto Signature BytesFacts SpecText SpecTags SpecMail SpecCanon SpecVerify SpecSig SpecParse QPFacts ListFacts ListExact ListWide TagListFacts
  HeaderFacts SigFacts SigProps KeyExact Examples.
Local Open Scope string_scope. Local Open Scope list_scope.

Lemma signed_tail v neg m : signed_number v neg m -> exists c r, v = c :: r /\ Forall (between 48 57) r.
Proof.
  intros [d [N F]|d [N F]|d [N F]]; [destruct d as [|c d]; [congruence|]; inversion F; eauto|eauto|eauto].
Qed.
Lemma signed_whole v neg m t rest neg2 m2 : signed_number v neg m -> v = t ++ rest -> signed_number t neg2 m2 ->
  first_ok (fun c => ~ between 48 57 c) rest -> rest = [].
Proof.
  intros SV E ST F. destruct (signed_tail _ _ _ SV) as (c & r & -> & D). destruct (signed_tail _ _ _ ST) as (c2 & r2 & -> & _).
  cbn [app] in E. injection E as _ ->. apply Forall_app in D as [_ D]. destruct rest as [|x rest]; auto.
  inversion D; subst. cbn in F. contradiction.
Qed.
Lemma limit_exact v n : tag_value v -> strtoul v = (n, [], false) <-> limit_value v n.
Proof.
  intros T. destruct (strtoul v) as [[n0 rest] er] eqn:U. destruct (strtoul_spec v _ _ _ T U) as [(neg & m & t & E & SN & FR & X)|(E1 & E2 & E3 & NS)].
  - split.
    + intros [= -> -> ->]. rewrite app_nil_r in E. subst t. destruct X as [-> X]. apply (lv_number v neg m SN). unfold ULONG_MAX in X. lia.
    + intros L. destruct L as [|v neg2 m2 S2 B].
      * destruct (signed_tail _ _ _ SN) as (c & r & -> & _). discriminate.
      * pose proof (signed_whole _ _ _ _ _ _ _ S2 E SN FR) as ->. rewrite app_nil_r in E. subst t.
        assert (A1 : starts_number v neg m) by (exists v, []; rewrite app_nil_r; cbn; auto).
        assert (A2 : starts_number v neg2 m2) by (exists v, []; rewrite app_nil_r; cbn; auto).
        destruct (starts_fun _ _ _ _ _ A1 A2) as [<- <-]. destruct er.
        -- destruct X as [_ X]. unfold ULONG_MAX in X. lia.
        -- destruct X as [-> _]. reflexivity.
  - subst. split.
    + intros H. injection H. intros. subst. constructor.
    + intros L. destruct L as [|v neg2 m2 S2 B]; [reflexivity|]. exfalso. apply (NS neg2 m2). exists v, []. rewrite app_nil_r. cbn. auto.
Qed.

Lemma time_fun v t er t2 er2 : time_value v t er -> time_value v t2 er2 -> t = t2 /\ er = er2.
Proof.
  intros A B. destruct A as [v neg m S1 R|v neg m S1 R|v neg m S1 R|v N]; destruct B as [v neg2 m2 S2 R2|v neg2 m2 S2 R2|v neg2 m2 S2 R2|v N2];
    try (destruct (starts_fun _ _ _ _ _ S1 S2) as [<- <-]); auto; try (exfalso; lia);
    try (exfalso; eapply N; eauto; fail); try (exfalso; eapply N2; eauto; fail).
Qed.
Lemma time_exact v t er : tag_value v -> strtol v = (t, er) <-> time_value v t er.
Proof.
  intros T. assert (K : time_value v (fst (strtol v)) (snd (strtol v))).
  { unfold strtol. rewrite (tag_value_c_str v T). pose proof (strto_scan_spec v T) as SC.
    destruct (strto_scan v) as [[[neg m] r]|].
    - destruct SC as (u & E & SN & R). assert (SV : starts_number v neg m) by (exists u, r; auto).
      change (if neg then (- Z.of_N m)%Z else Z.of_N m) with (l_value neg m). cbv zeta.
      destruct (Z.ltb_spec LONG_MAX (l_value neg m)) as [B|B]; [|destruct (Z.ltb_spec (l_value neg m) LONG_MIN) as [B2|B2]];
        cbn [fst snd]; unfold LONG_MIN, LONG_MAX in *.
      + apply (tv_large v neg m); auto. lia.
      + apply (tv_small v neg m); auto.
      + apply (tv_number v neg m); auto. lia.
    - apply tv_none. auto. }
  destruct (strtol v) as [t0 e0]. cbn [fst snd] in K. split.
  - intros [= <- <-]. exact K.
  - intros L. destruct (time_fun _ _ _ _ _ K L) as [-> ->]. reflexivity.
Qed.
Lemma instance_exact v n : tag_value v -> (1 <= n <= 50)%N ->
  (exists rest er, strtoul v = (n, rest, er)) <-> exists neg m, starts_number v neg m /\ (m < 18446744073709551616)%N /\ n = ul_value neg m.
Proof.
  intros T B. destruct (strtoul v) as [[n0 rest] er] eqn:U. destruct (strtoul_spec v _ _ _ T U) as [(neg & m & t & E & SN & FR & X)|(E1 & E2 & E3 & NS)].
  - assert (A : starts_number v neg m) by (exists t, rest; auto). split.
    + intros (r & e & [= -> -> ->]). exists neg, m. destruct e; destruct X as [X1 X2]; unfold ULONG_MAX in *; [lia|]. split; auto. split; [lia|auto].
    + intros (neg2 & m2 & A2 & L & E2). destruct (starts_fun _ _ _ _ _ A A2) as [<- <-]. exists rest, er. f_equal. f_equal.
      destruct er; destruct X as [X1 X2]; unfold ULONG_MAX in *; [lia|congruence].
  - split.
    + intros (r & e & [= -> _ _]). lia.
    + intros (neg2 & m2 & A2 & _). exfalso. eapply NS; eauto.
Qed.
Lemma instance_quiet v n rest er : tag_value v -> (n <= 50)%N -> strtoul v = (n, rest, er) -> er = false.
Proof.
  intros T B U. destruct (strtoul_spec v _ _ _ T U) as [(neg & m & t & E & SN & FR & X)|(E1 & E2 & E3 & NS)]; auto.
  destruct er; auto. destruct X as [X _]. unfold ULONG_MAX in X. lia.
Qed.

Lemma ok_taken C now h e0 l tags : (forall n v, V tags n = Some v <-> has l n v) -> (forall n, V tags n = None <-> lacks l n) -> good_tags tags ->
  forall g e1, sig_ok C false now (h_name h) tags e0 (set_tags tags g, e1) <-> taken C now h l e0 g e1.
Proof.
  intros HV LV G g e1.
  assert (VL : forall v vs, has l "h" v -> ValueList v = Ok vs <-> list_wide vs v) by (intros; apply ValueList_wide).
  split.
  - intros K. remember (set_tags tags g, e1) as st eqn:Est.
    destruct K as [d a dg al b bh ch cb hv hs loc mdom inst ei size lim sel ex N8 Ed Ev Ea Av Eb Nb Ebh Kc Eh Vh Fh Ki Kl Kq Es Kx].
    destruct g as [tg0 dg0 al0 b0 bh0 ch0 cb0 d0 hs0 loc0 md0 size0 lim0 sel0 arc0 inst0]. unfold set_tags in Est.
    injection Est as E2 E3 E4 E5 E6 E7 E8 E9 E10 E11 E12 E13 E14 E15 E16 E17. subst dg0 al0 b0 bh0 ch0 cb0 d0 hs0 loc0 md0 size0 lim0 sel0 arc0 inst0 e1.
    unfold taken. cbn [sg_domain sg_selector sg_digest sg_alg sg_b sg_bh sg_headers sg_chead sg_cbody sg_arc sg_instance sg_local sg_mdomain sg_limit sg_size].
    change (same_name (h_name h) arc_name) with (same_name (h_name h) (str "arc-message-signature")) in *.
    assert (EI : ei = false).
    { destruct (same_name (h_name h) (str "arc-message-signature")); [|apply Ki]. destruct Ki as (_ & _ & [_ R] & i & rest & Ei & U).
      exact (instance_quiet i inst rest ei (G _ _ Ei) R U). }
    subst ei. rewrite orb_false_r in *.
    split; [exists d; split; [apply HV; auto|symmetry; apply map_low]|].
    split; [apply HV; auto|].
    split; [exists a; split; [apply HV; auto|auto]|].
    split; [exists b; split; [apply HV; auto|auto]|].
    split; [exists bh; split; [apply HV; auto|auto]|].
    split. { apply HV in Eh. exists hv. split; auto. split; auto. apply VL; auto. }
    split. { destruct (V tags "c") as [c|] eqn:Ec; [right; exists c; split; [apply HV; auto|auto]|left; split; [apply LV; auto|auto]]. }
    split. { destruct Kq as [Kq|Kq]; [left; apply LV; auto|right; apply HV; auto]. }
    split; [reflexivity|].
    split. { destruct (same_name (h_name h) (str "arc-message-signature")) eqn:A.
      - left. destruct Ki as (-> & -> & R & i & rest & Ei & U). repeat (split; [auto; fail|]). exists i.
        destruct (proj1 (instance_exact i inst (G _ _ Ei) R) (ex_intro _ rest (ex_intro _ false U))) as (neg & m & K). exists neg, m. split; [apply HV; auto|exact K].
      - right. destruct Ki as (-> & _ & Ki). split; auto. split; [apply HV; auto|]. split; auto.
        destruct (V tags "i") as [i|] eqn:Ei.
        + right. destruct Ki as (raw & Q & NI & _ & -> & D). exists i, raw. split; [apply HV; auto|].
          split; [apply (proj1 (qp_decode_grammar false i)); auto|]. split; auto. 
        + left. destruct Ki as [-> ->]. split; [apply LV; auto|]. split; auto. }
    split. { destruct (V tags "l") as [v|] eqn:El.
      - right. destruct Kl as (L & -> & U & B & ->). exists v. split; [apply HV; auto|]. repeat (split; [auto; fail|]).
        split; [apply limit_exact; eauto|auto].
      - left. destruct Kl as [-> ->]. split; [apply LV; auto|auto]. }
    destruct (V tags "x") as [x|] eqn:Ex.
    + right. destruct Kx as (t & U & LE). exists x, t, ex. split; [apply HV; auto|]. split; [apply time_exact; eauto|auto].
    + left. subst ex. rewrite orb_false_r. split; [apply LV; auto|auto].
  - intros ((d & Hd & Ed) & Hs & (a & Ha & Av) & (b & Hb & Nb & Eb) & (bh & Hbh & Ebh) & (hv & Hh & Lh & Fh) & Hc & Hq & EA & Hi & Hl & Hx).
    destruct g as [tg0 dg al b0 bh0 ch cb d0 hs loc md size lim sel arc inst].
    cbn [sg_domain sg_selector sg_digest sg_alg sg_b sg_bh sg_headers sg_chead sg_cbody sg_arc sg_instance sg_local sg_mdomain sg_limit sg_size] in *.
    unfold set_tags.
    assert (XE : exists ex, e1 = e0 || false || ex /\ match V tags "x" with None => ex = false | Some x => exists v, strtol x = (v, ex) /\ (now <= v)%Z end).
    { rewrite orb_false_r. destruct Hx as [[H ->]|(x & t & er & H & TV & LE & ->)].
      - exists false. rewrite orb_false_r. apply LV in H. rewrite H. auto.
      - exists er. split; auto. apply HV in H. rewrite H. exists t. split; auto. apply time_exact; eauto. }
    destruct XE as (ex & -> & Kx). subst d0 b0 bh0. rewrite (map_low d) in *.
    change (str "arc-message-signature") with arc_name in EA. subst arc.
    eapply (sig_ok_intro C false now (h_name h) tags e0 d a dg al b bh ch cb hv hs loc md inst false size lim sel ex); auto; try (apply HV; auto; fail).
    + intros A. apply HV. destruct Hi as [(A2 & _)|(_ & Hv & _)]; [congruence|auto].
    + destruct Hc as [(H & -> & ->)|(c & H & K)]; [apply LV in H|apply HV in H]; rewrite H; auto.
    + apply VL; auto.
    + destruct Hi as [(A & -> & -> & R & i & neg & m & H & K)|(A & _ & -> & Hi)]; rewrite A.
      * repeat (split; [auto; fail|]). apply HV in H. 
        destruct (proj2 (instance_exact i inst (G _ _ H) R) (ex_intro _ neg (ex_intro _ m K))) as (rest & er & U).
        exists i, rest. split; auto. rewrite U. f_equal. exact (instance_quiet i inst rest er (G _ _ H) (proj2 R) U).
      * split; auto. split; auto. destruct Hi as [(H & -> & ->)|(i & raw & H & Q & NI & -> & D)].
        -- apply LV in H. rewrite H. auto.
        -- apply HV in H. rewrite H. exists raw. split; [apply (proj1 (qp_decode_grammar false i)); auto|]. split; auto.
    + rewrite orb_false_r. destruct Hl as [(H & -> & ->)|(v & H & LN & -> & LV2 & B & ->)].
      * apply LV in H. rewrite H. auto.
      * apply HV in H. rewrite H. repeat (split; [auto; fail|]). split; [apply limit_exact; eauto|auto].
    + destruct Hq as [H|H]; [left; apply LV|right; apply HV]; auto.
Qed.

Lemma ok_tags C strict now name tags e0 g e1 : sig_ok C strict now name tags e0 (g, e1) -> sg_tags g = tags.
Proof. intros K. inversion K; subst. reflexivity. Qed.
Lemma parse_exact C now h e0 l : field_tags h l -> forall g e1,
  (exists tags, Signature_Parse C false now h (new_signature, e0) = ((set_tags tags g, e1), Ok tt)) <-> taken C now h l e0 g e1.
Proof.
  intros FT g e1. destruct (field_tags_parse h l FT) as (tags & PT & HV & LV & G). rewrite <- (ok_taken C now h e0 l tags HV LV G g e1). split.
  - intros (tg & P). apply (Parse_field _ _ _ _ _ _ l FT) in P as (tags2 & PT2 & K). rewrite PT in PT2. injection PT2 as <-.
    pose proof (ok_tags _ _ _ _ _ _ _ _ K) as E. cbn in E. subst tg. exact K.
  - intros K. exists tags. apply (Parse_field _ _ _ _ _ _ l FT). exists tags. auto.
Qed.

Lemma exact_case : exists l g, let h := dkim_field (base_sig ++ "; l=12; x=5; i=joe@example.com") in
  field_tags h l /\ taken toy 1 h l false g false /\ sg_limit g = true /\ sg_local g = str "joe".
Proof.
  assert (FT : exists l, field_tags (dkim_field (base_sig ++ "; l=12; x=5; i=joe@example.com")) l).
  { eexists. apply field_tags_nv; [apply Nat.leb_le; reflexivity|vm_compute; reflexivity]. }
  destruct FT as (l & FT). exists l.
  remember (fst (fst (Signature_Parse toy false 1 (dkim_field (base_sig ++ "; l=12; x=5; i=joe@example.com")) (new_signature, false)))) as g eqn:Eg.
  exists g. cbv zeta. split; auto. split.
  - apply (parse_exact toy 1 _ false l FT). exists (sg_tags g). rewrite Eg. vm_compute. reflexivity.
  - rewrite Eg. vm_compute. auto.
Qed.
(** errno matters exactly if there is an l= and the field is good otherwise. *)
Lemma errno_exact C now h l : field_tags h l -> h_voff h <= length (h_text h) ->
  (snd (Signature_Parse C false now h (new_signature, true)) = snd (Signature_Parse C false now h (new_signature, false)) <->
   lacks l "l" \/ snd (Signature_Parse C false now h (new_signature, false)) <> Ok tt).
Proof.
  intros FT VO. assert (D : lacks l "l" \/ ~ lacks l "l").
  { unfold lacks. destruct (in_dec (list_eq_dec ascii_dec) (str "l") (map fst l)); [right|left]; auto. }
  assert (NT : ~ lacks l "l" -> snd (Signature_Parse C false now h (new_signature, true)) = Throw (PermanentError AR_PERMERROR)).
  { intros NL. destruct (Signature_Parse_fine C now h (new_signature, true) VO) as [E|E]; [|exact E]. exfalso.
    destruct (Signature_Parse C false now h (new_signature, true)) as [[g e1] r] eqn:P. cbn [snd] in E. subst r.
    assert (T : taken C now h l true g e1) by (apply (parse_exact C now h true l FT); exists (sg_tags g); destruct g; exact P).
    destruct T as (_ & _ & _ & _ & _ & _ & _ & _ & _ & _ & [[L _]|(v & _ & _ & X & _)] & _); [exact (NL L)|discriminate]. }
  destruct D as [L|NL].
  - split; [auto|]. intros _. exact (proj2 (parse_history_free C false now h true false l FT L)).
  - rewrite (NT NL). split.
    + intros E. right. rewrite <- E. discriminate.
    + intros [L|E]; [destruct (NL L)|]. destruct (Signature_Parse_fine C now h (new_signature, false) VO) as [E2|E2]; [destruct (E E2)|symmetry; exact E2].
Qed.
