(** Signature::Parse: the statements about single tags. *)
From Verif Require Import Bytes Outcome Stream Tokenizer QuotedPrintable Base64 TagList MailParser Canonicalization Util
  CStdlib Crypto Signature BytesFacts SpecText SpecTags SpecMail SpecCanon SpecVerify SpecSig QPFacts ListFacts TagListFacts HeaderFacts HeaderProps SigFacts.

(** ** Reading numbers *)
Lemma digits_val_inv s : forall acc m rest, digits_val acc s = (m, rest) ->
  exists ds, s = ds ++ rest /\ Forall (between 48 57) ds /\ first_ok (fun c => ~ between 48 57 c) rest /\
    m = fold_left (fun a c => 10 * a + (code c - 48))%N ds acc.
Proof.
  induction s as [|c s IH]; intros acc m rest E; cbn [digits_val] in E.
  - injection E as <- <-. exists []. repeat split; auto.
  - destruct (is_digit c) eqn:D.
    + destruct (IH _ _ _ E) as (ds & -> & F & R & ->). exists (c :: ds). apply is_digit_spec in D. repeat split; auto.
    + injection E as <- <-. exists []. split; auto. split; auto. split; auto. cbn. intros K. apply is_digit_spec in K. congruence.
Qed.
Lemma tag_value_no_space v : tag_value v -> skip_isspace v = v.
Proof.
  intros (_ & F & _). destruct v as [|c v]; auto. cbn [skip_isspace]. cbn in F. destruct F as [P _].
  assert (X : forall c, implb (33 <=? code c)%N (negb (isspace c)) = true) by (apply byte_sweep; vm_compute; reflexivity).
  specialize (X c). destruct P as [P _]. apply N.leb_le in P. rewrite P in X. cbn in X. apply negb_true_iff in X. rewrite X. reflexivity.
Qed.
Lemma strto_scan_spec v : tag_value v ->
  match strto_scan v with
  | Some (neg, m, rest) => exists t, v = t ++ rest /\ signed_number t neg m /\ first_ok (fun c => ~ between 48 57 c) rest
  | None => forall neg m, ~ starts_number v neg m
  end.
Proof.
  intros T. unfold strto_scan. rewrite (tag_value_no_space v T).
  assert (D0 : forall s, match s with
     | c :: _ => if is_digit c then let '(m, rest) := digits_val 0 s in
         exists ds, s = ds ++ rest /\ digits ds /\ m = dec_value ds /\ first_ok (fun c => ~ between 48 57 c) rest else ~ between 48 57 c
     | [] => True end).
  { intros [|c s]; auto. destruct (is_digit c) eqn:D.
    - destruct (digits_val 0 (c :: s)) as [m rest] eqn:E. destruct (digits_val_inv _ _ _ _ E) as (ds & E1 & F & R & ->).
      exists ds. split; auto. split; [|split; auto]. split; auto. intros ->. cbn in E1. subst rest. cbn in R. apply is_digit_spec in D. auto.
    - intros K. apply is_digit_spec in K. congruence. }
  assert (NS : forall t neg m, signed_number t neg m -> exists c t', t = c :: t' /\
     (c = chr 45 -> neg = true /\ digits t') /\ (c = chr 43 -> neg = false /\ digits t') /\ (c <> chr 45 -> c <> chr 43 -> between 48 57 c)).
  { intros t neg m [d [N F]|d D|d D].
    - destruct d as [|c d]; [congruence|]. exists c, d. inversion F; subst. destruct (digit_plain c H1) as (_ & X2 & X3).
      apply ceqb_neq in X2, X3. split; auto. split; [congruence|]. split; [congruence|]. auto.
    - exists (chr 43), d. split; auto. split; [discriminate|]. split; auto. congruence.
    - exists (chr 45), d. split; auto. split; auto. split; [discriminate|]. congruence. }
  assert (DG : forall ds c s r, digits ds -> c :: s = ds ++ r -> between 48 57 c).
  { intros ds c s r [N F] E. destruct ds as [|x ds]; [congruence|]. injection E as -> _. inversion F; auto. }
  destruct v as [|c v].
  - cbn. intros neg m (t & r & E & SN & _). destruct (NS _ _ _ SN) as (c & t' & -> & _). discriminate.
  - cbn [read_sign]. destruct (c =?c chr 45) eqn:C1; [|destruct (c =?c chr 43) eqn:C2].
    + apply ceqb_eq in C1. subst c. specialize (D0 v). destruct v as [|c v].
      * intros neg m (t & r & E & SN & _). destruct (NS _ _ _ SN) as (x & t' & -> & H1 & _). injection E as <- E.
        destruct (H1 eq_refl) as [_ [N _]]. destruct t'; [congruence|discriminate].
      * destruct (is_digit c).
        -- destruct (digits_val 0 (c :: v)) as [m rest]. destruct D0 as (ds & E & D & -> & R).
           exists (chr 45 :: ds). split; [cbn; rewrite E; reflexivity|]. split; auto. apply sn_minus; auto.
        -- intros neg m (t & r & E & SN & _). destruct (NS _ _ _ SN) as (x & t' & -> & H1 & _). injection E as <- E.
           destruct (H1 eq_refl) as [_ D]. apply D0. eapply DG; eauto.
    + apply ceqb_eq in C2. subst c. specialize (D0 v). destruct v as [|c v].
      * intros neg m (t & r & E & SN & _). destruct (NS _ _ _ SN) as (x & t' & -> & _ & H1 & _). injection E as <- E.
        destruct (H1 eq_refl) as [_ [N _]]. destruct t'; [congruence|discriminate].
      * destruct (is_digit c).
        -- destruct (digits_val 0 (c :: v)) as [m rest]. destruct D0 as (ds & E & D & -> & R).
           exists (chr 43 :: ds). split; [cbn; rewrite E; reflexivity|]. split; auto. apply sn_plus; auto.
        -- intros neg m (t & r & E & SN & _). destruct (NS _ _ _ SN) as (x & t' & -> & _ & H1 & _). injection E as <- E.
           destruct (H1 eq_refl) as [_ D]. apply D0. eapply DG; eauto.
    + apply ceqb_neq in C1, C2. specialize (D0 (c :: v)). cbn beta iota in D0. destruct (is_digit c).
      * destruct (digits_val 0 (c :: v)) as [m rest]. destruct D0 as (ds & E & D & -> & R).
        exists ds. split; [exact E|]. split; auto. apply sn_plain; auto.
      * intros neg m (t & r & E & SN & _). destruct (NS _ _ _ SN) as (x & t' & -> & _ & _ & H). injection E as <- E. auto.
Qed.

(** ** The tags of an accepted field *)
Lemma NoDup_fst_fun {A B} (l : list (A * B)) n v w : NoDup (map fst l) -> In (n, v) l -> In (n, w) l -> v = w.
Proof.
  induction l as [|[m x] l IH]; cbn; intros ND I J; [destruct I|]. inversion ND as [|m' l' NI ND' E]; subst.
  assert (X : forall y, In (n, y) l -> In n (map fst l)) by (intros y K; apply (in_map fst) in K; exact K).
  destruct I as [[= <- <-]|I], J as [J|J].
  - congruence.
  - destruct NI. eauto.
  - injection J as <- <-. destruct NI. eauto.
  - eauto.
Qed.
Lemma field_tags_parse h l : field_tags h l -> exists tags, TagList_Parse [] (skipn (h_voff h) (h_text h)) = (tags, Ok tt) /\
  (forall n v, V tags n = Some v <-> has l n v) /\ (forall n, V tags n = None <-> lacks l n) /\ good_tags tags.
Proof.
  intros (L & R & ND). destruct (TagList_rendered l _ R ND) as (tags & P & _). exists tags. split; auto.
  pose proof (tags_V _ _ P) as (l2 & R2 & ND2 & HV & LV). assert (l2 = l) by (eapply rendered_unique; eauto). subst l2.
  split; auto. split; auto. eapply tags_good; eauto.
Qed.
Lemma Parse_field C strict now h e0 st l : field_tags h l ->
  (Signature_Parse C strict now h (new_signature, e0) = (st, Ok tt) <->
   exists tags, TagList_Parse [] (skipn (h_voff h) (h_text h)) = (tags, Ok tt) /\ sig_ok C strict now (h_name h) tags e0 st).
Proof. intros (L & _). rewrite Signature_Parse_Ok. tauto. Qed.
Lemma Parse_has_tags C strict now h e0 st : Signature_Parse C strict now h (new_signature, e0) = (st, Ok tt) ->
  exists l, field_tags h l.
Proof.
  intros P. apply Signature_Parse_Ok in P as (L & tags & P & _). destruct (tags_V _ _ P) as (l & R & ND & _).
  exists l. split; auto.
Qed.

Lemma strtoul_spec v n rest er : tag_value v -> strtoul v = (n, rest, er) ->
  (exists neg m t, v = t ++ rest /\ signed_number t neg m /\ first_ok (fun c => ~ between 48 57 c) rest /\
    (if er then n = ULONG_MAX /\ (ULONG_MAX < m)%N else n = ul_value neg m /\ (m <= ULONG_MAX)%N)) \/
  (n = 0%N /\ rest = v /\ er = false /\ forall neg m, ~ starts_number v neg m).
Proof.
  intros T. unfold strtoul. rewrite (tag_value_c_str v T). pose proof (strto_scan_spec v T) as SC.
  destruct (strto_scan v) as [[[neg m] r]|].
  - destruct SC as (t & E & SN & R). destruct (N.ltb_spec ULONG_MAX m) as [B|B].
    + intros [= <- <- <-]. left. exists neg, m, t. auto.
    + destruct neg; intros [= <- <- <-]; left.
      * exists true, m, t. auto.
      * exists false, m, t. auto.
  - intros [= <- <- <-]. right. auto.
Qed.

(** ** C29 *)
Lemma parse_mandatory C strict now h e0 g e1 :
  Signature_Parse C strict now h (new_signature, e0) = ((g, e1), Ok tt) ->
  exists l, field_tags h l /\
    (exists d, has l "d" d /\ sg_domain g = map low d) /\
    has l "s" (sg_selector g) /\
    (exists a, has l "a" a /\ a_value a (sg_digest g) (sg_alg g)) /\
    (exists b, has l "b" b /\ b <> [] /\ sg_b g = b64d C (unspaced b)) /\
    (exists bh, has l "bh" bh /\ sg_bh g = b64d C (unspaced bh)) /\
    (exists hv, has l "h" hv /\ ValueList hv = Ok (sg_headers g) /\
       exists n, In n (sg_headers g) /\ same_name n (str "from") = true) /\
    (lacks l "c" /\ sg_chead g = SIMPLE /\ sg_cbody g = SIMPLE \/ exists c, has l "c" c /\ c_value c (sg_chead g) (sg_cbody g)) /\
    sg_arc g = same_name (h_name h) (str "arc-message-signature") /\
    (sg_arc g = false -> has l "v" (str "1")) /\
    (sg_arc g = true -> (1 <= sg_instance g <= 50)%N /\
       exists i neg m, has l "i" i /\ starts_number i neg m /\ sg_instance g = ul_value neg m).
Proof.
  intros P. pose proof (Parse_has_tags _ _ _ _ _ _ P) as (l & FT). exists l. split; auto.
  destruct (field_tags_parse h l FT) as (tags & PT & HV & LV & G).
  apply (Parse_field _ _ _ _ _ _ l FT) in P as (tags2 & PT2 & K). rewrite PT in PT2. injection PT2 as <-.
  remember (g, e1) as st eqn:Est.
  destruct K as [d a dg al b bh ch cb hv hs loc mdom inst ei size lim sel ex N8 Ed Ev Ea Av Eb Nb Ebh Kc Eh Vh Fh Ki Kl Kq Es Kx].
  injection Est as <- _. cbn [sg_domain sg_selector sg_digest sg_alg sg_b sg_bh sg_headers sg_chead sg_cbody sg_arc sg_instance].
  split; [exists d; split; [apply HV; auto|symmetry; apply map_low]|].
  split; [apply HV; auto|].
  split; [exists a; split; [apply HV; auto|auto]|].
  split; [exists b; split; [apply HV; auto|auto]|].
  split; [exists bh; split; [apply HV; auto|auto]|].
  split; [exists hv; split; [apply HV; auto|auto]|].
  split. { destruct (V tags "c") as [c|] eqn:Ec.
    - right. exists c. split; [apply HV; auto|auto].
    - left. split; [apply LV; auto|auto]. }
  split; [reflexivity|].
  split. { intros A. apply HV. auto. }
  intros A. rewrite A in Ki. destruct Ki as (_ & _ & R & i & rest & Ei & U). split; [exact R|].
  exists i. destruct (strtoul_spec i _ _ _ (G _ _ Ei) U) as [(neg & m & t & E & SN & FR & X)|(E & _)].
  - exists neg, m. split; [apply HV; auto|]. split. { exists t, rest. auto. }
    destruct R as [_ R]. rewrite (strtoul_small _ _ _ _ U R) in X. apply X.
  - exfalso. destruct R. lia.
Qed.

(** Anything lacking is refused. *)
Lemma parse_lacking C now h e0 l : field_tags h l ->
  lacks l "d" \/ lacks l "s" \/ (forall a d s, has l "a" a -> ~ a_value a d s) \/ lacks l "b" \/ has l "b" [] \/ lacks l "bh" \/
  lacks l "h" \/
  (exists hv vs, has l "h" hv /\ rendered_list vs hv /\ forall n, In n vs -> same_name n (str "from") = false) \/
  (exists c, has l "c" c /\ forall x y, ~ c_value c x y) \/
  (same_name (h_name h) (str "arc-message-signature") = false /\ ~ has l "v" (str "1")) \/
  (same_name (h_name h) (str "arc-message-signature") = true /\
     (lacks l "i" \/ exists i, has l "i" i /\ digits i /\ (dec_value i < 1 \/ 50 < dec_value i)%N)) \/
  (exists q, has l "q" q /\ q <> str "dns/txt") ->
  snd (Signature_Parse C false now h (new_signature, e0)) = perm.
Proof.
  intros FT B. apply Signature_Parse_perm; [apply FT|]. intros st P.
  destruct (field_tags_parse h l FT) as (tags & PT & HV & LV & G).
  apply (Parse_field _ _ _ _ _ _ l FT) in P as (tags2 & PT2 & K). rewrite PT in PT2. injection PT2 as <-.
  destruct K as [d a dg al b bh ch cb hv hs loc mdom inst ei size lim sel ex N8 Ed Ev Ea Av Eb Nb Ebh Kc Eh Vh Fh Ki Kl Kq Es Kx].
  repeat match type of B with _ \/ _ => destruct B as [B|B] end.
  - apply LV in B. congruence.
  - apply LV in B. congruence.
  - apply HV in Ea. eapply B; eauto.
  - apply LV in B. congruence.
  - apply HV in B. congruence.
  - apply LV in B. congruence.
  - apply LV in B. congruence.
  - destruct B as (hv2 & vs & H & R & N). apply HV in H. rewrite Eh in H. injection H as <-.
    rewrite (ValueList_rendered _ _ R) in Vh. injection Vh as <-. destruct Fh as (n & I & F). rewrite (N n I) in F. discriminate.
  - destruct B as (c & H & N). apply HV in H. rewrite H in Kc. eapply N; eauto.
  - destruct B as [A N]. apply N. apply HV. auto.
  - destruct B as [A B]. change (same_name (h_name h) arc_name = true) in A. rewrite A in Ki.
    destruct Ki as (_ & _ & [R1 R2] & i & rest & Ei & U). destruct B as [B|(i2 & H & D & X)].
    + apply LV in B. congruence.
    + apply HV in H. rewrite Ei in H. injection H as <-. rewrite strtoul_digits in U by auto.
      destruct (N.ltb_spec ULONG_MAX (dec_value i)) as [Y|Y]; injection U as <- <- <-; [unfold ULONG_MAX in R2|]; lia.
  - destruct B as (q & H & N). apply HV in H. rewrite H in Kq. destruct Kq as [Kq|Kq]; congruence.
Qed.

(** Enough for acceptance. *)
Lemma parse_sufficient C now h l d s a dg al b bh hv vs ch cb : field_tags h l ->
  has l "d" d -> has l "s" s -> has l "a" a -> a_value a dg al -> has l "b" b -> b <> [] -> has l "bh" bh ->
  has l "h" hv -> rendered_list vs hv -> (exists n, In n vs /\ same_name n (str "from") = true) ->
  (lacks l "c" /\ ch = SIMPLE /\ cb = SIMPLE \/ exists c, has l "c" c /\ c_value c ch cb) ->
  lacks l "l" -> lacks l "x" -> (lacks l "q" \/ has l "q" (str "dns/txt")) ->
  let arc := same_name (h_name h) (str "arc-message-signature") in
  (arc = false -> has l "v" (str "1") /\ lacks l "i") ->
  (arc = true -> exists i, has l "i" i /\ digits i /\ (1 <= dec_value i <= 50)%N) ->
  forall e0, exists g, Signature_Parse C false now h (new_signature, e0) = ((g, e0), Ok tt) /\
    sg_domain g = map low d /\ sg_selector g = s /\ sg_digest g = dg /\ sg_alg g = al /\
    sg_b g = b64d C (unspaced b) /\ sg_bh g = b64d C (unspaced bh) /\ sg_headers g = vs /\
    sg_chead g = ch /\ sg_cbody g = cb /\ sg_limit g = false /\ sg_arc g = arc /\
    (arc = true -> exists i, has l "i" i /\ sg_instance g = dec_value i).
Proof.
  intros FT Hd Hs Ha Av Hb Nb Hbh Hh Rh Fh Hc Hl Hx Hq arc HA1 HA2 e0.
  destruct (field_tags_parse h l FT) as (tags & PT & HV & LV & G).
  set (inst := if arc then match V tags "i" with Some i => dec_value i | None => 0%N end else 0%N).
  set (mdom := if arc then [] else lower d).
  assert (HI : arc = true -> exists i, V tags "i" = Some i /\ digits i /\ (1 <= dec_value i <= 50)%N /\ has l "i" i).
  { intros A. destruct (HA2 A) as (i & Hi & D & R). exists i. split; [apply HV; auto|auto]. }
  eexists. split.
  - apply (Parse_field _ _ _ _ _ _ l FT). exists tags. split; auto.
    replace e0 with (e0 || false || false) at 2 by (rewrite !orb_false_r; reflexivity).
    eapply (sig_ok_intro C false now (h_name h) tags e0 d a dg al b bh ch cb hv vs [] mdom inst false 0%N false s false).
    + reflexivity.
    + apply HV; auto.
    + intros A. apply HV. apply HA1. auto.
    + apply HV; auto.
    + auto.
    + apply HV; auto.
    + auto.
    + apply HV; auto.
    + destruct Hc as [(H & -> & ->)|(c & H & K)]; [apply LV in H|apply HV in H]; rewrite H; auto.
    + apply HV; eauto.
    + apply ValueList_rendered; auto.
    + auto.
    + fold arc_name in arc. unfold mdom, inst. change (same_name (h_name h) arc_name) with arc. destruct arc.
      * destruct (HI eq_refl) as (i & Ei & D & R & _). rewrite Ei. split; auto. split; auto. split; [exact R|].
        exists i, []. split; auto. rewrite strtoul_digits by auto. destruct (N.ltb_spec ULONG_MAX (dec_value i)); [unfold ULONG_MAX in *; lia|reflexivity].
      * split; auto. split; auto. destruct (HA1 eq_refl) as [_ H]. apply LV in H. rewrite H. auto.
    + apply LV in Hl. rewrite Hl. auto.
    + destruct Hq as [H|H]; [left; apply LV|right; apply HV]; auto.
    + apply HV; auto.
    + apply LV in Hx. rewrite Hx. auto.
  - cbn [sg_domain sg_selector sg_digest sg_alg sg_b sg_bh sg_headers sg_chead sg_cbody sg_arc sg_instance sg_limit].
    split; [symmetry; apply map_low|]. repeat (split; [reflexivity|]). intros A. unfold inst. rewrite A. destruct (HI A) as (i & -> & _ & _ & H). eauto.
Qed.

(** ** C30 *)
Lemma parse_identity C strict now h e0 g e1 l : field_tags h l ->
  Signature_Parse C strict now h (new_signature, e0) = ((g, e1), Ok tt) -> sg_arc g = false ->
  (lacks l "i" /\ sg_local g = [] /\ sg_mdomain g = sg_domain g) \/
  exists i raw, has l "i" i /\ qp_text false i (sg_local g ++ AT :: raw) /\ ~ In AT (sg_local g) /\
    sg_mdomain g = map low raw /\ in_domain (sg_mdomain g) (sg_domain g).
Proof.
  intros FT P A. destruct (field_tags_parse h l FT) as (tags & PT & HV & LV & G).
  apply (Parse_field _ _ _ _ _ _ l FT) in P as (tags2 & PT2 & K). rewrite PT in PT2. injection PT2 as <-.
  remember (g, e1) as st eqn:Est.
  destruct K as [d a dg al b bh ch cb hv hs loc mdom inst ei size lim sel ex N8 Ed Ev Ea Av Eb Nb Ebh Kc Eh Vh Fh Ki Kl Kq Es Kx].
  injection Est as <- _. cbn [sg_domain sg_local sg_mdomain sg_arc] in *. rewrite A in Ki. destruct Ki as (_ & _ & Ki).
  destruct (V tags "i") as [i|] eqn:Ei.
  - right. destruct Ki as (raw & Q & NI & _ & -> & D). exists i, raw. split; [apply HV; auto|].
    split; [apply (proj1 (qp_decode_grammar false i)); auto|]. split; auto.
  - left. destruct Ki as [-> ->]. split; [apply LV; auto|auto].
Qed.
Lemma parse_identity_refused C now h e0 l i d loc raw : field_tags h l ->
  same_name (h_name h) (str "arc-message-signature") = false ->
  has l "i" i -> has l "d" d -> qp_text false i (loc ++ AT :: raw) -> ~ In AT loc -> ~ in_domain (map low raw) (map low d) ->
  snd (Signature_Parse C false now h (new_signature, e0)) = perm.
Proof.
  intros FT A Hi Hd Q NI ND. apply Signature_Parse_perm; [apply FT|]. intros [g e1] P.
  pose proof (parse_mandatory _ _ _ _ _ _ _ P) as (l2 & FT2 & (d2 & Hd2 & Ed) & _ & _ & _ & _ & _ & _ & EA & _).
  assert (l2 = l) by (eapply rendered_unique; [apply FT2|apply FT]). subst l2.
  rewrite A in EA. destruct (parse_identity _ _ _ _ _ _ _ l FT P EA) as [(LI & _)|(i2 & raw2 & Hi2 & Q2 & NI2 & Em & D)].
  - apply LI. apply in_map_iff. exists (str "i", i). auto.
  - assert (i2 = i) by (eapply NoDup_fst_fun; [apply FT|exact Hi2|exact Hi]). subst i2.
    assert (d2 = d) by (eapply NoDup_fst_fun; [apply FT|exact Hd2|exact Hd]). subst d2.
    apply (proj1 (qp_decode_grammar false i)) in Q, Q2. rewrite Q in Q2. injection Q2 as E.
    assert (X : loc = sg_local g /\ raw = raw2).
    { assert (FC : find_char AT (loc ++ AT :: raw) = find_char AT (sg_local g ++ AT :: raw2)) by (rewrite E; reflexivity).
      rewrite !find_char_app in FC by auto. injection FC as L.
      assert (EL : loc = sg_local g) by (rewrite <- (firstn_app_exact loc (AT :: raw)), E, L, firstn_app_exact; reflexivity).
      rewrite EL in E. apply app_inv_head in E. split; congruence. }
    destruct X as [_ ->]. rewrite Em, Ed in D. auto.
Qed.
Lemma parse_identity_no_at C now h e0 l i m : field_tags h l ->
  same_name (h_name h) (str "arc-message-signature") = false ->
  has l "i" i -> qp_text false i m -> ~ In AT m ->
  snd (Signature_Parse C false now h (new_signature, e0)) = perm.
Proof.
  intros FT A Hi Q NI. apply Signature_Parse_perm; [apply FT|]. intros [g e1] P.
  pose proof (parse_mandatory _ _ _ _ _ _ _ P) as (l2 & FT2 & _ & _ & _ & _ & _ & _ & _ & EA & _).
  rewrite A in EA. destruct (parse_identity _ _ _ _ _ _ _ l FT P EA) as [(LI & _)|(i2 & raw2 & Hi2 & Q2 & NI2 & _)].
  - apply LI. apply in_map_iff. exists (str "i", i). auto.
  - assert (i2 = i) by (eapply NoDup_fst_fun; [apply FT|exact Hi2|exact Hi]). subst i2.
    apply (proj1 (qp_decode_grammar false i)) in Q, Q2. rewrite Q in Q2. injection Q2 as E. apply NI. rewrite E. apply in_or_app. right. left. reflexivity.
Qed.

(** ** C31 *)
Ltac open_ok K g e1 := let st := fresh "st" in let Est := fresh "Est" in
  remember (g, e1) as st eqn:Est;
  destruct K as [d a dg al b bh ch cb hv hs loc mdom inst ei size lim sel ex N8 Ed Ev Ea Av Eb Nb Ebh Kc Eh Vh Fh Ki Kl Kq Es Kx];
  injection Est as Eg Ee.

Lemma parse_limit C strict now h e0 g e1 l v : field_tags h l ->
  Signature_Parse C strict now h (new_signature, e0) = ((g, e1), Ok tt) -> has l "l" v ->
  sg_limit g = true /\ (sg_size g < 9223372036854775808)%N /\ length v <= 76 /\
  (v = [] /\ sg_size g = 0%N \/ exists neg m, signed_number v neg m /\ sg_size g = ul_value neg m) /\
  (digits v -> sg_size g = dec_value v).
Proof.
  intros FT P Hv. destruct (field_tags_parse h l FT) as (tags & PT & HV & LV & G).
  apply (Parse_field _ _ _ _ _ _ l FT) in P as (tags2 & PT2 & K). rewrite PT in PT2. injection PT2 as <-.
  open_ok K g e1. subst g. cbn [sg_limit sg_size]. apply HV in Hv. rewrite Hv in Kl. destruct Kl as (L & _ & U & B & ->).
  split; auto. split; auto. split; auto. split.
  - destruct (strtoul_spec v _ _ _ (G _ _ Hv) U) as [(neg & m & t & E & SN & _ & X & _)|(E & E2 & _)].
    + right. rewrite app_nil_r in E. subst t. exists neg, m. auto.
    + left. auto.
  - intros D. rewrite strtoul_digits in U by auto. destruct (ULONG_MAX <? dec_value v)%N; congruence.
Qed.
Lemma parse_no_limit C strict now h e0 g e1 l : field_tags h l ->
  Signature_Parse C strict now h (new_signature, e0) = ((g, e1), Ok tt) -> lacks l "l" -> sg_limit g = false.
Proof.
  intros FT P Hv. destruct (field_tags_parse h l FT) as (tags & PT & HV & LV & G).
  apply (Parse_field _ _ _ _ _ _ l FT) in P as (tags2 & PT2 & K). rewrite PT in PT2. injection PT2 as <-.
  open_ok K g e1. subst g. apply LV in Hv. rewrite Hv in Kl. apply Kl.
Qed.
Lemma parse_limit_refused C now h e0 l v : field_tags h l -> has l "l" v ->
  (76 < length v) \/ (digits v /\ (9223372036854775808 <= dec_value v)%N) \/
  (v <> [] /\ forall neg m, ~ signed_number v neg m) ->
  snd (Signature_Parse C false now h (new_signature, e0)) = perm.
Proof.
  intros FT Hv B. apply Signature_Parse_perm; [apply FT|]. intros [g e1] P.
  destruct (parse_limit _ _ _ _ _ _ _ _ _ FT P Hv) as (_ & S63 & L & F & D). destruct B as [B|[[B1 B2]|[B1 B2]]].
  - lia.
  - rewrite (D B1) in S63. lia.
  - destruct F as [[F _]|(neg & m & F & _)]; [auto|eapply B2; eauto].
Qed.

(** Two fields that differ in one tag. *)
Lemma agree_V n h1 l1 h2 l2 tags1 tags2 : field_tags h1 l1 -> field_tags h2 l2 ->
  TagList_Parse [] (skipn (h_voff h1) (h_text h1)) = (tags1, Ok tt) ->
  TagList_Parse [] (skipn (h_voff h2) (h_text h2)) = (tags2, Ok tt) ->
  (forall m w, m <> str n -> (In (m, w) l1 <-> In (m, w) l2)) ->
  forall m, str m <> str n -> V tags1 m = V tags2 m.
Proof.
  intros F1 F2 P1 P2 A m N.
  destruct (field_tags_parse _ _ F1) as (t1 & Q1 & HV1 & LV1 & _). rewrite P1 in Q1. injection Q1 as <-.
  destruct (field_tags_parse _ _ F2) as (t2 & Q2 & HV2 & LV2 & _). rewrite P2 in Q2. injection Q2 as <-.
  destruct (V tags1 m) as [v|] eqn:E.
  - symmetry. apply HV2. apply HV1 in E. unfold has in *. apply (A (str m) v N). exact E.
  - symmetry. apply LV2. apply LV1 in E. unfold lacks in *. intros K. apply E. apply in_map_iff in K as ([x w] & E2 & I). cbn in E2. subst x.
    apply in_map_iff. exists (str m, w). split; auto. apply (A (str m) w N). exact I.
Qed.

Lemma parse_limit_accepted C strict now h1 h2 l1 l2 v g e : field_tags h1 l1 -> field_tags h2 l2 -> h_name h1 = h_name h2 ->
  (forall m w, m <> str "l" -> (In (m, w) l1 <-> In (m, w) l2)) -> lacks l1 "l" -> has l2 "l" v ->
  digits v -> length v <= 76 -> (dec_value v < 9223372036854775808)%N ->
  Signature_Parse C strict now h1 (new_signature, false) = ((g, e), Ok tt) ->
  exists g2, Signature_Parse C strict now h2 (new_signature, false) = ((g2, e), Ok tt) /\
    g2 = set_tags (sg_tags g2) (set_size (dec_value v) true g).
Proof.
  intros F1 F2 EN A L1 H2 D LE LT P.
  destruct (field_tags_parse h1 l1 F1) as (tags1 & PT1 & HV1 & LV1 & G1). destruct (field_tags_parse h2 l2 F2) as (tags2 & PT2 & HV2 & LV2 & G2).
  pose proof (agree_V "l" h1 l1 h2 l2 tags1 tags2 F1 F2 PT1 PT2 A) as AV.
  apply (Parse_field _ _ _ _ _ _ l1 F1) in P as (tx & PTx & K). rewrite PT1 in PTx. injection PTx as <-.
  open_ok K g e. rewrite EN in *.
  exists (mkSig tags2 dg al (b64d C (unspaced b)) (b64d C (unspaced bh)) ch cb (lower d) hs loc mdom (dec_value v) true sel (same_name (h_name h2) arc_name) inst).
  split.
  - apply (Parse_field _ _ _ _ _ _ l2 F2). exists tags2. split; auto. subst e.
    assert (EI : ei = false).
    { destruct (same_name (h_name h2) arc_name); [|tauto]. destruct Ki as (_ & _ & [_ R] & i & rest & _ & U). eapply strtoul_small; eauto. }
    rewrite !AV in * by discriminate. change (ei || ex) with (false || ei || ex). eapply sig_ok_intro; eauto.
    rewrite (proj2 (HV2 "l"%string v) H2). rewrite EI. split; auto. split; auto. rewrite strtoul_digits by auto.
    destruct (N.ltb_spec ULONG_MAX (dec_value v)); [unfold ULONG_MAX in *; lia|]. auto.
  - subst g. reflexivity.
Qed.

(** ** C33 *)
Lemma starts_digits d : digits d -> starts_number d false (dec_value d).
Proof. intros D. exists d, []. rewrite app_nil_r. split; auto. split; [apply sn_plain; auto|exact I]. Qed.
Lemma digits_split d d2 r r2 : digits d -> digits d2 -> first_ok (fun c => ~ between 48 57 c) r -> first_ok (fun c => ~ between 48 57 c) r2 ->
  d ++ r = d2 ++ r2 -> d = d2.
Proof.
  intros [_ F] [_ F2] R R2 E. revert d2 F2 E. induction F as [|c d H F IH]; intros d2 F2 E.
  - destruct F2 as [|c2 d2 H2 F2]; auto. cbn in E. subst r. cbn in R. tauto.
  - destruct F2 as [|c2 d2 H2 F2].
    + cbn in E. subst r2. cbn in R2. tauto.
    + injection E as -> E. f_equal. eauto.
Qed.
Lemma digits_head d c : digits d -> first_ok (fun x => between 48 57 x) d /\ (between 48 57 c -> c <> chr 43 /\ c <> chr 45).
Proof.
  intros [N F]. split. { destruct F; [congruence|auto]. }
  intros B. destruct (digit_plain c B) as (_ & X & Y). apply ceqb_neq in X, Y. auto.
Qed.
Lemma starts_fun v neg m neg2 m2 : starts_number v neg m -> starts_number v neg2 m2 -> neg = neg2 /\ m = m2.
Proof.
  intros (t & r & -> & SN & R) (t2 & r2 & E & SN2 & R2).
  assert (HP : forall d r s c, digits d -> d ++ r = c :: s -> c <> chr 43 /\ c <> chr 45).
  { intros d x s c D E'. pose proof (digits_head d c D) as [X Y]. apply Y. destruct d; [destruct D; congruence|]. injection E' as -> _. exact X. }
  destruct SN as [d D|d D|d D]; destruct SN2 as [d2 D2|d2 D2|d2 D2]; cbn [app] in E.
  - split; auto. rewrite (digits_split _ _ _ _ D D2 R R2 E). reflexivity.
  - apply HP in E; auto. destruct E. congruence.
  - apply HP in E; auto. destruct E. congruence.
  - symmetry in E. apply HP in E; auto. destruct E. congruence.
  - injection E as E. split; auto. rewrite (digits_split _ _ _ _ D D2 R R2 E). reflexivity.
  - discriminate.
  - symmetry in E. apply HP in E; auto. destruct E. congruence.
  - discriminate.
  - injection E as E. split; auto. rewrite (digits_split _ _ _ _ D D2 R R2 E). reflexivity.
Qed.
Lemma strtol_spec v : tag_value v ->
  (forall neg m, starts_number v neg m -> exists er, strtol v = (Z.max LONG_MIN (Z.min LONG_MAX (l_value neg m)), er)) /\
  ((forall neg m, ~ starts_number v neg m) -> strtol v = (0%Z, false)).
Proof.
  intros T. unfold strtol. rewrite (tag_value_c_str v T). pose proof (strto_scan_spec v T) as SC.
  destruct (strto_scan v) as [[[neg m] r]|].
  - destruct SC as (t & E & SN & R). assert (SV : starts_number v neg m) by (exists t, r; auto). split.
    + intros neg2 m2 S2. destruct (starts_fun _ _ _ _ _ SV S2) as [<- <-]. unfold l_value.
      set (z := if neg then _ else _). cbv zeta. destruct (Z.ltb_spec LONG_MAX z) as [B|B]; [|destruct (Z.ltb_spec z LONG_MIN) as [B2|B2]];
        eexists; f_equal; unfold LONG_MIN, LONG_MAX in *; lia.
    + intros N. destruct (N _ _ SV).
  - split; auto. intros neg m S2. destruct (SC _ _ S2).
Qed.

Lemma parse_expired C now h e0 l x : field_tags h l -> has l "x" x -> (LONG_MIN < now <= LONG_MAX)%Z ->
  (exists neg m, starts_number x neg m /\ (l_value neg m < now)%Z) \/ ((0 < now)%Z /\ forall neg m, ~ starts_number x neg m) ->
  snd (Signature_Parse C false now h (new_signature, e0)) = perm.
Proof.
  intros FT Hx NB B. apply Signature_Parse_perm; [apply FT|]. intros [g e1] P.
  destruct (field_tags_parse h l FT) as (tags & PT & HV & LV & G).
  apply (Parse_field _ _ _ _ _ _ l FT) in P as (tags2 & PT2 & K). rewrite PT in PT2. injection PT2 as <-.
  open_ok K g e1. apply HV in Hx. rewrite Hx in Kx. destruct Kx as (v & U & LE).
  destruct (strtol_spec x (G _ _ Hx)) as [X1 X2]. destruct B as [(neg & m & SN & B)|[B N]].
  - destruct (X1 _ _ SN) as (er & X). rewrite X in U. injection U as <- _. unfold LONG_MIN, LONG_MAX in *. lia.
  - rewrite (X2 N) in U. injection U as <- _. lia.
Qed.
Lemma parse_not_expired C strict now h1 h2 l1 l2 x neg m e0 g e : field_tags h1 l1 -> field_tags h2 l2 -> h_name h1 = h_name h2 ->
  (forall k w, k <> str "x" -> (In (k, w) l1 <-> In (k, w) l2)) -> lacks l1 "x" -> has l2 "x" x ->
  starts_number x neg m -> (now <= l_value neg m)%Z -> (now <= LONG_MAX)%Z ->
  Signature_Parse C strict now h1 (new_signature, e0) = ((g, e), Ok tt) ->
  exists g2 e2, Signature_Parse C strict now h2 (new_signature, e0) = ((g2, e2), Ok tt) /\ g2 = set_tags (sg_tags g2) g.
Proof.
  intros F1 F2 EN A L1 H2 D LE LT P.
  destruct (field_tags_parse h1 l1 F1) as (tags1 & PT1 & HV1 & LV1 & G1). destruct (field_tags_parse h2 l2 F2) as (tags2 & PT2 & HV2 & LV2 & G2).
  pose proof (agree_V "x" h1 l1 h2 l2 tags1 tags2 F1 F2 PT1 PT2 A) as AV.
  apply (Parse_field _ _ _ _ _ _ l1 F1) in P as (tx & PTx & K). rewrite PT1 in PTx. injection PTx as <-.
  open_ok K g e. rewrite EN in *.
  apply HV2 in H2. destruct (strtol_spec x (G2 _ _ H2)) as [X1 _]. destruct (X1 _ _ D) as (er & X).
  exists (mkSig tags2 dg al (b64d C (unspaced b)) (b64d C (unspaced bh)) ch cb (lower d) hs loc mdom size lim sel (same_name (h_name h2) arc_name) inst), (e0 || ei || er).
  split.
  - apply (Parse_field _ _ _ _ _ _ l2 F2). exists tags2. split; auto. subst e.
    rewrite !AV in * by discriminate. eapply sig_ok_intro; eauto.
    rewrite H2. eexists. split; [exact X|]. unfold LONG_MIN, LONG_MAX in *. lia.
  - subst g. reflexivity.
Qed.

(** ** C32 *)
(** Two runs from states that differ in errno at most. *)
Definition like (tags : taglist) (s1 s2 : sig_st) : Prop := fst s1 = fst s2 /\ sg_tags (fst s1) = tags.
Definition alike (tags : taglist) (r1 r2 : sig_st * outcome unit) : Prop := like tags (fst r1) (fst r2) /\ snd r1 = snd r2.
Lemma sbind_alike tags r1 r2 k1 k2 : alike tags r1 r2 -> (forall s1 s2, like tags s1 s2 -> alike tags (k1 s1) (k2 s2)) ->
  alike tags (sbind r1 k1) (sbind r2 k2).
Proof.
  destruct r1 as [s1 o1], r2 as [s2 o2]. intros [L E] K. cbn in L, E. subst o2. destruct o1 as [[]|e|u|]; cbn [sbind]; auto; split; auto.
Qed.
Lemma slift_alike {A} tags s1 s2 (m : outcome A) k1 k2 : like tags s1 s2 -> (forall a, m = Ok a -> alike tags (k1 a) (k2 a)) ->
  alike tags (slift s1 m k1) (slift s2 m k2).
Proof. intros L K. destruct m; cbn [slift]; auto; split; auto. Qed.
Lemma tag_like tags n s1 s2 : like tags s1 s2 -> tag n s1 = tag n s2.
Proof. intros [E _]. unfold tag. rewrite E. reflexivity. Qed.
Lemma like_done tags s1 s2 : like tags s1 s2 -> alike tags (done s1) (done s2).
Proof. split; auto. Qed.
Lemma like_perm tags s1 s2 : like tags s1 s2 -> alike tags (fail_perm s1) (fail_perm s2).
Proof. split; auto. Qed.
Lemma like_upd tags f s1 s2 : like tags s1 s2 -> (forall g, sg_tags (f g) = sg_tags g) -> like tags (upd f s1) (upd f s2).
Proof. intros [E T] F. unfold like, upd. cbn [fst]. rewrite E, F. split; auto. rewrite <- E. auto. Qed.
Lemma like_errno tags g1 g2 e1 e2 e1' e2' : like tags (g1, e1) (g2, e2) -> like tags (g1, e1') (g2, e2').
Proof. intros X. exact X. Qed.
Ltac lk := first [apply like_done | apply like_perm]; try assumption;
  repeat (apply like_upd; [|reflexivity]); try assumption.

Lemma parse_rest_alike C strict now name tags s1 s2 : V tags "l" = None -> like tags s1 s2 ->
  alike tags (parse_rest C strict now name s1) (parse_rest C strict now name s2).
Proof.
  intros NL L0. unfold parse_rest.
  apply sbind_alike; [|clear s1 s2 L0; intros s1 s2 L0].
  { unfold parse_arc. apply slift_alike; auto. intros a _. destruct (beqb _ _); lk. }
  apply sbind_alike; [|clear s1 s2 L0; intros s1 s2 L0].
  { unfold parse_d. rewrite (tag_like _ "d" _ _ L0). destruct (tag "d" s2); [|lk]. apply slift_alike; [|intros a _; lk]. apply like_upd; auto. }
  apply sbind_alike; [|clear s1 s2 L0; intros s1 s2 L0].
  { unfold parse_v. rewrite (tag_like _ "v" _ _ L0), (proj1 L0). destruct (sg_arc _); [lk|]. destruct (tag "v" s2); [|lk]. destruct (beqb _ _); lk. }
  apply sbind_alike; [|clear s1 s2 L0; intros s1 s2 L0].
  { unfold parse_a. rewrite (tag_like _ "a" _ _ L0). destruct (tag "a" s2); [|lk]. repeat (destruct (beqb _ _); [lk|]). lk. }
  apply sbind_alike; [|clear s1 s2 L0; intros s1 s2 L0].
  { unfold parse_b. rewrite (tag_like _ "b" _ _ L0). destruct (tag "b" s2) as [e|]; [|lk]. destruct (te_value e); [lk|]. apply slift_alike; [auto|intros x _; lk]. }
  apply sbind_alike; [|clear s1 s2 L0; intros s1 s2 L0].
  { unfold parse_bh. rewrite (tag_like _ "bh" _ _ L0). destruct (tag "bh" s2) as [e|]; [|lk]. apply slift_alike; [auto|intros x _; lk]. }
  apply sbind_alike; [|clear s1 s2 L0; intros s1 s2 L0].
  { unfold parse_c. rewrite (tag_like _ "c" _ _ L0). destruct (tag "c" s2) as [e|]; [|lk].
    destruct (match find_char _ _ with None => _ | Some _ => _ end) as [x y]. destruct (mode_of x); [|lk]. destruct (mode_of y); lk. }
  apply sbind_alike; [|clear s1 s2 L0; intros s1 s2 L0].
  { unfold parse_h. rewrite (tag_like _ "h" _ _ L0). destruct (tag "h" s2) as [e|]; [|lk]. apply slift_alike; [auto|intros x _]. destruct (existsb _ _); lk. }
  apply sbind_alike; [|clear s1 s2 L0; intros s1 s2 L0].
  { unfold parse_i. rewrite (tag_like _ "i" _ _ L0), (proj1 L0). destruct (sg_arc _).
    - destruct (tag "i" s2) as [e|]; [|lk]. destruct (strtoul _) as [[n r] er]. cbv zeta.
      assert (LL : forall e1 e2, like tags (set_instance n (fst s2), e1) (set_instance n (fst s2), e2)).
      { intros e1 e2. split; auto. cbn. destruct L0 as [X Y]. rewrite <- X. exact Y. }
      destruct (_ || _); lk; apply LL.
    - destruct (tag "i" s2) as [e|]; [|lk]. apply slift_alike; auto. intros mail _. destruct (find_char _ _); [|lk].
      cbv zeta. apply slift_alike; [apply like_upd; auto|]. intros a _. destruct (_ || _); lk. }
  apply sbind_alike; [|clear s1 s2 L0; intros s1 s2 L0].
  { unfold parse_l. assert (T : tag "l" s2 = None).
    { rewrite <- (tag_like _ "l" _ _ L0). unfold tag. rewrite (proj2 L0). unfold V in NL. destruct (GetTag _ _); [discriminate|auto]. }
    rewrite (tag_like _ "l" _ _ L0), T. lk. }
  apply sbind_alike; [|clear s1 s2 L0; intros s1 s2 L0].
  { unfold parse_q. rewrite (tag_like _ "q" _ _ L0). destruct (tag "q" s2) as [e|]; [|lk]. destruct (beqb _ _); lk. }
  apply sbind_alike; [|clear s1 s2 L0; intros s1 s2 L0].
  { unfold parse_s. rewrite (tag_like _ "s" _ _ L0). destruct (tag "s" s2) as [e|]; lk. }
  unfold parse_x. rewrite (tag_like _ "x" _ _ L0). destruct (tag "x" s2) as [e|]; [|lk]. destruct (strtol _) as [v er]. cbv zeta.
  assert (LL : forall e1 e2, like tags (fst s1, e1) (fst s2, e2)) by (intros e1 e2; exact L0).
  destruct (_ <? _)%Z; lk; apply LL.
Qed.

(** Without l= the result does not depend on errno. *)
Lemma parse_history_free C strict now h e1 e2 l : field_tags h l -> lacks l "l" ->
  let r1 := Signature_Parse C strict now h (new_signature, e1) in let r2 := Signature_Parse C strict now h (new_signature, e2) in
  fst (fst r1) = fst (fst r2) /\ snd r1 = snd r2.
Proof.
  intros FT NL. cbv zeta. destruct (field_tags_parse h l FT) as (tags & PT & HV & LV & G).
  change (Signature_Parse C strict now h (new_signature, e1)) with (do s1 <- parse_tags h (new_signature, e1) ;; parse_rest C strict now (h_name h) s1).
  change (Signature_Parse C strict now h (new_signature, e2)) with (do s1 <- parse_tags h (new_signature, e2) ;; parse_rest C strict now (h_name h) s1).
  unfold parse_tags, substr_from. destruct (Nat.leb _ _); [|split; reflexivity]. cbn [slift fst].
  change (sg_tags new_signature) with (@nil (bytes * tag_entry)). rewrite PT. cbn [sbind].
  assert (A : alike tags (parse_rest C strict now (h_name h) (upd (set_tags tags) (new_signature, e1)))
                        (parse_rest C strict now (h_name h) (upd (set_tags tags) (new_signature, e2)))).
  { apply parse_rest_alike; [apply LV; auto|]. split; reflexivity. }
  destruct A as [[A _] B]. auto.
Qed.

(** Which fields set errno: those with a number out of range. *)
Definition sets_errno (h : header) : Prop :=
  exists l n v neg m, field_tags h l /\ In n ["i"; "l"; "x"]%string /\ has l n v /\ starts_number v neg m /\ (9223372036854775808 <= m)%N.

Definition quiet (Q : Prop) (tags : taglist) (e0 : bool) (r : sig_st * outcome unit) : Prop :=
  sg_tags (fst (fst r)) = tags /\ (snd (fst r) = true -> e0 = true \/ Q).
Lemma sbind_quiet Q tags e0 r k : quiet Q tags e0 r ->
  (forall s, sg_tags (fst s) = tags -> (snd s = true -> e0 = true \/ Q) -> quiet Q tags e0 (k s)) -> quiet Q tags e0 (sbind r k).
Proof. destruct r as [s o]. intros [T H] K. cbn in T, H. destruct o as [[]|e|u|]; cbn [sbind]; auto; split; auto. Qed.
Lemma slift_quiet {A} Q tags e0 s (m : outcome A) k : sg_tags (fst s) = tags -> (snd s = true -> e0 = true \/ Q) ->
  (forall a, m = Ok a -> quiet Q tags e0 (k a)) -> quiet Q tags e0 (slift s m k).
Proof. intros T H K. destruct m; cbn [slift]; auto; split; auto. Qed.
Lemma quiet_now Q tags e0 s o : sg_tags (fst s) = tags -> (snd s = true -> e0 = true \/ Q) -> quiet Q tags e0 (s, o).
Proof. split; auto. Qed.
Ltac qt := apply quiet_now; assumption.

Lemma strtoul_erange v n rest : tag_value v -> strtoul v = (n, rest, true) -> exists neg m, starts_number v neg m /\ (9223372036854775808 <= m)%N.
Proof.
  intros T U. destruct (strtoul_spec v _ _ _ T U) as [(neg & m & t & E & SN & R & _ & B)|(_ & _ & E & _)]; [|discriminate].
  exists neg, m. split. { exists t, rest. auto. } unfold ULONG_MAX in B. lia.
Qed.
Lemma strtol_erange v n : tag_value v -> strtol v = (n, true) -> exists neg m, starts_number v neg m /\ (9223372036854775808 <= m)%N.
Proof.
  intros T. unfold strtol. rewrite (tag_value_c_str v T). pose proof (strto_scan_spec v T) as SC.
  destruct (strto_scan v) as [[[neg m] r]|]; [|discriminate]. destruct SC as (t & E & SN & R). intros U.
  exists neg, m. split. { exists t, r. auto. }
  cbv zeta in U. destruct (Z.ltb_spec LONG_MAX (if neg then - Z.of_N m else Z.of_N m)) as [B|B].
  - unfold LONG_MAX in B. destruct neg; lia.
  - destruct (Z.ltb_spec (if neg then - Z.of_N m else Z.of_N m) LONG_MIN) as [B2|B2]; [|discriminate].
    unfold LONG_MIN in B2. destruct neg; lia.
Qed.

Lemma parse_rest_quiet C strict now name tags e0 s : good_tags tags -> sg_tags (fst s) = tags -> (snd s = true -> e0 = true) ->
  quiet (exists n v neg m, In n ["i"; "l"; "x"]%string /\ V tags n = Some v /\ starts_number v neg m /\ (9223372036854775808 <= m)%N) tags e0
    (parse_rest C strict now name s).
Proof.
  intros G T H0. set (Q := exists n v neg m, _). assert (H : snd s = true -> e0 = true \/ Q) by auto. clear H0. unfold parse_rest.
  assert (TV : forall n s e, sg_tags (fst s) = tags -> tag n s = Some e -> V tags n = Some (te_value e)).
  { intros n s' e E K. unfold tag in K. rewrite E in K. unfold V. rewrite K. reflexivity. }
  apply sbind_quiet; [|clear s T H; intros s T H].
  { unfold parse_arc. apply slift_quiet; auto. intros a _. destruct (beqb _ _); qt. }
  apply sbind_quiet; [|clear s T H; intros s T H].
  { unfold parse_d. destruct (tag "d" s); [|qt]. apply slift_quiet; auto. intros a _. qt. }
  apply sbind_quiet; [|clear s T H; intros s T H].
  { unfold parse_v. destruct (sg_arc _); [qt|]. destruct (tag "v" s); [|qt]. destruct (beqb _ _); qt. }
  apply sbind_quiet; [|clear s T H; intros s T H].
  { unfold parse_a. destruct (tag "a" s); [|qt]. repeat (destruct (beqb _ _); [qt|]). qt. }
  apply sbind_quiet; [|clear s T H; intros s T H].
  { unfold parse_b. destruct (tag "b" s) as [e|]; [|qt]. destruct (te_value e); [qt|]. apply slift_quiet; auto. intros x _. qt. }
  apply sbind_quiet; [|clear s T H; intros s T H].
  { unfold parse_bh. destruct (tag "bh" s) as [e|]; [|qt]. apply slift_quiet; auto. intros x _. qt. }
  apply sbind_quiet; [|clear s T H; intros s T H].
  { unfold parse_c. destruct (tag "c" s) as [e|]; [|qt].
    destruct (match find_char _ _ with None => _ | Some _ => _ end) as [x y]. destruct (mode_of x); [|qt]. destruct (mode_of y); qt. }
  apply sbind_quiet; [|clear s T H; intros s T H].
  { unfold parse_h. destruct (tag "h" s) as [e|]; [|qt]. apply slift_quiet; auto. intros x _. cbv zeta. destruct (existsb _ _); qt. }
  apply sbind_quiet; [|clear s T H; intros s T H].
  { unfold parse_i. destruct (sg_arc _).
    - destruct (tag "i" s) as [e|] eqn:E; [|qt]. destruct (strtoul (te_value e)) as [[n r] er] eqn:U. cbv zeta.
      assert (LL : snd s || er = true -> e0 = true \/ Q).
      { rewrite orb_true_iff. intros [X| ->]; auto. right. pose proof (TV _ _ _ T E) as VE.
        destruct (strtoul_erange _ _ _ (G _ _ VE) U) as (neg & m & SN & B). exists "i"%string, (te_value e), neg, m. cbn. auto. }
      destruct ((n <? 1) || (50 <? n))%N; apply quiet_now; auto.
    - destruct (tag "i" s) as [e|]; [|qt]. apply slift_quiet; auto. intros mail _. destruct (find_char _ _); [|qt].
      cbv zeta. apply slift_quiet; auto. intros a _. destruct (_ || _); qt. }
  apply sbind_quiet; [|clear s T H; intros s T H].
  { unfold parse_l. destruct (tag "l" s) as [e|] eqn:E; [|qt]. destruct (Nat.ltb _ _); [qt|]. destruct (strtoul (te_value e)) as [[n r] er] eqn:U. cbv zeta.
    assert (LL : snd s || er = true -> e0 = true \/ Q).
    { rewrite orb_true_iff. intros [X| ->]; auto. right. pose proof (TV _ _ _ T E) as VE.
      destruct (strtoul_erange _ _ _ (G _ _ VE) U) as (neg & m & SN & B). exists "l"%string, (te_value e), neg, m. cbn. auto. }
    cbn [snd]. destruct (snd s || er); [apply quiet_now; auto|]. destruct (_ <=? _)%N; [apply quiet_now; auto|]. destruct r; apply quiet_now; auto. }
  apply sbind_quiet; [|clear s T H; intros s T H].
  { unfold parse_q. destruct (tag "q" s) as [e|]; [|qt]. destruct (beqb _ _); qt. }
  apply sbind_quiet; [|clear s T H; intros s T H].
  { unfold parse_s. destruct (tag "s" s) as [e|]; qt. }
  unfold parse_x. destruct (tag "x" s) as [e|] eqn:E; [|qt]. destruct (strtol (te_value e)) as [v er] eqn:U. cbv zeta.
  assert (LL : snd s || er = true -> e0 = true \/ Q).
  { rewrite orb_true_iff. intros [X| ->]; auto. right. pose proof (TV _ _ _ T E) as VE.
    destruct (strtol_erange _ _ (G _ _ VE) U) as (neg & m & SN & B). exists "x"%string, (te_value e), neg, m. cbn. auto 6. }
  destruct (_ <? _)%Z; apply quiet_now; auto.
Qed.

Definition errno_after (C : crypto) (strict : bool) (e : bool) (p : Z * header) : bool :=
  snd (fst (Signature_Parse C strict (fst p) (snd p) (new_signature, e))).
Lemma parse_quiet C strict now h : ~ sets_errno h -> errno_after C strict false (now, h) = false.
Proof.
  intros N. unfold errno_after. cbn [fst snd].
  change (Signature_Parse C strict now h (new_signature, false)) with (do s1 <- parse_tags h (new_signature, false) ;; parse_rest C strict now (h_name h) s1).
  unfold parse_tags, substr_from. destruct (Nat.leb_spec (h_voff h) (length (h_text h))) as [L|L]; [|reflexivity]. cbn [slift fst].
  change (sg_tags new_signature) with (@nil (bytes * tag_entry)).
  destruct (TagList_Parse [] (skipn (h_voff h) (h_text h))) as [tags [[]|e|u|]] eqn:P; try reflexivity. cbn [sbind].
  destruct (parse_rest_quiet C strict now (h_name h) tags false (upd (set_tags tags) (new_signature, false)) (tags_good _ _ P) eq_refl ltac:(auto)) as [_ Q].
  destruct (snd (fst (parse_rest _ _ _ _ _))); auto. destruct (Q eq_refl) as [?|(n & v & neg & m & I & E & SN & B)]; [discriminate|].
  destruct N. destruct (tags_V _ _ P) as (l & R & ND & HV & _). exists l, n, v, neg, m. split. { split; auto. } split; auto. split; auto. apply HV; auto.
Qed.
Lemma parse_quiet_history C strict hist : Forall (fun p => ~ sets_errno (snd p)) hist -> fold_left (errno_after C strict) hist false = false.
Proof. induction 1 as [|[now h] hist H F IH]; auto. cbn [fold_left]. rewrite parse_quiet; auto. Qed.

(** ** Concrete fields *)
Lemma field_tags_nv h tags : h_voff h <= length (h_text h) -> TagList_Parse [] (skipn (h_voff h) (h_text h)) = (tags, Ok tt) ->
  field_tags h (nv tags).
Proof.
  intros L P. destruct (TagList_Parse_cases [] (skipn (h_voff h) (h_text h))) as [(ents & P' & G & FR & _)|((t & P') & _)]; rewrite P in P'; [|discriminate].
  injection P' as ->. split; auto. split; auto. apply FR.
Qed.
Definition dkim_field (v : string) : header := mkHeader (str "DKIM-Signature") (str "DKIM-Signature:" ++ str v) 15.
Definition arc_field (v : string) : header := mkHeader (str "ARC-Message-Signature") (str "ARC-Message-Signature:" ++ str v) 22.
Definition tags_of (h : header) : list (bytes * bytes) := nv (fst (TagList_Parse [] (skipn (h_voff h) (h_text h)))).
Definition base_sig : string := "v=1; a=rsa-sha256; c=relaxed; d=Example.com; s=sel; h=Subject:From; bh=YQ==; b=Y g==".
Definition base_arc : string := "i=2; a=ed25519-sha256; c=simple/relaxed; d=Example.com; s=sel; h=Subject:From; bh=YQ==; b=Y g==".
Definition result (h : header) (e : bool) (now : Z) (C : crypto) := Signature_Parse C true now h (new_signature, e).

Lemma parse_depends_on_history C : exists h1 h2 now,
  snd (result h2 false now C) = Ok tt /\ snd (result h2 (errno_after C true false (now, h1)) now C) = perm.
Proof.
  exists (dkim_field (base_sig ++ "; x=99999999999999999999")), (dkim_field (base_sig ++ "; l=5")), 1%Z.
  assert (X : errno_after C true false (1%Z, dkim_field (base_sig ++ "; x=99999999999999999999")) = true) by (vm_compute; reflexivity).
  rewrite X. split; vm_compute; reflexivity.
Qed.
Definition limit_taken (C : crypto) (v : bytes) (n : N) : Prop := exists h l, field_tags h l /\ has l "l" v /\
  let r := Signature_Parse C true 1 h (new_signature, false) in
  snd r = Ok tt /\ sg_limit (fst (fst r)) = true /\ sg_size (fst (fst r)) = n.
Lemma odd_limits C : limit_taken C [] 0 /\ limit_taken C (str "+5") 5 /\ limit_taken C (str "-18446744073709551615") 1.
Proof.
  split; [|split].
  - exists (dkim_field (base_sig ++ "; l=")). eexists.
    split; [apply field_tags_nv; [apply Nat.leb_le; reflexivity|vm_compute; reflexivity]|].
    split; [vm_compute; auto 20|]. vm_compute. auto.
  - exists (dkim_field (base_sig ++ "; l=+5")). eexists.
    split; [apply field_tags_nv; [apply Nat.leb_le; reflexivity|vm_compute; reflexivity]|].
    split; [vm_compute; auto 20|]. vm_compute. auto.
  - exists (dkim_field (base_sig ++ "; l=-18446744073709551615")). eexists.
    split; [apply field_tags_nv; [apply Nat.leb_le; reflexivity|vm_compute; reflexivity]|].
    split; [vm_compute; auto 20|]. vm_compute. auto.
Qed.
