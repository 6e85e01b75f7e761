(** Signatures and key records that follow the RFC. *)
From Verif Require Import Bytes Outcome Canonicalization Util MailParser Crypto Base64 Signature QuotedPrintable Tokenizer
  SpecText SpecTags SpecCanon SpecVerify SpecSig SpecParse SpecRfc BytesFacts TagListFacts ListFacts ListWide QPFacts SigProps SigExact.

(** ** Tag lists *)
Lemma FWS_lwsp w : FWS w -> Forall LWSP w.
Proof.
  intros [v F _|a b Fa Fb _].
  - eapply Forall_impl; [|exact F]. unfold WSP, LWSP. tauto.
  - apply Forall_app. split; [eapply Forall_impl; [|exact Fa]; unfold WSP, LWSP; tauto|]. apply Forall_cons; [right; right; left; reflexivity|].
    apply Forall_cons; [right; right; right; reflexivity|]. eapply Forall_impl; [|exact Fb]. unfold WSP, LWSP. tauto.
Qed.
Lemma opt_lwsp w : opt_FWS w -> Forall LWSP w.
Proof. intros [->|F]; [constructor|apply FWS_lwsp; auto]. Qed.
Lemma FWSs_lwsp w : FWSs w -> Forall LWSP w.
Proof. induction 1; [constructor|]. apply Forall_app. split; auto. apply FWS_lwsp. auto. Qed.
Lemma rfc_name_tag n : rfc_name n -> tag_name n.
Proof.
  intros [c r A F]. split; [discriminate|]. constructor.
  - destruct A; [left; auto|right; left; auto].
  - eapply Forall_impl; [|exact F]. unfold ALNUMPUNC, ALPHA, DIGIT, name_byte. tauto.
Qed.
Lemma VALCHAR_value c : VALCHAR c -> value_byte c.
Proof.
  unfold VALCHAR, value_byte, printable, between. intros H. split; [lia|]. intros ->. change (code SEMI) with 59%N in H. lia.
Qed.
Lemma last_app P (a b : bytes) : b <> [] -> last_ok P b -> last_ok P (a ++ b).
Proof.
  unfold last_ok. intros N L. rewrite rev_app_distr. destruct (rev b) eqn:E; [|exact L].
  apply (f_equal (@rev _)) in E. rewrite rev_involutive in E. contradiction.
Qed.
Lemma Forall_last (P : ascii -> Prop) v : Forall P v -> last_ok P v.
Proof. intros F. unfold last_ok. apply Forall_rev in F. destruct (rev v); [exact I|]. inversion F; auto. Qed.
Lemma tvals_value v : rfc_tvals v -> v <> [] /\ tag_value v.
Proof.
  induction 1 as [v N F|v w r N F FW NW R (NR & A & B & D)].
  - split; auto. assert (F' : Forall value_byte v) by (eapply Forall_impl; [|exact F]; apply VALCHAR_value).
    split; [eapply Forall_impl; [|exact F']; auto|]. split; [destruct v; [exact I|inversion F'; auto]|apply Forall_last; auto].
  - assert (F' : Forall value_byte v) by (eapply Forall_impl; [|exact F]; apply VALCHAR_value).
    split; [destruct v; [contradiction|discriminate]|]. split; [|split].
    + apply Forall_app. split; [eapply Forall_impl; [|exact F']; auto|]. apply Forall_app. split; auto.
      eapply Forall_impl; [|apply FWSs_lwsp; exact FW]. auto.
    + destruct v; [contradiction|]. inversion F'; auto.
    + rewrite app_assoc. apply last_app; auto.
Qed.
Lemma rfc_value_tag v : rfc_value v -> tag_value v.
Proof. intros [->|R]; [split; [constructor|split; exact I]|]. apply tvals_value. auto. Qed.
Lemma specs_rendered l t : rfc_specs l t -> rendered_tags l t.
Proof.
  induction 1 as [x t []|x t w [] O|x t l r [] R IH].
  - apply rt_last; auto using opt_lwsp, rfc_name_tag, rfc_value_tag.
  - replace ((w1 ++ n ++ w2 ++ EQUALS :: w3 ++ v ++ w4) ++ SEMI :: w) with (w1 ++ n ++ w2 ++ EQUALS :: w3 ++ v ++ w4 ++ SEMI :: w)
      by (rewrite <- !app_assoc; cbn [app]; rewrite <- !app_assoc; reflexivity).
    apply rt_more; auto using opt_lwsp, rfc_name_tag, rfc_value_tag. apply rt_none. auto using opt_lwsp.
  - replace ((w1 ++ n ++ w2 ++ EQUALS :: w3 ++ v ++ w4) ++ SEMI :: r) with (w1 ++ n ++ w2 ++ EQUALS :: w3 ++ v ++ w4 ++ SEMI :: r)
      by (rewrite <- !app_assoc; cbn [app]; rewrite <- !app_assoc; reflexivity).
    apply rt_more; auto using opt_lwsp, rfc_name_tag, rfc_value_tag.
Qed.
Lemma tag_unique (l : list (bytes * bytes)) n v v' : NoDup (map fst l) -> In (n, v) l -> In (n, v') l -> v = v'.
Proof.
  induction l as [|[a b] l IH]; [intros _ []|]. cbn [map fst]. intros ND I I'. inversion ND as [|? ? NI ND']. subst.
  destruct I as [E|I], I' as [E'|I'].
  - congruence.
  - injection E as -> ->. destruct NI. apply (in_map fst) in I'. exact I'.
  - injection E' as -> ->. destruct NI. apply (in_map fst) in I. exact I.
  - auto.
Qed.
Lemma tag_or (l : list (bytes * bytes)) n : (exists v, tag l n v) \/ no_tag l n.
Proof.
  unfold tag, no_tag. induction l as [|[a b] l IH]; [right; intros []|]. destruct (list_eq_dec ascii_dec a (str n)) as [->|N].
  - left. exists b. left. reflexivity.
  - destruct IH as [(v & I)|NI]; [left; exists v; right; auto|]. right. intros [E|I]; auto.
Qed.

(** ** Lists *)
Lemma opt_FWSs w : opt_FWS w -> FWSs w.
Proof. intros [->|F]; [constructor|]. rewrite <- (app_nil_r w). constructor; [auto|constructor]. Qed.
Definition plain_byte (c : ascii) : Prop := ~ WSP c /\ c <> CR /\ c <> COLON.
Lemma plain_item v : v <> [] -> Forall plain_byte v -> list_item v.
Proof.
  intros N F. rewrite Forall_forall in F. split; auto. split; [intros I; apply F in I; unfold plain_byte in I; tauto|].
  split; [intros I; apply F in I; unfold plain_byte in I; tauto|]. split.
  - destruct v; [exact I|]. apply F. left. reflexivity.
  - apply Forall_last. apply Forall_forall. intros c I. apply F. auto.
Qed.
Lemma rfc_list_ne P vs t : rfc_list P vs t -> vs <> [].
Proof. intros []; discriminate. Qed.
Lemma rfc_list_rendered (P : bytes -> Prop) vs t : (forall v, P v -> v <> [] /\ Forall plain_byte v) -> rfc_list P vs t -> rendered_list vs t.
Proof.
  intros H L. assert (X : forall w, opt_FWS w -> rendered_list vs (w ++ t)).
  { induction L as [v P1|v w1 w2 vs r P1 W1 W2 R IH]; intros w W; destruct (H v P1) as [N F].
    - replace (w ++ v) with (w ++ v ++ []) by (rewrite app_nil_r; reflexivity). apply rl_last; auto using opt_FWSs, plain_item. constructor.
    - apply rl_more; auto using opt_FWSs, plain_item. eapply rfc_list_ne; eauto. }
  specialize (X [] (or_introl eq_refl)). exact X.
Qed.
Lemma hdr_plain n : hdr_name n -> n <> [] /\ Forall plain_byte n.
Proof.
  intros [N F]. split; auto. eapply Forall_impl; [|exact F]. intros c. unfold plain_byte, between, WSP. intros H.
  repeat split; [intros [->| ->]|intros ->|intros ->]; cbv [SP HT CR COLON] in H; rewrite ?code_chr in H; lia.
Qed.

(** ** Numbers *)
Lemma dec_bound v : Forall DIGIT v -> (dec_value v < 10 ^ N.of_nat (length v))%N.
Proof.
  unfold dec_value. intros F. enough (X : forall a, (fold_left (fun a c => 10 * a + (code c - 48)) v a < (a + 1) * 10 ^ N.of_nat (length v))%N).
  { specialize (X 0%N). rewrite N.mul_1_l in X. exact X. }
  induction F as [|c v D F IH]; intros a; cbn [fold_left length].
  - cbn. lia.
  - specialize (IH (10 * a + (code c - 48))%N). rewrite Nat2N.inj_succ, N.pow_succ_r'. unfold DIGIT, between in D.
    eapply N.lt_le_trans; [exact IH|]. rewrite N.mul_assoc. apply N.mul_le_mono_r. lia.
Qed.
Lemma number_digits n v : number n v -> digits v.
Proof. intros (N & F & _). split; auto. Qed.
Lemma number_time n v : number n v -> n <= 12 -> time_value v (Z.of_N (dec_value v)) false.
Proof.
  intros NU L. pose proof (starts_digits v (number_digits _ _ NU)) as S. apply (tv_number v false (dec_value v) S). cbn [l_value].
  destruct NU as (_ & F & LE). pose proof (dec_bound v F) as B. assert (10 ^ N.of_nat (length v) <= 10 ^ 12)%N by (apply N.pow_le_mono_r; lia).
  change (10 ^ 12)%N with 1000000000000%N in H. lia.
Qed.
Lemma limit_digits v n : digits v -> limit_value v n -> n = dec_value v.
Proof.
  intros D L. destruct L as [|v neg m S B]; [destruct D; contradiction|].
  assert (A : starts_number v neg m) by (exists v, []; rewrite app_nil_r; split; [reflexivity|split; [exact S|exact I]]).
  destruct (starts_fun _ _ _ _ _ A (starts_digits v D)) as [-> ->]. reflexivity.
Qed.

(** ** Names *)
Lemma ldh_at : Forall ldh [AT] -> False.
Proof.
  intros F. inversion F as [|? ? [[[|]|]|] ]; subst; cbv [ALPHA DIGIT between AT] in *; rewrite ?code_chr in *; try lia. discriminate.
Qed.
Lemma dotted_no_at d : selector_name d -> ~ In AT d.
Proof.
  assert (X : forall a, sub_domain a -> ~ In AT a).
  { intros a (_ & F & _) I. rewrite Forall_forall in F. apply ldh_at. constructor; auto. }
  induction 1 as [a S|a r S R IH]; [auto|]. rewrite in_app_iff. intros [I|[E|I]]; [eapply X; eauto|discriminate|auto].
Qed.
Lemma low_at c : low c = AT -> c = AT.
Proof.
  unfold low. destruct (_ && _)%N eqn:E; auto. intros H. apply (f_equal code) in H. apply andb_prop in E as [A B].
  apply N.leb_le in A, B. unfold AT in H. rewrite !code_chr in H by lia. lia.
Qed.
Lemma low_no_at d : ~ In AT d -> ~ In AT (map low d).
Proof. intros N I. apply in_map_iff in I as (c & E & I). apply low_at in E. subst. auto. Qed.
(** A suffix without [AT] lies behind the last one. *)
Lemma behind_at (x y p s : bytes) : x ++ AT :: y = p ++ s -> ~ In AT s -> exists q, y = q ++ s.
Proof.
  revert p. induction x as [|c x IH]; intros [|e p] E N; cbn [app] in E.
  - destruct N. subst. left. reflexivity.
  - injection E as _ ->. eauto.
  - destruct N. subst. right. apply in_or_app. right. left. reflexivity.
  - injection E as _ E. eauto.
Qed.
Lemma first_at (v : bytes) : In AT v -> exists a b, v = a ++ AT :: b /\ ~ In AT a.
Proof.
  induction v as [|c v IH]; [intros []|]. destruct (ascii_dec c AT) as [->|N]; [exists [], v; split; [reflexivity|intros []]|].
  intros [E|I]; [congruence|]. destruct (IH I) as (a & b & -> & NA). exists (c :: a), b. split; [reflexivity|]. intros [E|J]; [congruence|auto].
Qed.
Lemma qp_fun us s d d' : qp_text us s d -> qp_text us s d' -> d = d'.
Proof. intros A B. apply (proj1 (qp_decode_grammar us s)) in A. apply (proj1 (qp_decode_grammar us s)) in B. congruence. Qed.
Lemma a_fun a dg al dg' al' : a_value a dg al -> a_value a dg' al' -> dg = dg' /\ al = al'.
Proof. intros [] H; inversion H; auto. Qed.

(** ** Signatures *)
Lemma dkim_not_arc n : same_name n (str "DKIM-Signature") = true -> same_name n (str "arc-message-signature") = false.
Proof.
  unfold same_name. intros E. apply beqb_eq in E. rewrite E. reflexivity.
Qed.
Lemma base64_ne b : base64string b -> b <> [].
Proof. intros []. discriminate. Qed.
Lemma rfc_taken C now h l dg al d s b bh names : rfc_field now h l dg al d s b bh names -> readable l d -> exists g, taken C now h l false g false.
Proof.
  intros (V & (RS & ND) & DK & R & U) (RQ & RL & RI). destruct R as [a hv Tv Ta Av Tb Bb Tbh Bbh Oc Td Dd Th Lh F Oi Ol Oq Ts Ss Ot Ox].
  assert (EC : exists ch cb, (lacks l "c" /\ ch = SIMPLE /\ cb = SIMPLE) \/ exists c, has l "c" c /\ c_value c ch cb).
  { destruct (tag_or l "c") as [(c & I)|N]; [|exists SIMPLE, SIMPLE; left; auto]. destruct (Oc c I) as (x & y & CV). exists x, y. right. eauto. }
  destruct EC as (ch & cb & EC).
  assert (EI : exists lc md, (lacks l "i" /\ lc = [] /\ md = map low d) \/
    exists i raw, has l "i" i /\ qp_text false i (lc ++ AT :: raw) /\ ~ In AT lc /\ md = map low raw /\ in_domain md (map low d)).
  { destruct (tag_or l "i") as [(i & I)|N]; [|exists [], (map low d); left; auto]. destruct (Oi i I) as (lp & dom & Q & _ & DD & ID).
    destruct (in_dec ascii_dec AT lp) as [IA|NA].
    - destruct (RI i I lp dom Q DD IA) as (p & EP). destruct (first_at lp IA) as (x & y & -> & NX). exists x, (map low (y ++ AT :: dom)). right.
      exists i, (y ++ AT :: dom). split; [exact I|]. split; [rewrite <- app_assoc in Q; exact Q|]. split; [exact NX|]. split; [reflexivity|].
      right. exists (map low y ++ AT :: p). rewrite map_app. cbn [map]. rewrite EP, <- app_assoc. reflexivity.
    - exists lp, (map low dom). right. exists i, dom. auto 10. }
  destruct EI as (lc & md & EI).
  assert (EL : exists lim sz, (lacks l "l" /\ lim = false /\ sz = 0%N) \/ exists v, has l "l" v /\ length v <= 76 /\ false = false /\ limit_value v sz /\ (sz < 9223372036854775808)%N /\ lim = true).
  { destruct (tag_or l "l") as [(v & I)|N]; [|exists false, 0%N; left; auto]. exists true, (dec_value v). right. exists v. pose proof (Ol v I) as NU. pose proof (RL v I) as B. cbv beta in B.
    split; [exact I|]. split; [apply NU|]. split; [reflexivity|]. split; [|split; [exact B|reflexivity]].
    apply (lv_number v false (dec_value v)); [apply sn_plain; eapply number_digits; eauto|]. lia. }
  destruct EL as (lim & sz & EL).
  exists (mkSig [] dg al (b64d C (unspaced b)) (b64d C (unspaced bh)) ch cb (map low d) names lc md sz lim s false 0). unfold taken.
  cbn [sg_digest sg_alg sg_b sg_bh sg_chead sg_cbody sg_domain sg_headers sg_local sg_mdomain sg_size sg_limit sg_selector sg_arc sg_instance].
  split; [exists d; auto|]. split; [exact Ts|]. split; [exists a; auto|]. split; [exists b; auto using base64_ne|]. split; [exists bh; auto|].
  split. { exists hv. split; [exact Th|]. split; [|exact F]. apply ValueList_wide. apply ValueList_rendered. eapply rfc_list_rendered; [|exact Lh]. apply hdr_plain. }
  split; [exact EC|]. split. { destruct (tag_or l "q") as [(q & I)|N]; [right; rewrite (RQ q I); exact I|left; exact N]. }
  split; [symmetry; apply dkim_not_arc; exact DK|]. split; [right; split; [reflexivity|]; split; [exact Tv|]; split; [reflexivity|]; exact EI|].
  split; [exact EL|]. destruct (tag_or l "x") as [(x & I)|N]; [|left; auto]. right. exists x, (Z.of_N (dec_value x)), false.
  split; [exact I|]. split; [eapply number_time; [apply Ox; exact I|lia]|]. split; [apply U; exact I|reflexivity].
Qed.
Lemma taken_rfc C now h l dg al d s b bh names g e : rfc_field now h l dg al d s b bh names -> taken C now h l false g e -> readable l d /\
  sg_domain g = map low d /\ sg_selector g = s /\ sg_digest g = dg /\ sg_alg g = al /\ sg_b g = b64d C (unspaced b) /\ sg_bh g = b64d C (unspaced bh) /\
  sg_headers g = names /\ opt_tag l "l" (fun v => sg_limit g = true /\ sg_size g = dec_value v) /\ (no_tag l "l" -> sg_limit g = false) /\
  opt_tag l "i" (fun i => forall lp dom, qp_text false i (lp ++ AT :: dom) -> ~ In AT lp -> sg_local g = lp /\ sg_mdomain g = map low dom) /\
  (no_tag l "i" -> sg_local g = [] /\ sg_mdomain g = map low d) /\ sg_arc g = false.
Proof.
  intros (V & (RS & ND) & DK & R & U) T. destruct R as [a hv Tv Ta Av Tb Bb Tbh Bbh Oc Td Dd Th Lh F Oi Ol Oq Ts Ss Ot Ox].
  destruct T as ((d' & Td' & ED) & Ts' & (a' & Ta' & Av') & (b' & Tb' & _ & EB) & (bh' & Tbh' & EBH) & (hv' & Th' & LW & _) & _ & Q & AR & I & L & _).
  assert (UN : forall n v v', has l n v -> has l n v' -> v = v') by (intros n v v'; apply tag_unique; auto).
  assert (EA : sg_arc g = false) by (rewrite AR; apply dkim_not_arc; exact DK).
  rewrite (UN _ _ _ Td' Td) in ED. rewrite (UN _ _ _ Tb' Tb) in EB. rewrite (UN _ _ _ Tbh' Tbh) in EBH. rewrite (UN _ _ _ Ta' Ta) in Av'. destruct (a_fun _ _ _ _ _ Av' Av) as [EDG EAL].
  rewrite (UN _ _ _ Th' Th) in LW. apply ValueList_wide in LW. rewrite (ValueList_rendered names hv (rfc_list_rendered _ _ _ hdr_plain Lh)) in LW. injection LW as EN.
  destruct I as [(X & _)|(_ & _ & _ & I)]; [congruence|].
  assert (NB : forall n v, has l n v -> lacks l n -> False) by (intros n v H N; apply N; apply (in_map fst) in H; exact H).
  split; [|split; [exact ED|split; [symmetry; eapply UN; eauto|split; [exact EDG|split; [exact EAL|split; [exact EB|split; [exact EBH|split; [auto|]]]]]]]].
  - split; [|split].
    + intros q Iq. destruct Q as [N|Q]; [destruct (NB _ _ Iq N)|]. eapply UN; eauto.
    + intros v Iv. destruct L as [(N & _)|(v' & Iv' & _ & _ & LV & B & _)]; [destruct (NB _ _ Iv N)|]. rewrite (UN _ _ _ Iv' Iv) in LV.
      rewrite (limit_digits v _ (number_digits _ _ (Ol v Iv)) LV) in B. exact B.
    + intros i Ii lp dom QP DD IA. destruct I as [(N & _)|(i' & raw & Ii' & QP' & NA & EM & ID)]; [destruct (NB _ _ Ii N)|].
      rewrite (UN _ _ _ Ii' Ii) in QP'. pose proof (qp_fun _ _ _ _ QP QP') as E. destruct (first_at lp IA) as (x & y & -> & NX).
      assert (XL : x = sg_local g /\ raw = y ++ AT :: dom).
      { rewrite <- app_assoc in E. cbn [app] in E. clear - E NX NA. revert E. generalize (sg_local g) as z, NA. clear NA. induction x as [|c x IH]; intros [|c' z] NA E; cbn [app] in E.
        - injection E as E. auto.
        - injection E as E _. destruct NA. left. congruence.
        - injection E as E _. destruct NX. left. congruence.
        - injection E as E1 E. destruct (IH (fun K => NX (or_intror K)) z (fun K => NA (or_intror K)) E) as [-> ->]. rewrite E1. auto. }
      destruct XL as [_ ->]. rewrite EM, ED in ID. rewrite map_app in ID. cbn [map] in ID. assert (ND' : ~ In AT (map low d)) by (apply low_no_at, dotted_no_at, Dd).
      destruct ID as [EQ|(p & EQ)].
      * destruct ND'. rewrite <- EQ. apply in_or_app. right. left. reflexivity.
      * change (low AT) with AT in EQ. destruct (behind_at _ _ _ _ EQ) as (q & EQ'); [intros [K|K]; [discriminate|auto]|]. exists q. exact EQ'.
  - split; [|split; [|split; [|split; [|exact EA]]]].
    + intros v Iv. destruct L as [(N & _)|(v' & Iv' & _ & _ & LV & B & E)]; [destruct (NB _ _ Iv N)|]. rewrite (UN _ _ _ Iv' Iv) in LV.
      split; [exact E|]. exact (limit_digits v _ (number_digits _ _ (Ol v Iv)) LV).
    + intros N. destruct L as [(_ & E & _)|(v' & Iv' & _)]; [exact E|destruct (NB _ _ Iv' N)].
    + intros i Ii lp dom QP NL. destruct I as [(N & _)|(i' & raw & Ii' & QP' & NA & EM & ID)]; [destruct (NB _ _ Ii N)|].
      rewrite (UN _ _ _ Ii' Ii) in QP'. pose proof (qp_fun _ _ _ _ QP QP') as E. rewrite EM. clear - E NL NA.
      revert E NA. generalize (sg_local g) as z. induction lp as [|c x IH]; intros [|c' z] E NA; cbn [app] in E.
      * injection E as ->. auto.
      * injection E as E _. destruct NA. left. congruence.
      * injection E as E _. destruct NL. left. congruence.
      * injection E as E1 E. destruct (IH (fun K => NL (or_intror K)) z E (fun K => NA (or_intror K))) as [-> ->]. rewrite E1. auto.
    + intros N. destruct I as [(_ & E1 & E2)|(i' & raw & Ii' & _)]; [rewrite E2, ED; auto|destruct (NB _ _ Ii' N)].
Qed.
Lemma plain_field_tags now h l dg al d s b bh names : rfc_field now h l dg al d s b bh names -> field_tags h l.
Proof. intros (V & (RS & ND) & _). split; [exact V|]. split; [apply specs_rendered; exact RS|exact ND]. Qed.
Lemma rfc_exact C now h l dg al d s b bh names : rfc_field now h l dg al d s b bh names ->
  (exists st, Signature_Parse C false now h (new_signature, false) = (st, Ok tt)) <-> readable l d.
Proof.
  intros P. pose proof (plain_field_tags _ _ _ _ _ _ _ _ _ _ P) as FT. split.
  - intros ([g e] & E). assert (T : taken C now h l false (set_tags [] g) e).
    { apply (proj1 (parse_exact C now h false l FT (set_tags [] g) e)). exists (sg_tags g). destruct g. exact E. }
    eapply taken_rfc; eauto.
  - intros R. destruct (rfc_taken C _ _ _ _ _ _ _ _ _ _ P R) as (g & T). destruct (proj2 (parse_exact C now h false l FT g false) T) as (tags & E). eauto.
Qed.
Lemma rfc_getters C now h l dg al d s b bh names g e : rfc_field now h l dg al d s b bh names ->
  Signature_Parse C false now h (new_signature, false) = ((g, e), Ok tt) ->
  sg_domain g = map low d /\ sg_selector g = s /\ sg_digest g = dg /\ sg_alg g = al /\ sg_b g = b64d C (unspaced b) /\ sg_bh g = b64d C (unspaced bh) /\
  sg_headers g = names /\ opt_tag l "l" (fun v => sg_limit g = true /\ sg_size g = dec_value v) /\ (no_tag l "l" -> sg_limit g = false) /\
  opt_tag l "i" (fun i => forall lp dom, qp_text false i (lp ++ AT :: dom) -> ~ In AT lp -> sg_local g = lp /\ sg_mdomain g = map low dom) /\
  (no_tag l "i" -> sg_local g = [] /\ sg_mdomain g = map low d) /\ sg_arc g = false.
Proof.
  intros P E. pose proof (plain_field_tags _ _ _ _ _ _ _ _ _ _ P) as FT. assert (T : taken C now h l false (set_tags [] g) e).
  { apply (proj1 (parse_exact C now h false l FT (set_tags [] g) e)). exists (sg_tags g). destruct g. exact E. }
  eapply taken_rfc in T; [|exact P]. exact (proj2 T).
Qed.
