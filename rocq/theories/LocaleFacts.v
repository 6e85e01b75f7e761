(** Verifying and signing in another locale (for C110). *)
From Verif Require Import Bytes Outcome Stream Tokenizer QuotedPrintable Base64 TagList MailParser Canonicalization Util
  CStdlib Crypto Signature PublicKey SignatoryOptions Signatory Validatory Tool ErrorText BytesFacts SpecText SpecTags SpecMail SpecCanon SpecVerify SpecSig SpecParse SpecKey
  SpecPass SpecStop SpecEight QPFacts TagListFacts HeaderFacts HeaderProps SigFacts SigProps KeyFacts VerifyProps VerifyFacts SelectFacts PassFacts MadeFacts StopFacts EightFacts EightExact EightVerify
  Locale SpecLocale.
From Verif Require Import Outcome.
Local Open Scope string_scope. Local Open Scope list_scope.

Lemma Ok_eq {A} (a b : A) : Ok a = Ok b -> a = b.
Proof. intros E. apply (f_equal (fun x => match x with Ok y => y | _ => a end)) in E. exact E. Qed.

(** ** The "C" locale *)
Lemma c_lower s : lower_str false s = Ok (lower_in c_locale s).
Proof. reflexivity. Qed.
Lemma c_skip s : skip_in c_locale s = skip_isspace s.
Proof. induction s as [|c s IH]; cbn [skip_in skip_isspace]; [reflexivity|]. cbn [l_space c_locale]. rewrite IH. reflexivity. Qed.
Lemma c_scan s : scan_in c_locale s = strto_scan s.
Proof. unfold scan_in, strto_scan. rewrite c_skip. reflexivity. Qed.
Lemma c_ul s : strtoul_in c_locale s = strtoul s.
Proof. unfold strtoul_in, strtoul. rewrite c_scan. reflexivity. Qed.
Lemma c_l s : strtol_in c_locale s = strtol s.
Proof. unfold strtol_in, strtol. rewrite c_scan. reflexivity. Qed.
Lemma c_filter mode t : FilterHeader_in c_locale mode t = FilterHeader false mode t.
Proof. reflexivity. Qed.
Lemma slift_Ok {S A} (s : S) (a : A) k : slift s (Ok a) k = k a.
Proof. reflexivity. Qed.
Lemma sbind_ext {S} (x x' : S * outcome unit) (k k' : S -> S * outcome unit) : x = x' -> (forall s, k s = k' s) -> sbind x k = sbind x' k'.
Proof. intros -> E. destruct x' as [s []]; cbn [sbind]; auto. Qed.
Lemma c_parse C now h st : Signature_Parse_in c_locale C now h st = Signature_Parse C false now h st.
Proof.
  unfold Signature_Parse_in, Signature_Parse.
  repeat (apply sbind_ext; [try reflexivity|intros ?]).
  - unfold parse_i_in, parse_i. destruct (sg_arc (fst s7)).
    + destruct (tag "i" s7) as [e|]; [|reflexivity]. rewrite c_ul. reflexivity.
    + reflexivity.
  - unfold parse_l_in, parse_l. destruct (tag "l" s8) as [e|]; [|reflexivity]. rewrite c_ul. reflexivity.
  - unfold parse_x_in, parse_x. destruct (tag "x" s11) as [e|]; [|reflexivity]. rewrite c_l. reflexivity.
Qed.
Lemma c_key C r p : PublicKey_Parse_in c_locale C r p = PublicKey_Parse C false r p.
Proof.
  unfold PublicKey_Parse_in, PublicKey_Parse. repeat (apply sbind_ext; [try reflexivity|intros ?]). reflexivity.
Qed.
Lemma c_collect w hs : collect false w hs = Ok (collect_in c_locale w hs).
Proof.
  induction hs as [|h hs IH]; [reflexivity|]. cbn [collect]. rewrite c_lower, IH. cbn [obind]. unfold collect_in. cbn [filter]. reflexivity.
Qed.
Lemma c_open ty s : new_validatory_in c_locale ty s = new_validatory false ty s.
Proof.
  unfold new_validatory_in, new_validatory. destruct (parse_all new_message s) as [[m s1]| | |]; cbn [obind]; try reflexivity.
  destruct ty; rewrite ?c_collect; reflexivity.
Qed.
Lemma c_cache hs : forall c, build_cache false hs c = Ok (build_cache_in c_locale hs c).
Proof. induction hs as [|h hs IH]; intros c; [reflexivity|]. cbn [build_cache build_cache_in]. rewrite c_lower. cbn [obind]. apply IH. Qed.
Lemma c_hash mode names : forall c, hash_headers_in c_locale mode names c = hash_headers false mode names c.
Proof.
  induction names as [|n names IH]; intros c; [reflexivity|]. cbn [hash_headers hash_headers_in]. rewrite c_lower. cbn [obind].
  destruct (cache_pop (lower_in c_locale n) c) as [[h c1]|]; [|apply IH]. rewrite c_filter, IH. reflexivity.
Qed.
Lemma c_data h g v : signed_data_in c_locale h g v = signed_data false h g v.
Proof. unfold signed_data_in, signed_data. rewrite c_cache. cbn [obind]. rewrite c_hash. reflexivity. Qed.
Lemma c_try C now res h e v : try_one_in c_locale C now res h e v = try_one C false now res h e v.
Proof.
  unfold try_one_in, try_one, GetSignature_in, GetSignature. rewrite c_parse. destruct (Signature_Parse C false now h (new_signature, e)) as [st []]; try reflexivity.
  destruct (CheckBodyHash C (fst st) v) as [v1 []]; try reflexivity.
  assert (K : GetPublicKey_in c_locale C res (fst st) new_public_key = GetPublicKey C false res (fst st) new_public_key).
  { unfold GetPublicKey_in, GetPublicKey. destruct (res _) as [[[] []]| | |]; cbn [slift]; reflexivity. }
  rewrite K. destruct (GetPublicKey C false res (fst st) new_public_key) as [p []]; try reflexivity.
  unfold CheckSignature_in, CheckSignature. rewrite c_data. reflexivity.
Qed.
Lemma c_heads mode ts hs : sign_headers_in c_locale mode ts hs = sign_headers false mode ts hs.
Proof. induction hs as [|h hs IH]; [reflexivity|]. cbn [sign_headers sign_headers_in]. rewrite c_lower. cbn [obind]. rewrite IH. destruct (lower_in c_locale (h_name h)); reflexivity. Qed.
Lemma c_sigs C o clock hd names bh l : forall n acc, all_sigs_in c_locale C o clock n hd names bh l acc = all_sigs C false o clock n hd names bh l acc.
Proof.
  induction l as [|s l IH]; intros n acc; [reflexivity|]. cbn [all_sigs all_sigs_in].
  change (one_signature_in c_locale C o (clock n) hd names bh s) with (one_signature C false o (clock n) hd names bh s).
  destruct (one_signature C false o (clock n) hd names bh s); cbn [obind]; auto.
Qed.
Lemma c_omap l : omap (lower_str false) l = Ok (map (lower_in c_locale) l).
Proof. induction l as [|n l IH]; [reflexivity|]. cbn [omap map]. rewrite c_lower, IH. reflexivity. Qed.
Lemma c_create C clock o y : CreateSignature_in c_locale C clock o y = CreateSignature C false clock o y.
Proof.
  unfold CreateSignature_in, CreateSignature. destruct (parse_all (y_msg y) (y_file y)) as [[m s]| | |]; try reflexivity.
  destruct (CanonicalizationBody s (o_cbody o) (m_offset m) (o_signlen o) (o_bodylen o)) as [[[chunks ok] s1]| | |]; try reflexivity.
  destruct ok; [|reflexivity]. rewrite !c_omap. cbn [obind]. rewrite c_heads. destruct (sign_headers false _ _ _) as [[hd names]| | |]; cbn [obind]; try reflexivity. rewrite c_sigs. reflexivity.
Qed.

(** ** Plain locales *)
Lemma plain_c : plain c_locale.
Proof.
  intros c. split; [auto|]. intros H. cbn [c_locale l_lower]. revert H.
  assert (X : ((code c <? 128) || (128 <=? code (tolower c)))%N = true) by (revert c; apply byte_sweep; vm_compute; reflexivity).
  intros H. apply orb_true_iff in X as [X|X]; [apply N.ltb_lt in X; lia|apply N.leb_le in X; exact X].
Qed.
Lemma lower_back x : ascii_text (lower x) -> ascii_text x.
Proof.
  induction x as [|c x IH]; intros B; constructor; inversion B as [|a b B1 B2]; subst; [|apply IH; exact B2].
  destruct (N.ltb_spec (code c) 128); [assumption|]. apply (proj2 (plain_c c)) in H. cbn [c_locale l_lower] in H. lia.
Qed.
Section Plain.
Context (L : locale) (PL : plain L).
Lemma p_lower s : ascii_text s -> lower_in L s = lower s.
Proof using PL. induction 1 as [|c s A _ IH]; [reflexivity|]. cbn [lower_in lower map]. f_equal; [apply (proj1 (PL c)); exact A|exact IH]. Qed.
Lemma p_back s : ascii_text (lower_in L s) -> ascii_text s.
Proof using PL.
  induction s as [|c s IH]; intros A; constructor; inversion A as [|x y A1 A2]; subst; [|apply IH; exact A2].
  destruct (N.ltb_spec (code c) 128); [assumption|]. apply (proj2 (PL c)) in H. lia.
Qed.
Lemma p_eq s w : ascii_text w -> beqb (lower_in L s) w = beqb (lower s) w.
Proof using PL.
  intros A. apply eq_true_iff_eq. rewrite !beqb_eq. split; intros <-.
  - symmetry. apply p_lower. apply p_back. exact A.
  - apply p_lower. apply lower_back. exact A.
Qed.
Lemma p_strip s : ascii_text s -> strip_in L s = strip_in c_locale s.
Proof using PL.
  induction 1 as [|c s A _ IH]; [reflexivity|]. unfold strip_in in *. cbn [filter]. rewrite (proj2 (proj1 (PL c) A)), IH. reflexivity.
Qed.
Lemma p_skip s : ascii_text s -> skip_in L s = skip_in c_locale s.
Proof using PL. induction 1 as [|c s A _ IH]; [reflexivity|]. cbn [skip_in]. rewrite (proj2 (proj1 (PL c) A)), IH. reflexivity. Qed.
Lemma c_str_ascii s : ascii_text s -> ascii_text (c_str s).
Proof. induction 1 as [|c s A _ IH]; cbn [c_str]; [constructor|]. destruct (code c =? 0)%N; constructor; auto. Qed.
Lemma p_scan s : ascii_text s -> scan_in L s = scan_in c_locale s.
Proof using PL. intros A. unfold scan_in. rewrite p_skip by exact A. reflexivity. Qed.
Lemma p_ul s : ascii_text s -> strtoul_in L s = strtoul s.
Proof using PL. intros A. rewrite <- c_ul. unfold strtoul_in. rewrite p_scan by (apply c_str_ascii; exact A). reflexivity. Qed.
Lemma p_l s : ascii_text s -> strtol_in L s = strtol s.
Proof using PL. intros A. rewrite <- c_l. unfold strtol_in. rewrite p_scan by (apply c_str_ascii; exact A). reflexivity. Qed.
Lemma p_filter mode t : ~ name_part_eight t -> FilterHeader_in L mode t = FilterHeader false mode t.
Proof using PL.
  intros N. destruct mode; [reflexivity|]. unfold FilterHeader_in, FilterHeader. destruct (find_char COLON t) as [n|] eqn:E; [|reflexivity].
  assert (A : ascii_text (firstn n t)).
  { apply find_char_Some in E as (a & b & -> & <- & NI). rewrite firstn_app_exact. destruct (ascii_dec a) as [A|A]; [exact A|]. destruct N. exists a, b. auto. }
  rewrite p_lower by exact A. reflexivity.
Qed.

(** *** Signature::Parse *)
Definition Inv (st : sig_st) : Prop := good_tags (sg_tags (fst st)) /\ ascii_text (sg_domain (fst st)) /\ sg_mdomain (fst st) = [] /\ sg_local (fst st) = [].
Lemma tag_ascii st n e : good_tags (sg_tags (fst st)) -> tag n st = Some e -> ascii_text (te_value e).
Proof. intros G E. apply eight_seven. exact (good_seven _ _ _ G E). Qed.
Lemma lower_ascii s : ascii_text s -> ascii_text (lower s).
Proof.
  induction 1 as [|c s A _ IH]; constructor; [|exact IH].
  assert (X : ((128 <=? code c) || (code (tolower c) <? 128))%N = true) by (revert c A; intros c _; revert c; apply byte_sweep; vm_compute; reflexivity).
  apply orb_true_iff in X as [X|X]; [apply N.leb_le in X; lia|apply N.ltb_lt in X; exact X].
Qed.
Definition keeps (f f' : sig_st -> sig_st * outcome unit) : Prop := forall st, Inv st -> f' st = f st /\ Inv (fst (f st)).
Lemma inv_upd st st' : sg_tags (fst st') = sg_tags (fst st) -> sg_domain (fst st') = sg_domain (fst st) -> sg_mdomain (fst st') = sg_mdomain (fst st) ->
  sg_local (fst st') = sg_local (fst st) -> Inv st -> Inv st'.
Proof. intros E1 E2 E3 E4 (A & B & X & Y). unfold Inv. rewrite E1, E2, E3, E4. auto. Qed.
Ltac same := eapply inv_upd; [| | | |eassumption]; reflexivity.
Lemma keeps_arc n : keeps (parse_arc false n) (parse_arc_in L n).
Proof using PL.
  intros st I. unfold parse_arc_in, parse_arc. rewrite c_lower, slift_Ok. rewrite p_eq by (repeat constructor).
  change (lower_in c_locale n) with (lower n). split; [reflexivity|]. destruct (beqb (lower n) _); [same|exact I].
Qed.
Lemma keeps_d : keeps (parse_d false) (parse_d_in L).
Proof using PL.
  intros st I. pose proof I as (G & A & M). unfold parse_d_in, parse_d. destruct (tag "d" st) as [e|] eqn:T; [|split; [reflexivity|exact I]].
  pose proof (tag_ascii _ _ _ G T) as AE. rewrite c_lower, slift_Ok. rewrite p_lower by exact AE. split; [reflexivity|].
  split; [exact G|]. split; [apply lower_ascii; exact AE|exact M].
Qed.
Lemma keeps_v : keeps parse_v parse_v.
Proof. intros st I. split; [reflexivity|]. unfold parse_v. destruct (sg_arc _); [exact I|]. destruct (tag _ _); [destruct (beqb _ _)|]; exact I. Qed.
Lemma keeps_a : keeps parse_a parse_a.
Proof. intros st I. split; [reflexivity|]. unfold parse_a. destruct (tag _ _); [|exact I]. destruct (beqb _ _); [same|]. destruct (beqb _ _); [same|]. destruct (beqb _ _); [same|exact I]. Qed.
Lemma keeps_b C : keeps (parse_b C false) (parse_b_in L C).
Proof using PL.
  intros st I. pose proof I as (G & A & M). unfold parse_b_in, parse_b. destruct (tag "b" st) as [e|] eqn:T; [|split; [reflexivity|exact I]].
  pose proof (tag_ascii _ _ _ G T) as AE. destruct (te_value e) as [|c v]; [split; [reflexivity|exact I]|]. rewrite p_strip by exact AE. split; [reflexivity|]. cbn [strip_space andb slift]. same.
Qed.
Lemma keeps_bh C : keeps (parse_bh C false) (parse_bh_in L C).
Proof using PL.
  intros st I. pose proof I as (G & A & M). unfold parse_bh_in, parse_bh. destruct (tag "bh" st) as [e|] eqn:T; [|split; [reflexivity|exact I]].
  pose proof (tag_ascii _ _ _ G T) as AE. rewrite p_strip by exact AE. split; [reflexivity|]. cbn [strip_space andb slift]. same.
Qed.
Lemma keeps_c : keeps parse_c parse_c.
Proof.
  intros st I. split; [reflexivity|]. unfold parse_c. destruct (tag _ _); [|exact I]. destruct (match find_char _ _ with None => _ | Some _ => _ end) as [a b].
  destruct (mode_of a); [|exact I]. destruct (mode_of b); same.
Qed.
Lemma p_from l : existsb (is_from_in L) l = existsb is_from l.
Proof using PL.
  induction l as [|n l IH]; [reflexivity|]. cbn [existsb]. rewrite IH. f_equal. unfold is_from_in, is_from.
  rewrite (p_lower (str "from")) by (repeat constructor). change (lower (str "from")) with (str "from"). apply p_eq. repeat constructor.
Qed.
Lemma keeps_h : keeps parse_h (parse_h_in L).
Proof using PL.
  intros st I. unfold parse_h_in, parse_h. destruct (tag "h" st) as [e|] eqn:T; [|split; [reflexivity|exact I]].
  destruct (ValueList (te_value e)) as [l| | |]; cbn [slift]; try (split; [reflexivity|exact I]). rewrite p_from. split; [reflexivity|]. destruct (existsb is_from l); same.
Qed.

(** i=: the domain behind the "@" may have other bytes. *)
Definition like (m m' : bytes) : Prop := m' = m \/ exists raw, m = lower raw /\ m' = lower_in L raw.
Definition alike (st st' : sig_st) : Prop := ascii_text (sg_domain (fst st)) /\ good_tags (sg_tags (fst st)) /\
  exists md, like (sg_mdomain (fst st)) md /\ st' = upd (set_mail (sg_local (fst st)) md) st.
Definition pair_alike (x x' : sig_st * outcome unit) : Prop := alike (fst x) (fst x') /\ snd x' = snd x.
Lemma upd_same st a b : sg_local (fst st) = a -> sg_mdomain (fst st) = b -> upd (set_mail a b) st = st.
Proof. destruct st as [[] e]. cbn. intros <- <-. reflexivity. Qed.
Lemma eq_alike st : good_tags (sg_tags (fst st)) -> ascii_text (sg_domain (fst st)) -> alike st st.
Proof. intros G A. split; [exact A|]. split; [exact G|]. exists (sg_mdomain (fst st)). split; [left; reflexivity|]. symmetry. apply upd_same; reflexivity. Qed.
Lemma inv_alike st : Inv st -> alike st st.
Proof. intros (G & A & _). apply eq_alike; assumption. Qed.
Lemma sub_same raw d : ascii_text d -> sub_domain (lower_in L raw) d = sub_domain (lower raw) d.
Proof using PL.
  intros A. unfold sub_domain, lower_in, lower. rewrite !map_length. f_equal. rewrite !skipn_map, !(beqb_sym (DOT :: d)). apply p_eq. constructor; [reflexivity|exact A].
Qed.
Lemma alike_i st : Inv st -> pair_alike (parse_i false st) (parse_i_in L st).
Proof using PL.
  intros I. pose proof I as (G & A & M & LO). unfold parse_i_in, parse_i. destruct (sg_arc (fst st)).
  - destruct (tag "i" st) as [e|] eqn:T; [|split; [apply inv_alike; exact I|reflexivity]]. rewrite p_ul by (eapply tag_ascii; eauto).
    destruct (strtoul (te_value e)) as [[n r] er]. destruct ((n <? 1) || (50 <? n))%N; (split; [apply inv_alike; same|reflexivity]).
  - destruct (tag "i" st) as [e|] eqn:T.
    + destruct (qp_decode (te_value e) false) as [mail| | |]; cbn [slift]; try (split; [apply inv_alike; exact I|reflexivity]).
      destruct (find_char AT mail) as [p|]; [|split; [apply inv_alike; exact I|reflexivity]]. rewrite c_lower, slift_Ok. change (lower_in c_locale) with lower.
      rewrite p_eq by exact A. rewrite sub_same by exact A.
      destruct (beqb _ _ || _); (split; [split; [exact A|]; split; [exact G|]; exists (lower_in L (skipn (S p) mail)); split; [right; exists (skipn (S p) mail); split; reflexivity|reflexivity]|reflexivity]).
    + split; [|reflexivity]. apply eq_alike; [exact G|exact A].
Qed.
Definition moves (f f' : sig_st -> sig_st * outcome unit) : Prop := forall st st', alike st st' -> pair_alike (f st) (f' st').
Lemma alike_upd st st' f : alike st st' -> (forall g a b, f (set_mail a b g) = set_mail a b (f g)) ->
  (forall g, sg_domain (f g) = sg_domain g /\ sg_tags (f g) = sg_tags g /\ sg_mdomain (f g) = sg_mdomain g /\ sg_local (f g) = sg_local g) ->
  forall e, alike (f (fst st), e) (f (fst st'), e).
Proof.
  intros (A & G & md & LK & ->) C1 C2 e. destruct (C2 (fst st)) as (E1 & E2 & E3 & E4). unfold alike. cbn [fst]. rewrite E1, E2, E3, E4.
  split; [exact A|]. split; [exact G|]. exists md. split; [exact LK|]. unfold upd. cbn [fst snd]. rewrite C1. reflexivity.
Qed.
Lemma alike_tag st st' n : alike st st' -> tag n st' = tag n st.
Proof. intros (_ & _ & md & _ & ->). reflexivity. Qed.
Lemma alike_errno st st' : alike st st' -> snd st' = snd st.
Proof. intros (_ & _ & md & _ & ->). reflexivity. Qed.
Lemma alike_set st st' e : alike st st' -> alike (fst st, e) (fst st', e).
Proof. intros K. apply (alike_upd st st' (fun g => g) K); [reflexivity|auto]. Qed.
Lemma moves_l : moves parse_l (parse_l_in L).
Proof using PL.
  intros st st' K. unfold parse_l_in, parse_l. rewrite (alike_tag _ _ _ K). destruct (tag "l" st) as [e|] eqn:T; [|split; [exact K|reflexivity]].
  destruct (Nat.ltb _ _); [split; [exact K|reflexivity]|]. rewrite p_ul by (eapply tag_ascii; [apply K|eauto]). destruct (strtoul (te_value e)) as [[n r] er]. cbn [snd].
  rewrite (alike_errno _ _ K). pose proof (alike_set st st' (snd st || er) K) as K1. destruct (snd st || er)%bool; [split; [exact K1|reflexivity]|].
  destruct (_ <=? _)%N; [split; [exact K1|reflexivity]|]. destruct r; [|split; [exact K1|reflexivity]].
  split; [|reflexivity]. apply (alike_upd st st' (set_size n true) K); [reflexivity|intros g; repeat split].
Qed.
Lemma moves_q : moves parse_q parse_q.
Proof. intros st st' K. unfold parse_q. rewrite (alike_tag _ _ _ K). destruct (tag "q" st); [destruct (beqb _ _)|]; (split; [exact K|reflexivity]). Qed.
Lemma moves_s : moves parse_s parse_s.
Proof.
  intros st st' K. unfold parse_s. rewrite (alike_tag _ _ _ K). destruct (tag "s" st) as [e|]; [|split; [exact K|reflexivity]]. split; [|reflexivity].
  unfold done. cbn [fst]. unfold upd. rewrite (alike_errno _ _ K). apply (alike_upd st st' (set_selector (te_value e)) K); [reflexivity|intros g; repeat split].
Qed.
Lemma moves_x now : moves (parse_x now) (parse_x_in L now).
Proof using PL.
  intros st st' K. unfold parse_x_in, parse_x. rewrite (alike_tag _ _ _ K). destruct (tag "x" st) as [e|] eqn:T; [|split; [exact K|reflexivity]].
  rewrite p_l by (eapply tag_ascii; [apply K|eauto]). destruct (strtol (te_value e)) as [n er]. rewrite (alike_errno _ _ K). pose proof (alike_set st st' (snd st || er) K) as K1.
  destruct (n <? now)%Z; (split; [exact K1|reflexivity]).
Qed.
Lemma bind_moves x x' k k' : pair_alike x x' -> moves k k' -> pair_alike (sbind x k) (sbind x' k').
Proof. intros [K E] M. destruct x as [s o], x' as [s' o']. cbn [fst snd] in *. subst o'. destruct o; cbn [sbind]; [apply M; exact K| | |]; (split; [exact K|reflexivity]). Qed.
Lemma bind_keeps x x' k k' : x' = x -> Inv (fst x) -> (forall s, Inv s -> pair_alike (k s) (k' s)) -> pair_alike (sbind x k) (sbind x' k').
Proof. intros -> I M. destruct x as [s o]. destruct o; cbn [sbind]; [apply M; exact I| | |]; (split; [apply inv_alike; exact I|reflexivity]). Qed.
Lemma parse_locale C now h e0 : (exists st o, o <> Ok tt /\ Signature_Parse_in L C now h (new_signature, e0) = (st, o) /\ Signature_Parse C false now h (new_signature, e0) = (st, o)) \/
  pair_alike (Signature_Parse C false now h (new_signature, e0)) (Signature_Parse_in L C now h (new_signature, e0)).
Proof using PL.
  unfold Signature_Parse_in, Signature_Parse. destruct (parse_tags h (new_signature, e0)) as [st o] eqn:PT.
  destruct o as [[]| | |]; [|left; eexists; eexists; split; [|split; reflexivity]; discriminate..]. right. cbn [sbind].
  assert (I : Inv st).
  { unfold parse_tags in PT. destruct (substr_from (h_text h) (h_voff h)) as [v| | |]; cbn [slift] in PT; try discriminate.
    destruct (TagList_Parse (sg_tags (fst (new_signature, e0))) v) as [t r] eqn:TP. injection PT as <- ->. cbn in TP. split; [exact (tags_good _ _ TP)|]. repeat constructor. }
  apply bind_keeps; [apply (keeps_arc (h_name h) st I)..|]. clear st PT I. intros st I.
  apply bind_keeps; [apply (keeps_d st I)..|]. clear st I. intros st I.
  apply bind_keeps; [apply (keeps_v st I)..|]. clear st I. intros st I.
  apply bind_keeps; [apply (keeps_a st I)..|]. clear st I. intros st I.
  apply bind_keeps; [apply (keeps_b C st I)..|]. clear st I. intros st I.
  apply bind_keeps; [apply (keeps_bh C st I)..|]. clear st I. intros st I.
  apply bind_keeps; [apply (keeps_c st I)..|]. clear st I. intros st I.
  apply bind_keeps; [apply (keeps_h st I)..|]. clear st I. intros st I.
  apply bind_moves; [apply alike_i; exact I|]. clear st I. intros st st' K.
  apply bind_moves; [apply moves_l; exact K|]. clear st st' K. intros st st' K.
  apply bind_moves; [apply moves_q; exact K|]. clear st st' K. intros st st' K.
  apply bind_moves; [apply moves_s; exact K|]. apply moves_x.
Qed.

(** *** PublicKey::Parse *)
Lemma key_locale C r : PublicKey_Parse_in L C r new_public_key = PublicKey_Parse C false r new_public_key.
Proof using PL.
  unfold PublicKey_Parse_in, PublicKey_Parse. destruct (TagList_Parse (pk_tags new_public_key) r) as [t o] eqn:TP. destruct o as [[]| | |]; cbn [sbind]; try reflexivity.
  assert (G : good_tags t) by (eapply tags_good; exact TP).
  assert (K : forall p, pk_tags p = t -> key_p_in L C p = key_p C false p).
  { intros p E. unfold key_p_in, key_p, ktag. rewrite E. destruct (GetTag (str "p") t) as [e|] eqn:T; [|reflexivity].
    assert (A : ascii_text (te_value e)). { apply eight_seven. apply tag_value_7bit. apply (G "p"%string). unfold V. rewrite T. reflexivity. }
    destruct (te_value e); [reflexivity|]. rewrite p_strip by exact A. reflexivity. }
  assert (KV : forall p, pk_tags (fst (key_v p)) = pk_tags p) by (intros p; unfold key_v; destruct (ktag "v" p); [destruct (beqb _ _)|]; reflexivity).
  assert (KH : forall p, pk_tags (fst (key_h p)) = pk_tags p) by (intros p; unfold key_h; destruct (ktag "h" p) as [e|]; [destruct (te_value e) as [|c v]; [reflexivity|destruct (ValueList (c :: v))]|]; reflexivity).
  assert (KK : forall p, pk_tags (fst (key_k p)) = pk_tags p) by (intros p; unfold key_k; destruct (ktag "k" p) as [e|]; [destruct (beqb _ _); [|destruct (beqb _ _)]|]; reflexivity).
  set (p1 := kset_tags t new_public_key). specialize (KV p1). destruct (key_v p1) as [p2 o]. destruct o; cbn [sbind fst] in *; try reflexivity.
  specialize (KH p2). destruct (key_h p2) as [p3 o]. destruct o; cbn [sbind fst] in *; try reflexivity.
  specialize (KK p3). destruct (key_k p3) as [p4 o]. destruct o; cbn [sbind fst] in *; try reflexivity.
  rewrite K by (rewrite KK, KH, KV; reflexivity). reflexivity.
Qed.

(** *** Selecting fields *)
Lemma collect_locale w hs : ascii_text w -> collect_in L w hs = collect_in c_locale w hs.
Proof using PL. intros A. unfold collect_in. induction hs as [|h hs IH]; [reflexivity|]. cbn [filter]. rewrite IH, p_eq by exact A. reflexivity. Qed.
Lemma open_locale ty s : new_validatory_in L ty s = new_validatory false ty s.
Proof using PL.
  rewrite <- c_open. unfold new_validatory_in. destruct (parse_all new_message s) as [[m s1]| | |]; cbn [obind]; try reflexivity.
  destruct ty; rewrite ?collect_locale; try reflexivity; repeat constructor.
Qed.
Fixpoint look (n : bytes) (c : cache) : list header :=
  match c with [] => [] | (m, l) :: r => if beqb m n then l else look n r end.
Lemma look_push n h c m : look m (cache_push n h c) = if beqb n m then look m c ++ [h] else look m c.
Proof.
  induction c as [|[k l] c IH]; cbn [cache_push look]; [destruct (beqb n m); reflexivity|]. destruct (beqb k n) eqn:E.
  - apply beqb_eq in E. subst k. cbn [look]. destruct (beqb n m); reflexivity.
  - cbn [look]. rewrite IH. destruct (beqb k m) eqn:E2; [|reflexivity]. apply beqb_eq in E2. subst k. rewrite (beqb_sym n m), E. reflexivity.
Qed.
Lemma pop_look n c : match cache_pop n c with
  | None => look n c = []
  | Some (h, c1) => exists p, look n c = p ++ [h] /\ look n c1 = p /\ forall m, beqb n m = false -> look m c1 = look m c
  end.
Proof.
  induction c as [|[k l] c IH]; cbn [cache_pop look]; [reflexivity|]. destruct (beqb k n) eqn:E.
  - apply beqb_eq in E. subst k. destruct (rev l) as [|h p] eqn:R.
    + apply (f_equal (@rev header)) in R. rewrite rev_involutive in R. exact R.
    + exists (rev p). apply (f_equal (@rev header)) in R. rewrite rev_involutive in R. cbn [rev] in R. split; [exact R|]. cbn [look]. rewrite beqb_refl. split; [reflexivity|].
      intros m ->. reflexivity.
  - destruct (cache_pop n c) as [[h c1]|]; [|exact IH]. destruct IH as (p & E1 & E2 & E3). exists p. split; [exact E1|]. cbn [look]. rewrite E. split; [exact E2|].
    intros m D. destruct (beqb k m); auto.
Qed.
Definition related (hs : list header) (c c' : cache) : Prop := forall n, ascii_text n -> look n c' = look n c /\ forall h, In h (look n c) -> lower (h_name h) = n /\ In h hs.
Lemma build_related all hs : (forall h, In h hs -> In h all) -> forall c c', related all c c' -> related all (build_cache_in c_locale hs c) (build_cache_in L hs c').
Proof using PL.
  induction hs as [|h hs IH]; intros S c c' R; [exact R|]. cbn [build_cache_in]. apply IH; [intros x X; apply S; right; exact X|].
  intros n A. rewrite !look_push. rewrite p_eq by exact A. change (lower_in c_locale) with lower. destruct (R n A) as [E K]. destruct (beqb (lower (h_name h)) n) eqn:B; [|auto].
  split; [rewrite E; reflexivity|]. intros x X. apply in_app_or in X as [X|[<-|[]]]; [apply K; exact X|]. split; [apply beqb_eq; exact B|apply S; left; reflexivity].
Qed.
Lemma hash_locale t fs mode names : has_fields t fs -> Forall ascii_text names -> forall c c', related fs c c' -> hash_headers_in L mode names c' = hash_headers_in c_locale mode names c.
Proof using PL.
  intros HF. induction 1 as [|n names A _ IH]; intros c c' R; [reflexivity|]. cbn [hash_headers_in]. rewrite p_lower by exact A. change (lower_in c_locale n) with (lower n).
  pose proof (lower_ascii _ A) as AL. destruct (R _ AL) as [E K]. pose proof (pop_look (lower n) c) as P. pose proof (pop_look (lower n) c') as P'.
  destruct (cache_pop (lower n) c) as [[h c1]|], (cache_pop (lower n) c') as [[h' c1']|].
  - destruct P as (p & P1 & P2 & P3), P' as (p' & Q1 & Q2 & Q3). rewrite E, P1 in Q1. apply app_inj_tail in Q1 as [<- <-].
    assert (IN : In h (look (lower n) c)) by (rewrite P1; apply in_or_app; right; left; reflexivity). destruct (K h IN) as [KN KF].
    assert (AN : ascii_text (h_name h)). { apply lower_back. rewrite KN. exact AL. }
    rewrite p_filter by (eapply named_part; [apply (fields_named t fs); eauto|exact AN]). rewrite c_filter.
    rewrite (IH c1 c1'); [reflexivity|]. intros m AM. destruct (beqb (lower n) m) eqn:B.
    + apply beqb_eq in B. subst m. rewrite P2, Q2. split; [reflexivity|]. intros x X. apply K. rewrite P1. apply in_or_app. left. exact X.
    + rewrite (P3 m B), (Q3 m B). apply R. exact AM.
  - destruct P as (p & P1 & _). rewrite E, P1 in P'. destruct p; discriminate.
  - destruct P' as (p & P1 & _). rewrite <- E, P1 in P. destruct p; discriminate.
  - apply IH. exact R.
Qed.

(** *** Everything together *)
Lemma like_ascii m m' : like m m' -> ascii_text m -> m' = m.
Proof using PL. intros [E|(raw & -> & ->)] A; [exact E|]. apply p_lower. apply lower_back. exact A. Qed.
Lemma like_eq d m m' : ascii_text d -> like m m' -> beqb d m' = beqb d m.
Proof using PL. intros A [->|(raw & -> & ->)]; [reflexivity|]. rewrite !(beqb_sym d). apply p_eq. exact A. Qed.
Lemma check_locale C t fs h g md p v : has_fields t fs -> m_headers (v_msg v) = fs -> In h fs -> ascii_text (h_name h) -> h_name h <> [] ->
  Forall ascii_text (sg_headers g) -> ascii_text (sg_domain g) -> like (sg_mdomain g) md ->
  CheckSignature_in L C h (set_mail (sg_local g) md g) p v = CheckSignature C false h g p v.
Proof using PL.
  intros HF VM IF AN NE AH AD LK. unfold CheckSignature_in, CheckSignature.
  assert (KA : key_allows (set_mail (sg_local g) md g) p = key_allows g p).
  { unfold key_allows. cbn [set_mail sg_digest sg_alg sg_arc sg_domain sg_mdomain]. rewrite (like_eq _ _ _ AD LK). reflexivity. }
  rewrite KA. destruct (key_allows g p); [|reflexivity]. rewrite <- c_data.
  assert (SD : signed_data_in L h (set_mail (sg_local g) md g) v = signed_data_in c_locale h g v).
  { unfold signed_data_in. cbn [set_mail sg_chead sg_headers]. rewrite VM.
    rewrite (hash_locale t fs (sg_chead g) (sg_headers g) HF AH (build_cache_in c_locale fs []) (build_cache_in L fs [])) by (apply build_related; [auto|]; intros n _; split; [reflexivity|intros x []]).
    destruct (hash_headers_in c_locale _ _ _); cbn [obind]; try reflexivity. destruct (substr_from _ _) as [val| | |]; cbn [obind]; try reflexivity.
    change (strip_b (set_mail (sg_local g) md g) val) with (strip_b g val). destruct (strip_b g val) as [val1| | |]; cbn [obind]; try reflexivity.
    rewrite p_filter, c_filter; [reflexivity|]. apply (own_part t fs); auto. exists (h_name h). auto. }
  rewrite SD. reflexivity.
Qed.
Lemma try_locale C ty t v now res h e0 : new_validatory false ty (open_str t) = Ok v -> In h (v_sigs v) ->
  let '(v1, e1, g, p, r) := try_one C false now res h e0 v in
  exists g', try_one_in L C now res h e0 v = (v1, e1, g', p, r) /\ but_mail g g'.
Proof using PL.
  intros NV I. destruct (listed _ _ _ _ NV) as (m & s & P & VM & _ & VS). pose proof (parse_fields _ _ _ P) as HF.
  assert (IF : In h (m_headers m) /\ ascii_text (h_name h) /\ h_name h <> []).
  { rewrite VS in I. apply filter_In in I as [I1 I2]. split; [exact I1|].
    assert (X : lower (h_name h) = str "dkim-signature" \/ lower (h_name h) = str "arc-message-signature").
    { unfold same_name in I2. destruct ty; [left|right|discriminate]; apply beqb_eq in I2; exact I2. }
    split; [|intros E; rewrite E in X; destruct X as [X|X]; discriminate X]. apply lower_back.
    destruct X as [-> | ->]; repeat constructor. }
  destruct IF as (IF & AN & NE). unfold try_one, try_one_in, GetSignature, GetSignature_in.
  assert (SAME : forall g, but_mail g g) by (intros g; exists (sg_mdomain g); split; [destruct g; reflexivity|auto]).
  destruct (parse_locale C now h e0) as [(st & o & NO & -> & ->)|K].
  - destruct o as [[]| | |]; [congruence|eexists; split; [reflexivity|apply SAME]..].
  - destruct (Signature_Parse C false now h (new_signature, e0)) as [[g e1] o] eqn:SP. destruct (Signature_Parse_in L C now h (new_signature, e0)) as [st' o'].
    destruct K as [(AD & _ & md & LK & K) E]. cbn [fst snd upd] in *. subst st' o'.
    assert (BM : but_mail g (set_mail (sg_local g) md g)) by (exists md; split; [reflexivity|apply like_ascii; exact LK]).
    destruct o as [[]| | |]; [|eexists; split; [reflexivity|exact BM]..]. cbn [fst snd upd].
    replace (CheckBodyHash C (set_mail (sg_local g) md g) v) with (CheckBodyHash C g v) by reflexivity. destruct (CheckBodyHash C g v) as [v1 r] eqn:CB.
    destruct r as [[]| | |]; [|eexists; split; [reflexivity|exact BM]..]. cbn [fst snd].
    assert (KE : GetPublicKey_in L C res (set_mail (sg_local g) md g) new_public_key = GetPublicKey C false res g new_public_key).
    { unfold GetPublicKey_in, GetPublicKey. change (key_query (set_mail (sg_local g) md g)) with (key_query g). destruct (res (key_query g)) as [[[] []]| | |]; cbn [slift]; try reflexivity. apply key_locale. }
    unfold upd. cbn [fst snd]. rewrite KE. destruct (GetPublicKey C false res g new_public_key) as [p r]. destruct r as [[]| | |]; [|eexists; split; [reflexivity|exact BM]..].
    eexists. split; [|exact BM]. rewrite (check_locale C t (m_headers m)); auto; [|exact (names_ascii _ _ _ _ _ _ SP)].
    unfold CheckBodyHash in CB. destruct CanonicalizationBody as [[[? ?] ?]| | |]; injection CB as <- _; cbn [v_msg]; rewrite VM; reflexivity.
Qed.

(** *** Signing *)
Lemma map_lower l : Forall ascii_text l -> map (lower_in L) l = map (lower_in c_locale) l.
Proof using PL. induction 1 as [|n l A _ IH]; [reflexivity|]. cbn [map]. rewrite IH, p_lower by exact A. reflexivity. Qed.
Lemma memb_seven n l : Forall ascii_text l -> memb n l = true -> ascii_text n.
Proof. intros F M. unfold memb in M. apply existsb_exists in M as (x & I & E). apply beqb_eq in E. subst x. rewrite Forall_forall in F. apply F. exact I. Qed.
Lemma heads_locale t fs mode ts hs : has_fields t fs -> (forall h, In h hs -> In h fs) -> Forall ascii_text ts -> ts <> [] \/ Forall ascii_text (map h_name hs) ->
  sign_headers_in L mode ts hs = sign_headers_in c_locale mode ts hs.
Proof using PL.
  intros HF S AT AN. induction hs as [|h hs IH]; [reflexivity|]. cbn [sign_headers_in].
  assert (AN' : ts <> [] \/ Forall ascii_text (map h_name hs)) by (destruct AN as [AN|AN]; [left; exact AN|right; inversion AN; assumption]).
  rewrite IH by (auto; intros x X; apply S; right; exact X). clear IH.
  destruct (ascii_dec (h_name h)) as [A|A].
  - rewrite p_lower by exact A. change (lower_in c_locale (h_name h)) with (lower (h_name h)). rewrite p_filter, c_filter; [reflexivity|].
    eapply named_part; [apply (fields_named t fs); [exact HF|apply S; left; reflexivity]|exact A].
  - assert (NT : ts <> []) by (destruct AN as [AN|AN]; [exact AN|inversion AN; contradiction]).
    assert (M : forall n, ~ ascii_text n -> negb (match ts with [] => true | _ => false end) && negb (memb n ts) = true).
    { intros n N. destruct ts as [|x ts]; [congruence|]. cbn [negb andb]. destruct (memb n (x :: ts)) eqn:E; [|reflexivity]. destruct N. exact (memb_seven _ _ AT E). }
    assert (N1 : ~ ascii_text (lower_in L (h_name h))) by (intros X; apply A, p_back; exact X).
    assert (N2 : ~ ascii_text (lower_in c_locale (h_name h))) by (intros X; apply A, lower_back; exact X).
    destruct (lower_in L (h_name h)) as [|a x] eqn:E1; [destruct N1; constructor|]. destruct (lower_in c_locale (h_name h)) as [|b y] eqn:E2; [destruct N2; constructor|].
    rewrite (M _ N1), (M _ N2). reflexivity.
Qed.
Lemma start_seven a b : ascii_text a -> ~ In COLON a -> ~ name_part_eight (a ++ COLON :: b).
Proof.
  intros A N (x & y & E & NX & N8). assert (F : find_char COLON (x ++ COLON :: y) = Some (length a)) by (rewrite <- E; apply find_char_app; exact N).
  rewrite find_char_app in F by exact NX. injection F as F. apply (f_equal (firstn (length a))) in E. rewrite <- F in E at 2. rewrite !firstn_app_exact in E. subst x. exact (N8 A).
Qed.
Lemma template_seven o q now names bh T : sig_template o q now names bh = Ok T -> ~ name_part_eight T.
Proof.
  unfold sig_template. destruct (time_tags o now) as [tx| | |]; cbn [obind]; try discriminate. destruct (h_list _ _ _ _) as [hl cur]. intros E.
  assert (X : exists a b, T = a ++ COLON :: b /\ ascii_text a /\ ~ In COLON a).
  { apply Ok_eq in E. destruct (o_arc o =? 0)%N.
    - exists (str "DKIM-Signature"). eexists. split; [rewrite <- E, <- !app_assoc; reflexivity|]. split; [repeat constructor|]. vm_compute. intuition discriminate.
    - exists (str "ARC-Message-Signature"). eexists. split; [rewrite <- E, <- !app_assoc; reflexivity|]. split; [repeat constructor|]. vm_compute. intuition discriminate. }
  destruct X as (a & b & -> & A & N). apply start_seven; assumption.
Qed.
Lemma sigs_locale C o clock hd names bh l : forall n acc, all_sigs_in L C o clock n hd names bh l acc = all_sigs_in c_locale C o clock n hd names bh l acc.
Proof using PL.
  induction l as [|q l IH]; intros n acc; [reflexivity|]. cbn [all_sigs_in].
  assert (E : one_signature_in L C o (clock n) hd names bh q = one_signature_in c_locale C o (clock n) hd names bh q).
  { unfold one_signature_in. destruct (sig_template o q (clock n) names bh) as [T| | |] eqn:ET; cbn [obind]; try reflexivity. rewrite p_filter by (eapply template_seven; exact ET). reflexivity. }
  rewrite E. destruct (one_signature_in c_locale C o (clock n) hd names bh q); cbn [obind]; auto.
Qed.
Lemma sign_locale C clock o t fs : has_fields t fs -> seven o fs -> CreateSignature_in L C clock o (new_signatory (open_str t)) = CreateSignature C false clock o (new_signatory (open_str t)).
Proof using PL.
  intros HF (AH & AO & AN). rewrite <- c_create. unfold CreateSignature_in. cbn [new_signatory y_msg y_file]. destruct (open_parse t fs HF) as (m & s & P & MF). rewrite P.
  destruct (CanonicalizationBody s (o_cbody o) (m_offset m) (o_signlen o) (o_bodylen o)) as [[[chunks ok] s1]| | |]; try reflexivity.
  destruct ok; [|reflexivity]. rewrite !map_lower by assumption.
  rewrite (heads_locale t fs); [|exact HF|intros h X; rewrite <- MF; apply in_rev; exact X| |].
  - destruct (sign_headers_in c_locale _ _ _) as [[hd names]| | |]; cbn [obind]; try reflexivity. rewrite sigs_locale. reflexivity.
  - clear - AH. induction AH as [|n l A _ IH]; cbn [map]; constructor; [apply lower_ascii; exact A|exact IH].
  - destruct AN as [AN|AN]; [left; destruct (o_headers o); [congruence|discriminate]|right]. rewrite MF, map_rev. apply Forall_rev. exact AN.
Qed.
End Plain.

(** ** Locales in which the capital I has another small letter *)
Lemma capital_i L ty t v h : l_lower L (chr 73) <> chr 105 -> new_validatory_in L ty (open_str t) = Ok v -> In h (v_sigs v) -> ty = V_DKIM -> h_name h <> str "DKIM-Signature".
Proof.
  intros N NV I -> E. unfold new_validatory_in in NV. destruct (parse_all new_message (open_str t)) as [[m s]| | |]; cbn [obind] in NV; try discriminate.
  apply Ok_eq in NV. subst v. cbn [v_sigs] in I. unfold collect_in in I. apply filter_In in I as [_ I]. rewrite E in I. apply beqb_eq in I.
  apply (f_equal (fun x => nth 2 x (chr 0))) in I. exact (N I).
Qed.
