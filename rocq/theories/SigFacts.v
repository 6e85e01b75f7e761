(** Signature::Parse: proofs. *)
From Verif Require Import Bytes Outcome Stream Tokenizer QuotedPrintable Base64 TagList MailParser Canonicalization Util
  CStdlib Crypto Signature BytesFacts StreamFacts TokenizerFacts SpecText SpecTags SpecMail SpecCanon SpecVerify SpecSig QPFacts Base64Facts ListFacts TagListFacts MailFacts HeaderFacts HeaderProps.

(** ** Tags *)
Definition tag_is (n : string) (tags : taglist) (v : bytes) : Prop := exists e, GetTag (str n) tags = Some e /\ te_value e = v.

Lemma tags_split input tags : TagList_Parse [] input = (tags, Ok tt) ->
  exists l, rendered_tags l input /\ NoDup (map fst l) /\
    (forall n v, tag_is n tags v <-> has l n v) /\ (forall n, GetTag (str n) tags = None <-> lacks l n).
Proof.
  intros P. assert (X : exists tags', TagList_Parse [] input = (tags', Ok tt)) by eauto.
  apply TagList_accepts_iff in X as (l & R & ND & _). exists l. split; auto. split; auto.
  destruct (TagList_rendered l input R ND) as (tags2 & P2 & IN & OUT). rewrite P in P2. injection P2 as <-.
  split.
  - intros n v. unfold tag_is, has. split; [|apply IN].
    intros (e & G & <-). destruct (In_dec (list_eq_dec ascii_dec) (str n) (map fst l)) as [I|I].
    + apply in_map_iff in I as ([m w] & E & I). cbn in E. subst m. destruct (IN _ _ I) as (e' & G' & V'). rewrite G in G'. injection G' as <-. subst. exact I.
    + rewrite (OUT _ I) in G. discriminate.
  - intros n. unfold lacks. split; [|apply OUT]. intros G I. apply in_map_iff in I as ([m w] & E & I). cbn in E. subst m.
    destruct (IN _ _ I) as (e' & G' & _). congruence.
Qed.

(** Tag values are 7-bit and without NUL. *)
Lemma rendered_values l t n v : rendered_tags l t -> In (n, v) l -> tag_value v.
Proof.
  induction 1; intros I.
  - destruct I.
  - destruct I as [[= <- <-]|[]]. auto.
  - destruct I as [[= <- <-]|I]; auto.
Qed.
Lemma tag_value_byte v c : tag_value v -> In c v -> (9 <= code c <= 126)%N.
Proof.
  intros (F & _) I. rewrite Forall_forall in F. destruct (F c I) as [[P _]|L].
  - destruct P. lia.
  - destruct L as [->|[->|[->| ->]]]; vm_compute; split; discriminate.
Qed.
Lemma tag_value_7bit v : tag_value v -> existsb is_8bit v = false.
Proof.
  intros T. destruct (existsb is_8bit v) eqn:E; auto. apply existsb_exists in E as (c & I & B).
  pose proof (tag_value_byte v c T I). unfold is_8bit in B. apply N.leb_le in B. lia.
Qed.
Lemma c_str_id v : ~ In (chr 0) v -> c_str v = v.
Proof.
  induction v as [|c v IH]; intros N; [reflexivity|]. cbn [c_str].
  destruct (code c =? 0)%N eqn:E.
  - destruct N. left. apply code_inj. apply N.eqb_eq in E. rewrite E. reflexivity.
  - f_equal. apply IH. intros K. apply N. right. exact K.
Qed.
Lemma tag_value_c_str v : tag_value v -> c_str v = v.
Proof. intros T. apply c_str_id. intros I. apply (tag_value_byte v _ T) in I. vm_compute in I. destruct I as [I _]. apply I. reflexivity. Qed.
Lemma lower_7bit strict v : existsb is_8bit v = false -> lower_str strict v = Ok (lower v).
Proof. intros H. unfold lower_str. rewrite H, andb_false_r. reflexivity. Qed.
Lemma isspace_unspaced v : filter (fun c => negb (isspace c)) v = unspaced v.
Proof.
  unfold unspaced. apply filter_ext. intros c. f_equal. revert c. intros c. apply eqb_prop. revert c. apply byte_sweep. vm_compute. reflexivity.
Qed.
Lemma strip_7bit strict v : existsb is_8bit v = false -> strip_space strict v = Ok (unspaced v).
Proof. intros H. unfold strip_space. rewrite H, andb_false_r, isspace_unspaced. reflexivity. Qed.

(** ** Items of ValueList are made of bytes of the input *)
Lemma vl_value_bytes f : forall s p r value vbuf v s', St s p r ->
  vl_value f s value vbuf = Ok (v, s') ->
  exists p' r' a, St s' p' r' /\ r = a ++ r' /\ forall c, In c v -> In c value \/ In c vbuf \/ In c r.
Proof.
  induction f as [|f IH]; intros s p r value vbuf v s' H P; [discriminate|]. cbn [vl_value] in P.
  pose proof (read_fws_St _ _ _ H) as R. destruct (l_fws r) as [[w r']|] eqn:E.
  2:{ rewrite R in P. discriminate. }
  destruct R as (s1 & R & H'). rewrite R in P. cbn [obind] in P. pose proof (l_fws_app _ _ _ E) as EA.
  destruct w as [|x w].
  - cbn [app rev] in *. subst r'. revert P. destruct r as [|c r]; peek_at H'.
    + intros [= <- <-]. do 2 eexists. exists []. split; [eassumption|]. split; auto.
    + destruct (c =?c COLON).
      * intros [= <- <-]. do 2 eexists. exists []. split; [eassumption|]. split; auto.
      * get_at H'. cbn [as_char]. intros P. destruct (IH _ _ _ _ _ _ _ H0 P) as (p' & r2 & a & S2 & -> & B).
        exists p', r2, (c :: a). split; auto. split; auto. intros d I. destruct (B d I) as [X|[[]|X]].
        -- rewrite !in_app_iff in X. cbn in X. cbn. rewrite in_app_iff. tauto.
        -- right. right. right. exact X.
  - destruct (IH _ _ _ _ _ _ _ H' P) as (p' & r2 & a & S2 & -> & B).
    exists p', r2, ((x :: w) ++ a). split; auto. rewrite EA, app_assoc. split; auto.
    intros d I. destruct (B d I) as [X|[X|X]]; auto.
    + rewrite in_app_iff in X. destruct X as [X|X]; auto. right. right. rewrite !in_app_iff. auto.
    + right. right. rewrite !in_app_iff. rewrite in_app_iff in X. tauto.
Qed.
Lemma vl_loop_bytes f : forall s p r values vs, St s p r -> vl_loop f s values = Ok vs ->
  forall v c, In v vs -> In c v -> In v values \/ In c r.
Proof.
  induction f as [|f IH]; intros s p r values vs H P v c IV IC; [discriminate|]. cbn [vl_loop] in P. rewrite (St_fuel _ _ _ H) in P.
  destruct (skip_fws_any (S (length r)) s p r H ltac:(lia)) as [Q|(s1 & p1 & a & r1 & Q & H1 & EQ & F)]; rewrite Q in P; [discriminate|].
  cbn [obind] in P. revert P. destruct r1 as [|x r1]; peek_at H1.
  - intros [= <-]. auto.
  - destruct (vl_value _ s1 [] []) as [[v1 s2]| | |] eqn:P2; try discriminate. cbn [obind].
    destruct (vl_value_bytes _ _ _ _ _ _ _ _ H1 P2) as (p2 & r2 & a2 & H2 & EQ2 & B).
    destruct v1 as [|y v1]; [discriminate|]. destruct r2 as [|d r2]; get_at H2.
    + intros [= <-]. rewrite in_app_iff in IV. destruct IV as [?|[<-|[]]]; auto.
      destruct (B c IC) as [[]|[[]|X]]. right. rewrite EQ, in_app_iff. auto.
    + intros P. destruct (IH _ _ _ _ _ H0 P v c IV IC) as [X|X].
      * rewrite in_app_iff in X. destruct X as [?|[<-|[]]]; auto.
        destruct (B c IC) as [[]|[[]|X]]. right. rewrite EQ, in_app_iff. auto.
      * right. rewrite EQ, EQ2, !in_app_iff. right. right. right. exact X.
Qed.
Lemma ValueList_bytes t vs v c : ValueList t = Ok vs -> In v vs -> In c v -> In c t.
Proof.
  intros P I J. unfold ValueList in P. destruct (vl_loop_bytes _ _ _ _ _ _ (St_open t) P v c I J) as [[]|]; auto.
Qed.
Lemma is_from_same t vs : tag_value t -> ValueList t = Ok vs ->
  (existsb is_from vs = true <-> exists n, In n vs /\ same_name n (str "from") = true).
Proof.
  intros T P. rewrite existsb_exists. split; intros (n & I & F); exists n; split; auto.
  all: assert (N : c_str n = n) by
    (apply c_str_id; intros K; apply (ValueList_bytes t vs n _ P I) in K; apply (tag_value_byte t _ T) in K;
     vm_compute in K; destruct K as [K _]; apply K; reflexivity).
  - unfold is_from in F. rewrite N in F. unfold same_name. rewrite map_low. exact F.
  - unfold is_from. rewrite N. unfold same_name in F. rewrite map_low in F. exact F.
Qed.

(** ** The stages *)
Lemma sbind_Ok {S} (r : S * outcome unit) k s :
  sbind r k = (s, Ok tt) <-> exists s1, r = (s1, Ok tt) /\ k s1 = (s, Ok tt).
Proof.
  destruct r as [s1 [[]|e|u|]]; cbn [sbind]; split; try discriminate; eauto.
  1: intros (s2 & [= <-] & E); exact E.
  all: intros (s2 & E & _); discriminate.
Qed.
Lemma slift_Ok {S A} (s0 : S) (m : outcome A) k s :
  slift s0 m k = (s, Ok tt) <-> exists a, m = Ok a /\ k a = (s, Ok tt).
Proof.
  destruct m; cbn [slift]; split; try discriminate; eauto.
  1: intros (s2 & [= <-] & E); exact E.
  all: intros (s2 & E & _); discriminate.
Qed.

Definition V (tags : taglist) (n : string) : option bytes := option_map te_value (GetTag (str n) tags).
Definition good_tags (tags : taglist) : Prop := forall n v, V tags n = Some v -> tag_value v.
Definition stV (st : sig_st) (n : string) := V (sg_tags (fst st)) n.

Lemma tag_V n st : tag n st = None /\ stV st n = None \/ exists e, tag n st = Some e /\ stV st n = Some (te_value e).
Proof. unfold stV, V, tag. destruct (GetTag _ _) as [e|]; [right; exists e|left]; auto. Qed.
Ltac tagV n st := let e := fresh "e" in let Et := fresh "Et" in let Ev := fresh "Ev" in
  destruct (tag_V n st) as [[Et Ev]|(e & Et & Ev)]; rewrite Et, Ev.

Lemma parse_arc_Ok strict name st st' : parse_arc strict name st = (st', Ok tt) <->
  strict && existsb is_8bit name = false /\
  st' = if beqb (lower name) (str "arc-message-signature") then upd (set_arc true) st else st.
Proof.
  unfold parse_arc. rewrite slift_Ok. unfold lower_str, done. destruct (strict && existsb is_8bit name); split.
  - intros (a & E & _). discriminate.
  - intros [E _]. discriminate.
  - intros (a & [= <-] & E). split; auto. destruct (beqb _ _); congruence.
  - intros [_ ->]. exists (lower name). split; auto. destruct (beqb _ _); auto.
Qed.

Lemma parse_d_Ok strict st st' : good_tags (sg_tags (fst st)) -> parse_d strict st = (st', Ok tt) <->
  exists d, stV st "d" = Some d /\ st' = upd (set_domain (lower d)) st.
Proof.
  intros G. unfold parse_d, fail_perm, done. tagV "d"%string st.
  - split; [discriminate|]. intros (d & E & _). discriminate.
  - pose proof (G "d"%string _ Ev) as T. rewrite slift_Ok, lower_7bit by (apply tag_value_7bit; auto). split.
    + intros (a & [= <-] & [= <-]). eauto.
    + intros (d & [= <-] & ->). eauto.
Qed.

Lemma parse_v_Ok st st' : parse_v st = (st', Ok tt) <->
  st' = st /\ (sg_arc (fst st) = false -> stV st "v" = Some (str "1")).
Proof.
  unfold parse_v, fail_perm, done. destruct (sg_arc (fst st)).
  - split; [intros [= <-]|intros [-> _]]; auto. split; auto. discriminate.
  - tagV "v"%string st.
    + split; [discriminate|]. intros (_ & E). discriminate (E eq_refl).
    + destruct (beqb_spec (te_value e) (str "1")) as [E|N].
      * rewrite E. split; [intros [= <-]|intros [-> _]]; auto.
      * split; [discriminate|]. intros [_ E]. specialize (E eq_refl). congruence.
Qed.

Lemma parse_a_Ok st st' : parse_a st = (st', Ok tt) <->
  exists a d s, stV st "a" = Some a /\ a_value a d s /\ st' = upd (set_algs d s) st.
Proof.
  unfold parse_a, fail_perm, done. tagV "a"%string st.
  - split; [discriminate|]. intros (a & d & s & E & _). discriminate.
  - destruct (beqb_spec (te_value e) (str "rsa-sha256")) as [E1|N1].
    { rewrite E1. split.
      - intros [= <-]. exists (str "rsa-sha256"), SHA256, RSA. split; auto. split; auto. constructor.
      - intros (a & d & s & [= <-] & A & ->). inversion A. reflexivity. }
    destruct (beqb_spec (te_value e) (str "rsa-sha1")) as [E2|N2].
    { rewrite E2. split.
      - intros [= <-]. exists (str "rsa-sha1"), SHA1, RSA. split; auto. split; auto. constructor.
      - intros (a & d & s & [= <-] & A & ->). inversion A. reflexivity. }
    destruct (beqb_spec (te_value e) (str "ed25519-sha256")) as [E3|N3].
    { rewrite E3. split.
      - intros [= <-]. exists (str "ed25519-sha256"), SHA256, ED25519. split; auto. split; auto. constructor.
      - intros (a & d & s & [= <-] & A & ->). inversion A. reflexivity. }
    split; [discriminate|]. intros (a & d & s & [= <-] & A & ->). inversion A as [X|X|X]; symmetry in X; contradiction.
Qed.

Lemma parse_b_Ok C strict st st' : good_tags (sg_tags (fst st)) -> parse_b C strict st = (st', Ok tt) <->
  exists b, stV st "b" = Some b /\ b <> [] /\ st' = upd (set_b (b64d C (unspaced b))) st.
Proof.
  intros G. unfold parse_b, fail_perm, done. tagV "b"%string st.
  - split; [discriminate|]. intros (d & E & _). discriminate.
  - pose proof (G "b"%string _ Ev) as T. apply tag_value_7bit in T. destruct (te_value e) as [|c v].
    + split; [discriminate|]. intros (b & [= <-] & N & _). congruence.
    + rewrite slift_Ok, strip_7bit by auto. split.
      * intros (a & [= <-] & [= <-]). eexists. split; [reflexivity|]. split; [discriminate|reflexivity].
      * intros (b & [= <-] & _ & ->). eauto.
Qed.

Lemma parse_bh_Ok C strict st st' : good_tags (sg_tags (fst st)) -> parse_bh C strict st = (st', Ok tt) <->
  exists b, stV st "bh" = Some b /\ st' = upd (set_bh (b64d C (unspaced b))) st.
Proof.
  intros G. unfold parse_bh, fail_perm, done. tagV "bh"%string st.
  - split; [discriminate|]. intros (d & E & _). discriminate.
  - pose proof (G "bh"%string _ Ev) as T. rewrite slift_Ok, strip_7bit by (apply tag_value_7bit; auto). split.
    + intros (a & [= <-] & [= <-]). eauto.
    + intros (d & [= <-] & ->). eauto.
Qed.

Lemma mode_of_name s m : mode_of s = Some m <-> s = mode_name m.
Proof.
  unfold mode_of. destruct (beqb_spec s (str "relaxed")) as [->|N1]; [|destruct (beqb_spec s (str "simple")) as [->|N2]].
  - split; [intros [= <-]; reflexivity|]. destruct m; [discriminate|reflexivity].
  - split; [intros [= <-]; reflexivity|]. destruct m; [reflexivity|discriminate].
  - split; [discriminate|]. intros ->. destruct m; [destruct N2|destruct N1]; reflexivity.
Qed.
Lemma mode_no_slash m : ~ In (chr 47) (mode_name m).
Proof. apply find_char_None. destruct m; reflexivity. Qed.

Lemma parse_c_Ok st st' : parse_c st = (st', Ok tt) <->
  match stV st "c" with
  | None => st' = st
  | Some c => exists h b, c_value c h b /\ st' = upd (set_cbody b) (upd (set_chead h) st)
  end.
Proof.
  unfold parse_c, fail_perm, done. tagV "c"%string st.
  - split; [intros [= <-]|intros ->]; auto.
  - assert (X : forall h b, c_value (te_value e) h b <->
      let '(x, y) := match find_char (chr 47) (te_value e) with
                     | None => (te_value e, str "simple")
                     | Some i => (firstn i (te_value e), skipn (S i) (te_value e))
                     end in x = mode_name h /\ y = mode_name b).
    { intros h b. destruct (find_char (chr 47) (te_value e)) as [i|] eqn:F.
      - apply find_char_Some in F as (pre & post & E & L & NI). subst i. rewrite E.
        rewrite firstn_app_exact. replace (S (length pre)) with (length (pre ++ [chr 47])) by (rewrite app_length; cbn; lia).
        replace (pre ++ chr 47 :: post) with ((pre ++ [chr 47]) ++ post) at 2 by (rewrite <- app_assoc; reflexivity).
        rewrite skipn_app_exact. split.
        + intros K. inversion K as [h' K1|h' b' K1]; subst.
          * exfalso. apply (mode_no_slash h). rewrite K1. apply in_or_app. right. left. reflexivity.
          * revert K1. clear - NI. intros E.
            assert (FC : find_char (chr 47) (mode_name h ++ chr 47 :: mode_name b) = find_char (chr 47) (pre ++ chr 47 :: post)) by (rewrite E; reflexivity).
            rewrite !find_char_app in FC by (auto; apply mode_no_slash). injection FC as L.
            assert (E1 : mode_name h = pre).
            { rewrite <- (firstn_app_exact (mode_name h) (chr 47 :: mode_name b)), E, L, firstn_app_exact. reflexivity. }
            subst pre. apply app_inv_head in E. split; congruence.
        + intros [-> ->]. constructor.
      - apply find_char_None in F. split.
        + intros K. inversion K as [h' K1|h' b' K1]; subst; auto.
          destruct F. rewrite <- K1. apply in_or_app. right. left. reflexivity.
        + intros [-> E]. destruct b; [constructor|discriminate]. }
    destruct (match find_char (chr 47) (te_value e) with None => _ | Some i => _ end) as [x y]. split.
    + destruct (mode_of x) as [mh|] eqn:M1; [|discriminate]. destruct (mode_of y) as [mb|] eqn:M2; [|discriminate].
      intros [= <-]. apply mode_of_name in M1, M2. exists mh, mb. split; auto. apply X. auto.
    + intros (h & b & K & ->). apply X in K as [K1 K2]. apply mode_of_name in K1, K2. rewrite K1, K2. reflexivity.
Qed.

Lemma parse_h_Ok st st' : good_tags (sg_tags (fst st)) -> parse_h st = (st', Ok tt) <->
  exists h l, stV st "h" = Some h /\ ValueList h = Ok l /\ (exists n, In n l /\ same_name n (str "from") = true) /\
    st' = upd (set_headers l) st.
Proof.
  intros G. unfold parse_h, fail_perm, done. tagV "h"%string st.
  - split; [discriminate|]. intros (d & l & E & _). discriminate.
  - pose proof (G "h"%string _ Ev) as T. rewrite slift_Ok. split.
    + intros (l & E & K). destruct (existsb is_from l) eqn:F; [|discriminate]. injection K as <-.
      exists (te_value e), l. split; auto. split; auto. split; auto. apply (is_from_same _ _ T E). auto.
    + intros (h & l & [= <-] & E & F & ->). exists l. split; auto. apply (is_from_same _ _ T E) in F. rewrite F. reflexivity.
Qed.

Lemma sub_domain_spec m d : (beqb m d || sub_domain m d) = true <-> in_domain m d.
Proof.
  rewrite orb_true_iff. unfold in_domain, sub_domain. rewrite beqb_eq, andb_true_iff, Nat.ltb_lt, beqb_eq.
  assert (X : (length d < length m /\ DOT :: d = skipn (length m - length d - 1) m) <-> exists p, m = p ++ DOT :: d).
  { split.
    - intros [L E]. exists (firstn (length m - length d - 1) m). rewrite E. symmetry. apply firstn_skipn.
    - intros (p & ->). rewrite app_length. cbn [length]. split; [lia|].
      replace (length p + S (length d) - length d - 1) with (length p) by lia. rewrite skipn_app_exact. reflexivity. }
  tauto.
Qed.

Definition in_range_N (lo hi n : N) : Prop := (lo <= n /\ n <= hi)%N.
Lemma parse_i_Ok strict st st' : parse_i strict st = (st', Ok tt) <->
  if sg_arc (fst st) then
    exists i n rest er, stV st "i" = Some i /\ strtoul i = (n, rest, er) /\ in_range_N 1 50 n /\
      st' = (set_instance n (fst st), snd st || er)
  else match stV st "i" with
       | None => st' = upd (set_mail [] (sg_domain (fst st))) st
       | Some i => exists loc raw, qp_decode i false = Ok (loc ++ AT :: raw) /\ ~ In AT loc /\
                     strict && existsb is_8bit raw = false /\ in_domain (lower raw) (sg_domain (fst st)) /\
                     st' = upd (set_mail loc (lower raw)) st
       end.
Proof.
  unfold parse_i, fail_perm, done. destruct (sg_arc (fst st)).
  - tagV "i"%string st.
    + split; [discriminate|]. intros (d & n & r & er & E & _). discriminate.
    + destruct (strtoul (te_value e)) as [[n rest] er] eqn:U.
      destruct ((n <? 1) || (50 <? n))%N eqn:B.
      * split; [discriminate|]. intros (i & n1 & r1 & er1 & [= <-] & U1 & [R1 R2] & _).
        rewrite U in U1. injection U1 as <- <- <-. apply orb_true_iff in B as [B|B]; apply N.ltb_lt in B; lia.
      * apply orb_false_iff in B as [B1 B2]. apply N.ltb_ge in B1, B2. split.
        -- intros [= <-]. exists (te_value e), n, rest, er. split; auto. split; auto. split; [split; auto|]. reflexivity.
        -- intros (i & n1 & r1 & er1 & [= <-] & U1 & _ & ->). rewrite U in U1. injection U1 as <- <- <-. reflexivity.
  - tagV "i"%string st.
    + split; [intros [= <-]|intros ->]; reflexivity.
    + rewrite slift_Ok. split.
      * intros (mail & Q & K). destruct (find_char AT mail) as [p|] eqn:F; [|discriminate].
        apply find_char_Some in F as (pre & post & -> & L & NI). subst p.
        rewrite firstn_app_exact in K. replace (S (length pre)) with (length (pre ++ [AT])) in K by (rewrite app_length; cbn; lia).
        replace (pre ++ AT :: post) with ((pre ++ [AT]) ++ post) in K by (rewrite <- app_assoc; reflexivity).
        rewrite skipn_app_exact in K. cbv zeta in K. apply slift_Ok in K as (dom & LW & K).
        unfold lower_str in LW. destruct (strict && existsb is_8bit post) eqn:ST; [discriminate|]. injection LW as <-.
        destruct (beqb (lower post) _ || _) eqn:SD; [|discriminate]. injection K as <-.
        exists pre, post. apply sub_domain_spec in SD. auto.
      * intros (loc & raw & Q & NI & ST & D & ->). exists (loc ++ AT :: raw). split; auto.
        rewrite find_char_app by auto. rewrite firstn_app_exact. replace (S (length loc)) with (length (loc ++ [AT])) by (rewrite app_length; cbn; lia).
        replace (loc ++ AT :: raw) with ((loc ++ [AT]) ++ raw) by (rewrite <- app_assoc; reflexivity).
        rewrite skipn_app_exact. cbv zeta. unfold lower_str. rewrite ST. cbn [slift].
        apply sub_domain_spec in D. rewrite D. reflexivity.
Qed.

Lemma parse_l_Ok st st' : parse_l st = (st', Ok tt) <->
  match stV st "l" with
  | None => st' = st
  | Some l => length l <= 76 /\ snd st = false /\
      exists n, strtoul l = (n, [], false) /\ (n < 9223372036854775808)%N /\ st' = upd (set_size n true) st
  end.
Proof.
  unfold parse_l, fail_perm, done. tagV "l"%string st.
  - split; [intros [= <-]|intros ->]; reflexivity.
  - destruct (Nat.ltb_spec 76 (length (te_value e))) as [L|L].
    { split; [discriminate|]. intros [X _]. lia. }
    destruct (strtoul (te_value e)) as [[n rest] er] eqn:U. destruct st as [g e0]. cbn [fst snd]. split.
    + destruct e0, er; cbn [orb]; try discriminate. destruct (N.leb_spec 9223372036854775808 n) as [B|B]; [discriminate|].
      destruct rest; [|discriminate]. intros [= <-]. split; auto. split; auto. exists n. auto.
    + intros (_ & -> & n1 & [= <- -> ->] & B & ->). cbn [orb]. destruct (N.leb_spec 9223372036854775808 n) as [B2|B2]; [lia|]. reflexivity.
Qed.

Lemma parse_q_Ok st st' : parse_q st = (st', Ok tt) <->
  st' = st /\ (stV st "q" = None \/ stV st "q" = Some (str "dns/txt")).
Proof.
  unfold parse_q, fail_perm, done. tagV "q"%string st.
  - split; [intros [= <-]|intros [-> _]]; auto.
  - destruct (beqb_spec (te_value e) (str "dns/txt")) as [E|N].
    + rewrite E. split; [intros [= <-]|intros [-> _]]; auto.
    + split; [discriminate|]. intros [_ [E|E]]; congruence.
Qed.

Lemma parse_s_Ok st st' : parse_s st = (st', Ok tt) <-> exists s, stV st "s" = Some s /\ st' = upd (set_selector s) st.
Proof.
  unfold parse_s, fail_perm, done. tagV "s"%string st.
  - split; [discriminate|]. intros (d & E & _). discriminate.
  - split; [intros [= <-]; eauto|]. intros (s & [= <-] & ->). reflexivity.
Qed.

Lemma parse_x_Ok now st st' : parse_x now st = (st', Ok tt) <->
  match stV st "x" with
  | None => st' = st
  | Some x => exists v er, strtol x = (v, er) /\ (now <= v)%Z /\ st' = (fst st, snd st || er)
  end.
Proof.
  unfold parse_x, fail_perm, done. tagV "x"%string st.
  - split; [intros [= <-]|intros ->]; reflexivity.
  - destruct (strtol (te_value e)) as [v er]. destruct (Z.ltb_spec v now) as [B|B].
    + split; [discriminate|]. intros (v1 & er1 & [= <- <-] & K & _). lia.
    + split; [intros [= <-]; eauto|]. intros (v1 & er1 & [= <- <-] & _ & ->). reflexivity.
Qed.

(** ** Success of Signature::Parse, exactly *)
Definition arc_name : bytes := str "arc-message-signature".
Inductive sig_ok (C : crypto) (strict : bool) (now : Z) (name : bytes) (tags : taglist) (e0 : bool) : sig_st -> Prop :=
| sig_ok_intro d a dg al b bh ch cb hv hs loc mdom inst ei size lim sel ex :
    strict && existsb is_8bit name = false ->
    V tags "d" = Some d ->
    (same_name name arc_name = false -> V tags "v" = Some (str "1")) ->
    V tags "a" = Some a -> a_value a dg al ->
    V tags "b" = Some b -> b <> [] ->
    V tags "bh" = Some bh ->
    match V tags "c" with None => ch = SIMPLE /\ cb = SIMPLE | Some c => c_value c ch cb end ->
    V tags "h" = Some hv -> ValueList hv = Ok hs -> (exists n, In n hs /\ same_name n (str "from") = true) ->
    (if same_name name arc_name then
       loc = [] /\ mdom = [] /\ in_range_N 1 50 inst /\
       exists i rest, V tags "i" = Some i /\ strtoul i = (inst, rest, ei)
     else inst = 0%N /\ ei = false /\
       match V tags "i" with
       | None => loc = [] /\ mdom = lower d
       | Some i => exists raw, qp_decode i false = Ok (loc ++ AT :: raw) /\ ~ In AT loc /\
                     strict && existsb is_8bit raw = false /\ mdom = lower raw /\ in_domain mdom (lower d)
       end) ->
    match V tags "l" with
    | None => size = 0%N /\ lim = false
    | Some l => length l <= 76 /\ (e0 || ei = false) /\ strtoul l = (size, [], false) /\
                (size < 9223372036854775808)%N /\ lim = true
    end ->
    (V tags "q" = None \/ V tags "q" = Some (str "dns/txt")) ->
    V tags "s" = Some sel ->
    match V tags "x" with
    | None => ex = false
    | Some x => exists v, strtol x = (v, ex) /\ (now <= v)%Z
    end ->
    sig_ok C strict now name tags e0
      (mkSig tags dg al (b64d C (unspaced b)) (b64d C (unspaced bh)) ch cb (lower d) hs loc mdom size lim sel
         (same_name name arc_name) inst, e0 || ei || ex).

Lemma same_arc name : same_name name arc_name = beqb (lower name) (str "arc-message-signature").
Proof. unfold same_name. rewrite map_low. reflexivity. Qed.

Definition parse_rest (C : crypto) (strict : bool) (now : Z) (name : bytes) (s1 : sig_st) : sig_st * outcome unit :=
  do s2 <- parse_arc strict name s1 ;;
  do s3 <- parse_d strict s2 ;;
  do s4 <- parse_v s3 ;;
  do s5 <- parse_a s4 ;;
  do s6 <- parse_b C strict s5 ;;
  do s7 <- parse_bh C strict s6 ;;
  do s8 <- parse_c s7 ;;
  do s9 <- parse_h s8 ;;
  do s10 <- parse_i strict s9 ;;
  do s11 <- parse_l s10 ;;
  do s12 <- parse_q s11 ;;
  do s13 <- parse_s s12 ;;
  parse_x now s13.

Lemma parse_rest_Ok C strict now name tags e0 st : good_tags tags ->
  parse_rest C strict now name (upd (set_tags tags) (new_signature, e0)) = (st, Ok tt) <-> sig_ok C strict now name tags e0 st.
Proof.
  intros G. unfold parse_rest. split.
  - intros P.
    apply sbind_Ok in P as (s2 & P2 & P). apply parse_arc_Ok in P2 as [N8 E2]. rewrite <- same_arc in E2.
    assert (E2' : s2 = upd (set_arc (same_name name arc_name)) (upd (set_tags tags) (new_signature, e0))).
    { rewrite E2. destruct (same_name name arc_name); reflexivity. }
    clear E2. subst s2. set (arc := same_name name arc_name) in *.
    apply sbind_Ok in P as (s3 & P3 & P). rewrite parse_d_Ok in P3 by exact G. destruct P3 as (d & Ed & ->).
    apply sbind_Ok in P as (s4 & P4 & P). apply (proj1 (parse_v_Ok _ _)) in P4 as (-> & Ev).
    apply sbind_Ok in P as (s5 & P5 & P). apply (proj1 (parse_a_Ok _ _)) in P5 as (a & dg & al & Ea & Av & ->).
    apply sbind_Ok in P as (s6 & P6 & P). rewrite parse_b_Ok in P6 by exact G. destruct P6 as (b & Eb & Nb & ->).
    apply sbind_Ok in P as (s7 & P7 & P). rewrite parse_bh_Ok in P7 by exact G. destruct P7 as (bh & Ebh & ->).
    apply sbind_Ok in P as (s8 & P8 & P). apply (proj1 (parse_c_Ok _ _)) in P8.
    assert (P8' : exists ch cb, match V tags "c" with None => ch = SIMPLE /\ cb = SIMPLE | Some c => c_value c ch cb end /\
      s8 = (mkSig tags dg al (b64d C (unspaced b)) (b64d C (unspaced bh)) ch cb (lower d) [] [] [] 0 false [] arc 0, e0)).
    { change (stV _ "c") with (V tags "c") in P8. destruct (V tags "c").
      - destruct P8 as (ch & cb & K & ->). exists ch, cb. split; auto.
      - subst s8. exists SIMPLE, SIMPLE. split; auto. }
    destruct P8' as (ch & cb & Kc & ->). clear P8.
    apply sbind_Ok in P as (s9 & P9 & P). rewrite parse_h_Ok in P9 by exact G. destruct P9 as (hv & hs & Eh & Vh & Fh & ->).
    apply sbind_Ok in P as (s10 & P10 & P). apply (proj1 (parse_i_Ok _ _ _)) in P10.
    change (stV _ "i") with (V tags "i") in P10. cbn [upd set_headers fst snd sg_arc sg_domain] in P10.
    assert (P10' : exists loc mdom inst ei, (if arc then
       loc = [] /\ mdom = [] /\ in_range_N 1 50 inst /\
       exists i rest, V tags "i" = Some i /\ strtoul i = (inst, rest, ei)
     else inst = 0%N /\ ei = false /\
       match V tags "i" with
       | None => loc = [] /\ mdom = lower d
       | Some i => exists raw, qp_decode i false = Ok (loc ++ AT :: raw) /\ ~ In AT loc /\
                     strict && existsb is_8bit raw = false /\ mdom = lower raw /\ in_domain mdom (lower d)
       end) /\ s10 = (mkSig tags dg al (b64d C (unspaced b)) (b64d C (unspaced bh)) ch cb (lower d) hs loc mdom 0 false [] arc inst, e0 || ei)).
    { destruct arc.
      - destruct P10 as (i & n & rest & er & Ei & U & R & ->). exists [], [], n, er. split; [|reflexivity].
        split; auto. split; auto. split; auto. eauto.
      - destruct (V tags "i") as [i|].
        + destruct P10 as (loc & raw & Q & NI & ST & D & ->). exists loc, (lower raw), 0%N, false. rewrite orb_false_r.
          split; [|reflexivity]. split; auto. split; auto. exists raw. auto.
        + subst s10. exists [], (lower d), 0%N, false. rewrite orb_false_r. split; auto. }
    destruct P10' as (loc & mdom & inst & ei & Ki & ->). clear P10.
    apply sbind_Ok in P as (s11 & P11 & P). apply (proj1 (parse_l_Ok _ _)) in P11.
    change (stV _ "l") with (V tags "l") in P11. cbn [fst snd] in P11.
    assert (P11' : exists size lim, match V tags "l" with
    | None => size = 0%N /\ lim = false
    | Some l => length l <= 76 /\ (e0 || ei = false) /\ strtoul l = (size, [], false) /\
                (size < 9223372036854775808)%N /\ lim = true
    end /\ s11 = (mkSig tags dg al (b64d C (unspaced b)) (b64d C (unspaced bh)) ch cb (lower d) hs loc mdom size lim [] arc inst, e0 || ei)).
    { destruct (V tags "l").
      - destruct P11 as (L & E & n & U & B & ->). exists n, true. split; [|reflexivity]. auto.
      - subst s11. exists 0%N, false. split; auto. }
    destruct P11' as (size & lim & Kl & ->). clear P11.
    apply sbind_Ok in P as (s12 & P12 & P). apply (proj1 (parse_q_Ok _ _)) in P12 as (-> & Kq).
    apply sbind_Ok in P as (s13 & P13 & P). apply (proj1 (parse_s_Ok _ _)) in P13 as (sel & Es & ->).
    apply (proj1 (parse_x_Ok _ _ _)) in P. change (stV _ "x") with (V tags "x") in P. cbn [upd set_selector fst snd] in P.
    assert (P' : exists ex, match V tags "x" with None => ex = false | Some x => exists v, strtol x = (v, ex) /\ (now <= v)%Z end /\
      st = (mkSig tags dg al (b64d C (unspaced b)) (b64d C (unspaced bh)) ch cb (lower d) hs loc mdom size lim sel arc inst, e0 || ei || ex)).
    { destruct (V tags "x").
      - destruct P as (v & ex & U & L & ->). exists ex. split; eauto.
      - subst st. exists false. rewrite orb_false_r. split; auto. }
    destruct P' as (ex & Kx & ->). unfold arc. eapply sig_ok_intro; eauto.
  - intros K. destruct K as [d a dg al b bh ch cb hv hs loc mdom inst ei size lim sel ex N8 Ed Ev Ea Av Eb Nb Ebh Kc Eh Vh Fh Ki Kl Kq Es Kx].
    set (arc := same_name name arc_name) in *.
    apply sbind_Ok. exists (upd (set_arc arc) (upd (set_tags tags) (new_signature, e0))). split.
    { apply parse_arc_Ok. split; auto. rewrite <- same_arc. fold arc. destruct arc; reflexivity. }
    apply sbind_Ok. eexists. split. { apply parse_d_Ok; [exact G|]. exists d. split; [exact Ed|reflexivity]. }
    apply sbind_Ok. eexists. split. { apply parse_v_Ok. split; [reflexivity|]. exact Ev. }
    apply sbind_Ok. eexists. split. { apply parse_a_Ok. exists a, dg, al. split; [exact Ea|]. split; [exact Av|reflexivity]. }
    apply sbind_Ok. eexists. split. { apply parse_b_Ok; [exact G|]. exists b. split; [exact Eb|]. split; [exact Nb|reflexivity]. }
    apply sbind_Ok. eexists. split. { apply parse_bh_Ok; [exact G|]. exists bh. split; [exact Ebh|reflexivity]. }
    apply sbind_Ok. exists (mkSig tags dg al (b64d C (unspaced b)) (b64d C (unspaced bh)) ch cb (lower d) [] [] [] 0 false [] arc 0, e0). split.
    { apply parse_c_Ok. change (stV _ "c") with (V tags "c"). destruct (V tags "c").
      - exists ch, cb. split; auto.
      - destruct Kc as [-> ->]. reflexivity. }
    apply sbind_Ok. eexists. split. { apply parse_h_Ok; [exact G|]. exists hv, hs. split; [exact Eh|]. split; [exact Vh|]. split; [exact Fh|reflexivity]. }
    apply sbind_Ok. exists (mkSig tags dg al (b64d C (unspaced b)) (b64d C (unspaced bh)) ch cb (lower d) hs loc mdom 0 false [] arc inst, e0 || ei). split.
    { apply parse_i_Ok. change (stV _ "i") with (V tags "i"). cbn [upd set_headers fst snd sg_arc sg_domain]. destruct arc.
      - destruct Ki as (-> & -> & R & i & rest & Ei & U). exists i, inst, rest, ei. auto.
      - destruct Ki as (-> & -> & Ki). rewrite orb_false_r. destruct (V tags "i").
        + destruct Ki as (raw & Q & NI & ST & -> & D). exists loc, raw. auto.
        + destruct Ki as [-> ->]. reflexivity. }
    apply sbind_Ok. exists (mkSig tags dg al (b64d C (unspaced b)) (b64d C (unspaced bh)) ch cb (lower d) hs loc mdom size lim [] arc inst, e0 || ei). split.
    { apply parse_l_Ok. change (stV _ "l") with (V tags "l"). destruct (V tags "l").
      - destruct Kl as (L & E & U & B & ->). split; auto. split; auto. exists size. auto.
      - destruct Kl as [-> ->]. reflexivity. }
    apply sbind_Ok. eexists. split. { apply parse_q_Ok. split; [reflexivity|exact Kq]. }
    apply sbind_Ok. eexists. split. { apply parse_s_Ok. exists sel. split; [exact Es|reflexivity]. }
    apply parse_x_Ok. change (stV _ "x") with (V tags "x"). destruct (V tags "x").
    + destruct Kx as (v & U & L). exists v, ex. auto.
    + subst ex. rewrite orb_false_r. reflexivity.
Qed.

Lemma tags_good input tags : TagList_Parse [] input = (tags, Ok tt) -> good_tags tags.
Proof.
  intros P n v E. apply tags_split in P as (l & R & _ & H & _). unfold V in E.
  destruct (GetTag (str n) tags) as [e|] eqn:G; [|discriminate]. injection E as <-.
  eapply rendered_values; eauto. apply (H n). exists e. auto.
Qed.
Lemma tags_V input tags : TagList_Parse [] input = (tags, Ok tt) ->
  exists l, rendered_tags l input /\ NoDup (map fst l) /\
    (forall n v, V tags n = Some v <-> has l n v) /\ (forall n, V tags n = None <-> lacks l n).
Proof.
  intros P. apply tags_split in P as (l & R & ND & H & K). exists l. split; auto. split; auto. unfold V. split.
  - intros n v. rewrite <- H. unfold tag_is. destruct (GetTag (str n) tags); cbn; split; try discriminate.
    + intros [= <-]; eauto.
    + intros (x & [= <-] & <-). reflexivity.
    + intros (x & E & _). discriminate.
  - intros n. rewrite <- K. destruct (GetTag (str n) tags); cbn; split; auto; discriminate.
Qed.

Lemma Signature_Parse_Ok C strict now h e0 st :
  Signature_Parse C strict now h (new_signature, e0) = (st, Ok tt) <->
  h_voff h <= length (h_text h) /\
  exists tags, TagList_Parse [] (skipn (h_voff h) (h_text h)) = (tags, Ok tt) /\ sig_ok C strict now (h_name h) tags e0 st.
Proof.
  change (Signature_Parse C strict now h (new_signature, e0)) with
    (do s1 <- parse_tags h (new_signature, e0) ;; parse_rest C strict now (h_name h) s1).
  rewrite sbind_Ok. unfold parse_tags, substr_from. destruct (Nat.leb_spec (h_voff h) (length (h_text h))) as [L|L]; cbn [slift fst].
  - change (sg_tags new_signature) with (@nil (bytes * tag_entry)).
    destruct (TagList_Parse [] (skipn (h_voff h) (h_text h))) as [tags r] eqn:P. split.
    + intros (s1 & [= <- ->] & K). split; auto. exists tags. split; auto. apply parse_rest_Ok in K; auto. eapply tags_good; eauto.
    + intros (_ & t & [= -> ->] & K). eexists. split; [reflexivity|]. apply parse_rest_Ok; auto. eapply tags_good; eauto.
  - split; [intros (s1 & [=] & _)|intros [X _]; lia].
Qed.

(** ** How Signature::Parse can end *)
Lemma qp_decode_total us s : (exists d, qp_decode s us = Ok d) \/ qp_decode s us = perm.
Proof.
  unfold qp_decode. rewrite (St_fuel _ _ _ (St_open s)).
  destruct (qp_loop_spec us (S (length s)) _ _ _ [] (St_open s) ltac:(lia)) as [(d & Q & R)|(Q & R)]; rewrite R; eauto.
Qed.
Definition fine {S} (r : S * outcome unit) : Prop := snd r = Ok tt \/ snd r = perm.
Lemma sbind_fine {S} (r : S * outcome unit) k : fine r -> (forall s, fine (k s)) -> fine (sbind r k).
Proof. destruct r as [s o]. intros [E|E] K; cbn in E; subst o; cbn [sbind]; auto. right. reflexivity. Qed.
Lemma slift_fine {S A} (s : S) (m : outcome A) k : (exists a, m = Ok a) \/ m = perm -> (forall a, fine (k a)) -> fine (slift s m k).
Proof. intros [[a ->]| ->] K; cbn [slift]; auto. right. reflexivity. Qed.
Lemma lower_fine s : (exists a, lower_str false s = Ok a) \/ lower_str false s = perm.
Proof. left. eexists. reflexivity. Qed.
Lemma strip_fine s : (exists a, strip_space false s = Ok a) \/ strip_space false s = perm.
Proof. left. eexists. reflexivity. Qed.
Lemma fine_done st : fine (done st). Proof. left. reflexivity. Qed.
Lemma fine_perm st : fine (fail_perm st). Proof. right. reflexivity. Qed.
Ltac fine1 := first [apply fine_done | apply fine_perm].

Lemma parse_rest_fine C now name st : fine (parse_rest C false now name st).
Proof.
  unfold parse_rest.
  apply sbind_fine; [|intros s2; apply sbind_fine; [|intros s3; apply sbind_fine; [|intros s4; apply sbind_fine;
   [|intros s5; apply sbind_fine; [|intros s6; apply sbind_fine; [|intros s7; apply sbind_fine; [|intros s8; apply sbind_fine;
   [|intros s9; apply sbind_fine; [|intros s10; apply sbind_fine; [|intros s11; apply sbind_fine; [|intros s12; apply sbind_fine; [|intros s13]]]]]]]]]]]].
  - unfold parse_arc. apply slift_fine; [apply lower_fine|]. intros a. destruct (beqb _ _); fine1.
  - unfold parse_d. destruct (tag "d" s2); [|fine1]. apply slift_fine; [apply lower_fine|]. intros a. fine1.
  - unfold parse_v. destruct (sg_arc _); [fine1|]. destruct (tag _ _); [|fine1]. destruct (beqb _ _); fine1.
  - unfold parse_a. destruct (tag _ _); [|fine1]. repeat (destruct (beqb _ _); [fine1|]). fine1.
  - unfold parse_b. destruct (tag _ _) as [b|]; [|fine1]. destruct (te_value b); [fine1|]. apply slift_fine; [apply strip_fine|]. intros; fine1.
  - unfold parse_bh. destruct (tag _ _) as [b|]; [|fine1]. apply slift_fine; [apply strip_fine|]. intros; fine1.
  - unfold parse_c. destruct (tag _ _) as [b|]; [|fine1]. destruct (match find_char _ _ with None => _ | Some _ => _ end) as [x y].
    destruct (mode_of x); [|fine1]. destruct (mode_of y); fine1.
  - unfold parse_h. destruct (tag _ _) as [b|]; [|fine1]. apply slift_fine.
    + destruct (ValueList_any (te_value b)) as [->|(vs & -> & _)]; eauto.
    + intros a. destruct (existsb _ _); fine1.
  - unfold parse_i. destruct (sg_arc _).
    + destruct (tag _ _) as [b|]; [|fine1]. destruct (strtoul _) as [[n r] er]. destruct (_ || _); fine1.
    + destruct (tag _ _) as [b|]; [|fine1]. apply slift_fine; [|intros mail].
      * apply qp_decode_total.
      * destruct (find_char _ _); [|fine1]. apply slift_fine; [apply lower_fine|]. intros a. destruct (_ || _); fine1.
  - unfold parse_l. destruct (tag _ _) as [b|]; [|fine1]. destruct (Nat.ltb _ _); [fine1|]. destruct (strtoul _) as [[n r] er].
    cbv zeta. destruct (snd _); [fine1|]. destruct (_ <=? _)%N; [fine1|]. destruct r; fine1.
  - unfold parse_q. destruct (tag _ _) as [b|]; [|fine1]. destruct (beqb _ _); fine1.
  - unfold parse_s. destruct (tag _ _) as [b|]; fine1.
  - unfold parse_x. destruct (tag _ _) as [b|]; [|fine1]. destruct (strtol _) as [v er]. cbv zeta. destruct (_ <? _)%Z; fine1.
Qed.

Lemma Signature_Parse_fine C now h st : h_voff h <= length (h_text h) -> fine (Signature_Parse C false now h st).
Proof.
  intros L. change (Signature_Parse C false now h st) with (do s1 <- parse_tags h st ;; parse_rest C false now (h_name h) s1).
  apply sbind_fine; [|intros; apply parse_rest_fine]. unfold parse_tags, substr_from.
  destruct (Nat.leb_spec (h_voff h) (length (h_text h))); [|lia]. cbn [slift].
  destruct (TagList_total (sg_tags (fst st)) (skipn (h_voff h) (h_text h))) as (t & [E|E]); rewrite E; [left|right]; reflexivity.
Qed.
(** A field refused for whatever reason is refused with PermanentError. *)
Lemma Signature_Parse_perm C now h st : h_voff h <= length (h_text h) ->
  (forall g, Signature_Parse C false now h st <> (g, Ok tt)) -> snd (Signature_Parse C false now h st) = perm.
Proof.
  intros L N. destruct (Signature_Parse_fine C now h st L) as [E|E]; auto.
  destruct (Signature_Parse C false now h st) as [g o] eqn:P. cbn in E. subst o. destruct (N g eq_refl).
Qed.

(** ** Numbers *)
Lemma is_digit_spec c : is_digit c = true <-> between 48 57 c.
Proof. unfold is_digit, in_range, between. rewrite andb_true_iff, !N.leb_le. reflexivity. Qed.
Lemma digits_val_all v acc rest : Forall (between 48 57) v -> first_ok (fun c => ~ between 48 57 c) rest ->
  digits_val acc (v ++ rest) = (fold_left (fun a c => 10 * a + (code c - 48))%N v acc, rest).
Proof.
  intros F R. revert acc. induction F as [|c v H F IH]; intros acc.
  - destruct rest as [|c r]; [reflexivity|]. cbn [app digits_val fold_left]. cbn in R.
    destruct (is_digit c) eqn:E; [apply is_digit_spec in E; tauto|reflexivity].
  - cbn [app digits_val]. apply is_digit_spec in H. rewrite H. rewrite IH. reflexivity.
Qed.
Lemma digit_plain c : between 48 57 c -> isspace c = false /\ (c =?c chr 45) = false /\ (c =?c chr 43) = false.
Proof.
  intros B. apply is_digit_spec in B.
  assert (X : forall c, implb (is_digit c) (negb (isspace c) && negb (c =?c chr 45) && negb (c =?c chr 43)) = true).
  { apply byte_sweep. vm_compute. reflexivity. }
  specialize (X c). rewrite B in X. cbn [implb] in X. apply andb_true_iff in X as [X X3]. apply andb_true_iff in X as [X1 X2].
  apply negb_true_iff in X1, X2, X3. auto.
Qed.
Lemma strto_scan_digits v rest : digits v -> first_ok (fun c => ~ between 48 57 c) rest ->
  strto_scan (v ++ rest) = Some (false, dec_value v, rest).
Proof.
  intros [N F] R. unfold strto_scan. pose proof (digits_val_all v 0 rest F R) as D. destruct v as [|c v]; [congruence|]. inversion F as [|c' v' B F' E1]; subst.
  destruct (digit_plain c B) as (X1 & X2 & X3). cbn [app skip_isspace] in *. rewrite X1. cbn [read_sign]. rewrite X2, X3.
  apply is_digit_spec in B. rewrite B. rewrite D. reflexivity.
Qed.
Lemma digits_c_str v : digits v -> c_str v = v.
Proof.
  intros [_ F]. apply c_str_id. intros I. rewrite Forall_forall in F. apply F in I. destruct I as [I _].
  vm_compute in I. apply I. reflexivity.
Qed.
Lemma strtoul_digits v : digits v ->
  strtoul v = if (ULONG_MAX <? dec_value v)%N then (ULONG_MAX, [], true) else (dec_value v, [], false).
Proof.
  intros D. unfold strtoul. rewrite (digits_c_str v D). rewrite <- (app_nil_r v) at 1. rewrite (strto_scan_digits v [] D I). reflexivity.
Qed.
Lemma strtol_digits v : digits v ->
  strtol v = if (LONG_MAX <? Z.of_N (dec_value v))%Z then (LONG_MAX, true) else (Z.of_N (dec_value v), false).
Proof.
  intros D. unfold strtol. rewrite (digits_c_str v D). rewrite <- (app_nil_r v) at 1. rewrite (strto_scan_digits v [] D I).
  cbv zeta. destruct (LONG_MAX <? _)%Z; [reflexivity|]. unfold LONG_MIN. destruct (Z.ltb_spec (Z.of_N (dec_value v)) (-9223372036854775808)); [lia|reflexivity].
Qed.
Lemma strtoul_small v n rest er : strtoul v = (n, rest, er) -> (n <= 50)%N -> er = false.
Proof.
  unfold strtoul. destruct (strto_scan _) as [[[neg m] r]|]; [|congruence].
  destruct (ULONG_MAX <? m)%N; [|destruct neg; congruence]. intros [= <- <- <-]. unfold ULONG_MAX. lia.
Qed.
