(** Header canonicalization: idempotence, refolding, unambiguity. *)
From Verif Require Import Bytes Outcome Stream Tokenizer MailParser Canonicalization BytesFacts StreamFacts TokenizerFacts
  SpecText SpecMail SpecCanon QPFacts ListFacts MailFacts HeaderFacts.

(** ** Idempotence *)
Lemma unfolded_idem t u : unfolded t u -> unfolded u u.
Proof.
  induction 1 as [w W|c t u NW NC U IH|w c t u N W NW NC U IH].
  - apply unf_end. constructor.
  - apply unf_char; auto.
  - destruct (unfolded_char c t u NW NC U) as (u2 & -> & U2).
    apply (unf_run [SP] c u2); auto; [discriminate|]. apply ws_FWSs, ws_wsp; [left; reflexivity|apply ws_nil].
Qed.
Lemma unfolded_lowered t u : unfolded (lower t) u -> lower u = u.
Proof.
  intros U. unfold lower. rewrite <- (map_id u) at 2. apply map_ext_in. intros c I.
  destruct (unfolded_In _ _ _ U I) as [->|K]; [reflexivity|]. apply in_map_iff in K as (d & <- & _). apply tolower_idem.
Qed.
Lemma relaxed_field_idem t n out : relaxed_field t n out -> exists n', relaxed_field out n' out /\ (existsb is_8bit n = false -> existsb is_8bit n' = false).
Proof.
  intros R. destruct R as [n n' w1 w2 v v' NE NC LO UN W1 W2 FV UV]. exists n'. change (map low n) with (lower n) in UN.
  assert (LO' : last_ok (fun c => ~ WSP c) (lower n)).
  { unfold last_ok in *. unfold lower. rewrite <- map_rev. destruct (rev n); cbn in *; auto. rewrite tolower_WSP. auto. }
  assert (NE' : lower n <> []) by (destruct n; [congruence|discriminate]).
  destruct (unfolded_last _ _ UN NE' LO') as (a & c & EA & NWc).
  split.
  - apply (rf_intro n' n' [] [] v' v'); try constructor.
    + rewrite EA. destruct a; discriminate.
    + intros I. destruct (unfolded_In _ _ _ UN I) as [K|K]; [discriminate|]. revert K. apply lower_colon. auto.
    + rewrite EA. apply last_ok_snoc. auto.
    + change (map low n') with (lower n'). rewrite (unfolded_lowered n) by auto. eapply unfolded_idem; eauto.
    + destruct v as [|d v]; cbn in *.
      * inversion UV as [| |w ? ? ? ? ? ? ? ? E]; subst; [exact I|destruct w; discriminate].
      * destruct FV as [A B]. destruct (unfolded_char d v v' A B UV) as (u2 & -> & _). cbn. auto.
    + eapply unfolded_idem; eauto.
  - intros H8. destruct (existsb is_8bit n') eqn:E8; auto. apply existsb_exists in E8 as (d & I & D8).
    destruct (unfolded_In _ _ _ UN I) as [K|K].
    + subst. discriminate.
    + apply in_map_iff in K as (e & <- & IE). assert (X : existsb is_8bit n = true); [|congruence].
      apply existsb_exists. exists e. split; auto.
      assert (Y : forall c, is_8bit (tolower c) = is_8bit c).
      { intros x. apply Bool.eqb_prop. revert x. apply byte_sweep. vm_compute. reflexivity. }
      rewrite <- Y. auto.
Qed.
Lemma header_idem strict t n out : relaxed_field t n out -> strict && existsb is_8bit n = false ->
  FilterHeader strict RELAXED out = Ok out.
Proof.
  intros R S8. destruct (relaxed_field_idem _ _ _ R) as (n' & R' & H8). apply (FilterHeader_relaxed strict _ _ _ R').
  destruct strict; cbn [andb] in *; auto.
Qed.

(** A blank name. *)
Lemma FilterHeader_blank strict w1 w2 v v' : FWSs w1 -> FWSs w2 -> first_ok (fun c => ~ WSP c /\ c <> CR) v -> unfolded v v' ->
  FilterHeader strict RELAXED (w1 ++ COLON :: w2 ++ v) = Ok (sp_if w1 ++ COLON :: v').
Proof.
  intros W1 W2 FV UV.
  assert (NC : forall w, FWSs w -> ~ In COLON w).
  { intros w F I. destruct (ws_chars w COLON (FWSs_ws _ F) I) as [[K|K]|[K|K]]; discriminate. }
  unfold FilterHeader. rewrite find_char_app by auto. rewrite firstn_app_exact, skipn_app_exact.
  rewrite lower_ok by (rewrite FWSs_7bit by auto; apply andb_false_r). cbn [obind]. rewrite lower_FWSs_id by auto.
  assert (UT : unfolded (w1 ++ COLON :: w2 ++ v) (sp_if w1 ++ COLON :: (match v with [] => [] | _ => sp_if w2 end) ++ v')).
  { assert (UC : unfolded (COLON :: w2 ++ v) (COLON :: (match v with [] => [] | _ => sp_if w2 end) ++ v')).
    { apply unf_char; [intros [K|K]; discriminate|discriminate|]. apply unfolded_ws; auto. }
    apply (unfolded_ws w1 (COLON :: w2 ++ v) _ W1); auto. cbn. split; [intros [K|K]; discriminate|discriminate]. }
  rewrite (St_fuel _ _ _ (St_open _)).
  rewrite (fh_unfolded _ _ UT _ _ _ [] (St_open _)) by lia. cbn [obind app].
  set (B := sp_if w1). assert (NB : ~ In COLON B) by (subst B; destruct w1; cbn; [auto|intros [K|[]]; discriminate]).
  rewrite find_char_app by auto.
  assert (X1 : (match find_first_not is_sp (skipn (S (length B)) (B ++ COLON :: match v with [] => [] | _ :: _ => sp_if w2 end ++ v')) with
     | Some k => erase_at (B ++ COLON :: match v with [] => [] | _ :: _ => sp_if w2 end ++ v') (S (length B)) k
     | None => B ++ COLON :: match v with [] => [] | _ :: _ => sp_if w2 end ++ v' end) = B ++ COLON :: v').
  { assert (EB : forall y, B ++ COLON :: y = (B ++ [COLON]) ++ y) by (intros; rewrite <- app_assoc; reflexivity).
    assert (LB : S (length B) = length (B ++ [COLON])) by (rewrite app_length; cbn [length]; lia).
    rewrite (EB (_ ++ v')), (EB v'), LB, skipn_app_exact.
    destruct (unfolded_first v v' UV FV) as [[-> ->]|(c & a & -> & NWc)].
    - cbn. reflexivity.
    - set (g := match v with [] => [] | _ :: _ => sp_if w2 end). rewrite find_first_not_app.
      + rewrite erase_at_app. reflexivity.
      + subst g. destruct v; [reflexivity|]. destruct w2; reflexivity.
      + apply is_sp_not. auto. }
  rewrite X1, firstn_app_exact. subst B. destruct w1; reflexivity.
Qed.
Lemma FilterHeader_bare w r out : FWSs w -> crlf_folds (w ++ COLON :: r) -> FilterHeader false RELAXED (w ++ COLON :: r) = Ok out ->
  exists w2 v v', r = w2 ++ v /\ FWSs w2 /\ first_ok (fun c => ~ WSP c /\ c <> CR) v /\ unfolded v v'.
Proof.
  intros W CF. unfold FilterHeader, lower_str. cbn [andb].
  assert (NC : ~ In COLON w) by (intros I; destruct (ws_chars w COLON (FWSs_ws _ W) I) as [[K|K]|[K|K]]; discriminate).
  rewrite find_char_app, firstn_app_exact, skipn_app_exact by auto. cbn [obind]. rewrite lower_FWSs_id by auto.
  rewrite (St_fuel _ _ _ (St_open _)).
  destruct (fh_complete (S (length (w ++ COLON :: r))) (open_str (w ++ COLON :: r)) _ _ [] (St_open _) CF) as [P|(u & U & P)];
    [lia|rewrite P; discriminate|]. intros _.
  assert (X : exists u2, unfolded (COLON :: r) u2).
  { inversion U as [w0 W0|c t u0 A B D ET|w0 c t u0 N0 W0 A B D ET]; subst.
    - exfalso. destruct (ws_chars (w ++ COLON :: r) COLON (FWSs_ws _ W0)) as [[K|K]|[K|K]]; try discriminate. apply in_or_app. right. left. reflexivity.
    - destruct w as [|x w]; [exists (c :: u0); exact U|]. exfalso. injection ET as E0 _. apply FWSs_ws in W. rewrite <- E0 in W. inversion W; subst; [apply A; assumption|apply B; reflexivity].
    - assert (Y : w0 = w /\ c = COLON /\ t = r); [|destruct Y as (_ & -> & ->); eauto].
      clear - ET W W0 A B NC. apply FWSs_ws in W. apply FWSs_ws in W0. revert w0 W0 ET.
      induction W as [|x w WX W IH|x w WX W IH]; intros w0 W0 ET.
      + destruct W0; cbn [app] in ET; injection ET as E1 E2; subst; auto; destruct H; discriminate.
      + destruct W0; cbn [app] in ET.
        * injection ET as -> _. contradiction.
        * injection ET as -> ET. destruct (IH ltac:(intros K; apply NC; right; auto) w0 W0 ET) as (-> & -> & ->). auto.
        * injection ET as <- _. destruct WX; discriminate.
      + destruct W0; cbn [app] in ET.
        * injection ET as -> _. contradiction.
        * injection ET as -> _. destruct H; discriminate.
        * injection ET as -> ET. destruct (IH ltac:(intros K; apply NC; right; right; right; auto) w0 W0 ET) as (-> & -> & ->). auto. }
  destruct X as (u2 & U2). destruct (unfolded_char COLON r u2) as (u3 & _ & U3); auto; [intros [K|K]; discriminate|discriminate|].
  apply unfolded_value in U3. exact U3.
Qed.
Lemma header_idem_all strict t out : crlf_folds t -> FilterHeader strict RELAXED t = Ok out -> FilterHeader strict RELAXED out = Ok out.
Proof.
  intros CF E.
  assert (S8 : forall n, relaxed_field t n out -> strict && existsb is_8bit n = false).
  { intros n R. destruct strict; auto. cbn [andb]. destruct R as [n n' w1 w2 v v' NE NC LO UN W1 W2 FV UV].
    revert E. unfold FilterHeader. rewrite app_assoc, find_char_app, firstn_app_exact.
    - unfold lower_str. rewrite existsb_app, (FWSs_7bit w1), orb_false_r by auto. cbn [andb]. destruct (existsb is_8bit n); [discriminate|auto].
    - intros I. apply in_app_or in I as [I|I]; auto. destruct (ws_chars w1 COLON (FWSs_ws _ W1) I) as [[K|K]|[K|K]]; discriminate. }
  assert (EF : FilterHeader false RELAXED t = Ok out).
  { revert E. unfold FilterHeader, lower_str. destruct (find_char COLON t); auto. destruct strict; auto. cbn [andb].
    destruct existsb; [discriminate|auto]. }
  destruct (FilterHeader_shape t CF) as [P|(o & P & [(n & R)|(w & r & W & ->)])]; [rewrite EF in P; discriminate| |]; rewrite EF in P; injection P as <-.
  - eapply header_idem; eauto.
  - destruct (FilterHeader_bare w r out W CF EF) as (w2 & v & v' & -> & W2 & FV & UV).
    rewrite (FilterHeader_blank strict w w2 v v' W W2 FV UV) in E. injection E as <-.
    assert (FV' : first_ok (fun c => ~ WSP c /\ c <> CR) v').
    { destruct v as [|d v]; cbn in *.
      - inversion UV as [| |w0 ? ? ? ? ? ? ? ? E]; subst; [exact I|destruct w0; discriminate].
      - destruct FV as [A B]. destruct (unfolded_char d v v' A B UV) as (u2 & -> & _). cbn. auto. }
    pose proof (FilterHeader_blank strict (sp_if w) [] v' v') as X. cbn [app] in X. rewrite X; auto.
    + destruct w; reflexivity.
    + destruct w; cbn; [constructor|]. apply (FWSs_cons [SP] []); [constructor; [constructor; [left; reflexivity|constructor]|discriminate]|constructor].
    + constructor.
    + eapply unfolded_idem; eauto.
Qed.

(** ** Refolding *)
Lemma refolded_same t t' : refolded t t' -> exists u, unfolded t u /\ unfolded t' u.
Proof.
  induction 1 as [w w' W W'|c t t' NW NC R (u & U & U')|w w' c t t' N N' W W' NW NC R (u & U & U')].
  - exists []. split; apply unf_end; auto.
  - exists (c :: u). split; apply unf_char; auto.
  - exists (SP :: u). split; apply unf_run; auto.
Qed.
Lemma same_field_same t t' : same_field t t' -> exists n n' out, relaxed_field t n out /\ relaxed_field t' n' out.
Proof.
  intros [n m w1 w2 w3 w4 v v' NE NC LO ME MC LO' FV FV' W1 W2 W3 W4 RN RV].
  destruct (refolded_same _ _ RN) as (un & U1 & U2). destruct (refolded_same _ _ RV) as (uv & V1 & V2).
  exists n, m, (un ++ COLON :: uv). split; apply rf_intro; auto.
Qed.
Lemma header_refold t t' : same_field t t' -> exists out, FilterHeader false RELAXED t = Ok out /\ FilterHeader false RELAXED t' = Ok out.
Proof.
  intros S. destruct (same_field_same _ _ S) as (n & m & out & R & R'). exists out.
  split; [apply (FilterHeader_relaxed false _ _ _ R)|apply (FilterHeader_relaxed false _ _ _ R')]; reflexivity.
Qed.

(** ** Totality for every text *)
Lemma fh_total f : forall s p t x, St s p t -> length t < f -> fh_loop f s x = perm \/ exists y, fh_loop f s x = Ok y.
Proof.
  induction f as [|f IH]; intros s p t x H L; [lia|]. rewrite fh_step. fold (fws_found s). unfold fws_found.
  pose proof (read_fws_St _ _ _ H) as R. destruct (l_fws t) as [[w r1]|] eqn:LF1; [|rewrite R; left; reflexivity].
  destruct R as (s1 & R & H1). rewrite R. cbn [obind]. pose proof (l_fws_app _ _ _ LF1) as E.
  assert (STEP : forall (fd : bool) s2 p2 r2, St s2 p2 r2 -> length r2 <= length t ->
    let K := (let '(o, s3) := peek s2 in
      match o with
      | None => Ok x
      | Some _ => let '(g, s4) := get s3 in fh_loop f s4 (x ++ (if fd then [SP] else []) ++ [as_char g])
      end) in K = perm \/ exists y, K = Ok y).
  { intros fd s2 p2 r2 H2 L2. cbv zeta. destruct r2 as [|c r2].
    - peek_at H2. eauto.
    - peek_at H2. get_at H2. eapply IH; [exact H0|]. cbn [length] in L2. lia. }
  destruct w as [|c w]; cbn [obind].
  - cbn in E. subst r1. apply (STEP false s1 _ t H1). auto.
  - destruct (skip_fws_any (fuel_of s1) s1 _ r1 H1) as [P|(s2 & p2 & a & r2 & P & H2 & E2 & _)].
    + rewrite (St_fuel _ _ _ H1). lia.
    + left. rewrite P. reflexivity.
    + rewrite P. cbn [obind]. apply (STEP true s2 p2 r2 H2). subst. rewrite !app_length. lia.
Qed.
Lemma FilterHeader_total mode t : FilterHeader false mode t = perm \/ exists out, FilterHeader false mode t = Ok out.
Proof.
  destruct mode; [right; eexists; reflexivity|]. unfold FilterHeader, lower_str.
  destruct (find_char COLON t) as [k|]; [|left; reflexivity]. cbn [andb obind].
  set (o := lower (firstn k t) ++ skipn k t).
  destruct (fh_total (fuel_of (open_str o)) (open_str o) _ _ [] (St_open _)) as [P|(y & P)].
  - rewrite (St_fuel _ _ _ (St_open _)). lia.
  - left. rewrite P. reflexivity.
  - rewrite P. cbn [obind]. destruct (find_char COLON y); [|left; reflexivity]. right.
    destruct find_last_not; [destruct Nat.eqb|]; eauto.
Qed.

(** ** Field boundaries *)
Lemma app_split (a b c d : bytes) : a ++ b = c ++ d -> (exists l, a = c ++ l /\ d = l ++ b) \/ (exists l, c = a ++ l /\ b = l ++ d).
Proof.
  revert c. induction a as [|x a IH]; intros c E.
  - right. exists c. auto.
  - destruct c as [|y c]; [left; exists (x :: a); auto|]. injection E as -> E.
    destruct (IH c E) as [(l & -> & ->)|(l & -> & ->)]; [left|right]; exists l; auto.
Qed.
Definition no_wsp_first (r : bytes) : Prop := match r with [] => True | c :: _ => ~ WSP c end.
Lemma boundary x y r r' : lf_folds x -> lf_folds y -> no_wsp_first r -> no_wsp_first r' ->
  x ++ CRLF ++ r = y ++ CRLF ++ r' -> x = y /\ r = r'.
Proof.
  assert (HALF : forall x y l r r', lf_folds x -> no_wsp_first r' -> x = y ++ l -> CRLF ++ r' = l ++ CRLF ++ r -> l = [] /\ r = r').
  { intros x0 y0 l r0 r0' LX N -> E. destruct l as [|a [|b l]].
    - injection E as ->. auto.
    - discriminate.
    - injection E as <- <- E. exfalso. destruct (LX (y0 ++ [CR]) l) as (c & q & -> & W).
      + rewrite <- app_assoc. reflexivity.
      + subst r0'. cbn in N. auto. }
  intros LX LY N N' E. destruct (app_split _ _ _ _ E) as [(l & EX & E')|(l & EY & E')].
  - destruct (HALF x y l r r' LX N' EX E') as [-> ->]. rewrite app_nil_r in EX. auto.
  - destruct (HALF y x l r' r LY N EY E') as [-> ->]. rewrite app_nil_r in EY. auto.
Qed.
Lemma with_crlf_first xs s : Forall begins_field xs -> (s = [] \/ begins_field s) -> no_wsp_first (with_crlf xs ++ s).
Proof.
  intros F S. destruct F as [|x xs (c & r & -> & W) F]; cbn.
  - destruct S as [->|(c & r & -> & W)]; cbn; auto.
  - auto.
Qed.
Lemma crlf_not_last xs x s s' : Forall begins_field xs -> (s = [] \/ begins_field s) -> lf_folds s' ->
  with_crlf (x :: xs) ++ s = s' -> False.
Proof.
  intros F S L E. change (with_crlf (x :: xs)) with ((x ++ CRLF) ++ with_crlf xs) in E. rewrite <- !app_assoc in E.
  destruct (L (x ++ [CR]) (with_crlf xs ++ s)) as (c & r & EQ & W).
  - rewrite <- app_assoc. auto.
  - pose proof (with_crlf_first xs s F S) as N. rewrite EQ in N. auto.
Qed.
Lemma stream_simple xs : forall ys s s', Forall (fun x => lf_folds x /\ begins_field x) xs -> Forall (fun x => lf_folds x /\ begins_field x) ys ->
  lf_folds s -> lf_folds s' -> (s = [] \/ begins_field s) -> (s' = [] \/ begins_field s') ->
  with_crlf xs ++ s = with_crlf ys ++ s' -> xs = ys /\ s = s'.
Proof.
  assert (BF : forall l, Forall (fun x => lf_folds x /\ begins_field x) l -> Forall begins_field l).
  { intros l. apply Forall_impl. tauto. }
  induction xs as [|x xs IH]; intros ys s s' FX FY LS LS' BS BS' E.
  - destruct ys as [|y ys]; [auto|]. exfalso. inversion FY; subst. apply (crlf_not_last ys y s' s); auto.
  - destruct ys as [|y ys].
    + exfalso. inversion FX; subst. apply (crlf_not_last xs x s s'); auto.
    + inversion FX as [|? ? [A B] FX']; subst. inversion FY as [|? ? [A' B'] FY']; subst.
      change (with_crlf (x :: xs)) with ((x ++ CRLF) ++ with_crlf xs) in E. change (with_crlf (y :: ys)) with ((y ++ CRLF) ++ with_crlf ys) in E.
      rewrite <- !app_assoc in E.
      destruct (boundary x y _ _ A A' (with_crlf_first xs s (BF _ FX') BS) (with_crlf_first ys s' (BF _ FY') BS') E) as [-> E'].
      destruct (IH ys s s' FX' FY' LS LS' BS BS' E') as [-> ->]. auto.
Qed.
Lemma no_lf_app x y r r' : ~ In LF x -> ~ In LF y -> x ++ CRLF ++ r = y ++ CRLF ++ r' -> x = y /\ r = r'.
Proof.
  assert (HALF : forall x y l r r', ~ In LF x -> x = y ++ l -> CRLF ++ r' = l ++ CRLF ++ r -> l = [] /\ r = r').
  { intros x0 y0 l r0 r0' N -> E. destruct l as [|a [|b l]].
    - injection E as ->. auto.
    - discriminate.
    - injection E as <- <- E. exfalso. apply N, in_or_app. right. right. left. reflexivity. }
  intros NX NY E. destruct (app_split _ _ _ _ E) as [(l & EX & E')|(l & EY & E')].
  - destruct (HALF x y l r r' NX EX E') as [-> ->]. rewrite app_nil_r in EX. auto.
  - destruct (HALF y x l r' r NY EY E') as [-> ->]. rewrite app_nil_r in EY. auto.
Qed.
Lemma stream_no_lf xs : forall ys s s', Forall (fun x => ~ In LF x) xs -> Forall (fun x => ~ In LF x) ys -> ~ In LF s -> ~ In LF s' ->
  with_crlf xs ++ s = with_crlf ys ++ s' -> xs = ys /\ s = s'.
Proof.
  induction xs as [|x xs IH]; intros ys s s' FX FY NS NS' E.
  - destruct ys as [|y ys]; [auto|]. exfalso. apply NS. cbn in E. rewrite E. rewrite <- !app_assoc. apply in_or_app. right. right. left. reflexivity.
  - destruct ys as [|y ys].
    + exfalso. apply NS'. cbn in E. rewrite <- E. rewrite <- !app_assoc. apply in_or_app. right. right. left. reflexivity.
    + inversion FX as [|? ? A FX']; subst. inversion FY as [|? ? A' FY']; subst.
      change (with_crlf (x :: xs)) with ((x ++ CRLF) ++ with_crlf xs) in E. change (with_crlf (y :: ys)) with ((y ++ CRLF) ++ with_crlf ys) in E.
      rewrite <- !app_assoc in E. destruct (no_lf_app x y _ _ A A' E) as [-> E'].
      destruct (IH ys s s' FX' FY' NS NS' E') as [-> ->]. auto.
Qed.

(** ** Fields of a message *)
(** Every LF has a CR before it. *)
Definition cr_before (t : bytes) : Prop := forall a b, t = a ++ LF :: b -> exists a', a = a' ++ [CR].
Lemma lf_crlf_folds t : lf_folds t -> crlf_folds t.
Proof. intros L a b ->. apply (L (a ++ [CR]) b). rewrite <- app_assoc. reflexivity. Qed.
Lemma joined_lf g : field_lines g -> Forall (fun l => ~ In LF l) g -> lf_folds (joined g) /\ cr_before (joined g).
Proof.
  destruct g as [|l g]; [intros []|]. cbn [field_lines]. intros FC FN. revert l FN.
  induction FC as [|m g C FC IH]; intros l FN.
  - inversion FN as [|? ? NL _]; subst. cbn [joined]. split; intros a b ->; exfalso; apply NL, in_or_app; right; left; reflexivity.
  - inversion FN as [|? ? NL FN']; subst. destruct (IH m FN') as [A B].
    change (joined (l :: m :: g)) with (l ++ CRLF ++ joined (m :: g)).
    set (j := joined (m :: g)) in *.
    assert (JC : exists c r, j = c :: r /\ WSP c).
    { destruct C as (c & r & -> & W). subst j. destruct g as [|x g]; [exists c, r; auto|].
      exists c, (r ++ CRLF ++ joined (x :: g)). split; auto. }
    split; intros a b E; destruct (app_split _ _ _ _ E) as [(k & EL & E')|(k & EA & E')].
    + destruct k as [|y k]; [discriminate|]. injection E' as <- E'. exfalso. apply NL. rewrite EL. apply in_or_app. right. left. reflexivity.
    + destruct k as [|k0 [|k1 k]]; [discriminate|injection E' as _ E'; subst b; auto|].
      injection E' as _ _ E'. apply (A k b). auto.
    + destruct k as [|y k]; [discriminate|]. injection E' as <- E'. exfalso. apply NL. rewrite EL. apply in_or_app. right. left. reflexivity.
    + destruct k as [|k0 [|k1 k]]; [discriminate|injection E' as <- E'; exists l; auto|].
      injection E' as <- <- E'. destruct (B k b E') as (a' & ->). exists (l ++ CR :: LF :: a'). rewrite EA, <- app_assoc. reflexivity.
Qed.

Lemma cr_before_tail c t : c <> CR -> cr_before (c :: t) -> c <> LF /\ cr_before t.
Proof.
  intros NC H. split.
  - intros ->. destruct (H [] t eq_refl) as (a' & E). destruct a'; discriminate.
  - intros a b ->. destruct (H (c :: a) b eq_refl) as (a' & E). destruct a' as [|x a']; [injection E as -> _; congruence|].
    injection E as -> ->. eauto.
Qed.
Lemma cr_before_ws w t : ws w -> cr_before (w ++ t) -> cr_before t.
Proof.
  intros W H a b ->. destruct (H (w ++ a) b) as (a' & E); [apply app_assoc|].
  assert (LA : a = [] \/ exists a0 c, a = a0 ++ [c]).
  { destruct a as [|x a]; auto. right. destruct (exists_last (l := x :: a) ltac:(discriminate)) as (a0 & c & ->). eauto. }
  destruct LA as [->|(a0 & c & ->)].
  - rewrite app_nil_r in E. destruct w as [|x w]; [destruct a'; discriminate|].
    destruct (ws_last (x :: w) W ltac:(discriminate)) as (y & d & E2 & Wd). rewrite E2 in E. apply app_inj_tail in E as [_ ->].
    destruct Wd; discriminate.
  - rewrite app_assoc in E. apply app_inj_tail in E as [_ ->]. eauto.
Qed.
Lemma unfolded_no_lf t u : unfolded t u -> cr_before t -> ~ In LF u.
Proof.
  induction 1 as [w W|c t u NW NC U IH|w c t u N W NW NC U IH]; intros H.
  - intros [].
  - destruct (cr_before_tail c t NC H) as [A B]. intros [K|K]; [auto|]. apply IH; auto.
  - intros [K|K]; [discriminate|]. revert K. apply IH. eapply cr_before_ws; [apply FWSs_ws; exact W|exact H].
Qed.

Definition alike (c d : ascii) : Prop := (c = CR <-> d = CR) /\ (c = LF <-> d = LF).
Lemma alike_refl t : Forall2 alike t t.
Proof. induction t; constructor; auto. split; tauto. Qed.
Lemma alike_lower t : Forall2 alike (lower t) t.
Proof. induction t; cbn; constructor; auto. split; apply tolower_keep; reflexivity. Qed.
Lemma cr_before_alike t t' : Forall2 alike t' t -> cr_before t -> cr_before t'.
Proof.
  intros F H a b ->. apply Forall2_app_inv_l in F as (a1 & b1 & Fa & Fb & ->). inversion Fb as [|? c ? b2 [_ AL] Fb2]; subst.
  assert (c = LF) by (apply AL; reflexivity). subst c. destruct (H a1 b2 eq_refl) as (a' & ->).
  apply Forall2_app_inv_r in Fa as (x & y & F1 & F2 & ->). inversion F2 as [|d ? l ? [AC _] F3]; subst. inversion F3; subst.
  assert (d = CR) by (apply AC; reflexivity). subst. eauto.
Qed.
Lemma skipn_In {A} (c : A) n x : In c (skipn n x) -> In c x.
Proof. intros I. rewrite <- (firstn_skipn n x). apply in_or_app. auto. Qed.
Lemma firstn_In {A} (c : A) n x : In c (firstn n x) -> In c x.
Proof. intros I. rewrite <- (firstn_skipn n x). apply in_or_app. auto. Qed.
Lemma erase_at_In c x i k : In c (erase_at x i k) -> In c x.
Proof. unfold erase_at. intros I. apply in_app_or in I as [I|I]; [eapply firstn_In|eapply skipn_In]; eauto. Qed.
Lemma FilterHeader_strict strict mode t out : FilterHeader strict mode t = Ok out -> FilterHeader false mode t = Ok out.
Proof.
  destruct mode; auto. unfold FilterHeader, lower_str. destruct (find_char COLON t); auto.
  destruct strict; auto. cbn [andb]. destruct existsb; [discriminate|auto].
Qed.
Lemma FilterHeader_bytes t out : crlf_folds t -> FilterHeader false RELAXED t = Ok out ->
  exists pre post u, t = pre ++ COLON :: post /\ unfolded (lower pre ++ COLON :: post) u /\ forall c, In c out -> In c u.
Proof.
  intros CF. unfold FilterHeader, lower_str. cbn [andb]. destruct (find_char COLON t) as [k|] eqn:FC; [|discriminate].
  apply find_char_Some in FC as (pre & post & -> & <- & NC). cbn [obind]. rewrite firstn_app_exact, skipn_app_exact.
  pose proof (crlf_folds_lower _ _ CF) as CF2. rewrite (St_fuel _ _ _ (St_open _)).
  destruct (fh_complete (S (length (lower pre ++ COLON :: post))) (open_str (lower pre ++ COLON :: post)) _ _ [] (St_open _) CF2) as [P|(u & U & P)];
    [lia|rewrite P; discriminate|].
  rewrite P. cbn [obind app]. destruct (find_char COLON u) as [cs|]; [|discriminate]. intros E. exists pre, post, u. split; [reflexivity|]. split; auto.
  assert (X : forall k0 c, In c (match k0 with Some k => erase_at u (S cs) k | None => u end) -> In c u).
  { intros [k0|] c; auto. apply erase_at_In. }
  intros c I. revert E. destruct find_last_not; [destruct Nat.eqb|]; intros [= <-].
  - eapply X; eauto.
  - apply erase_at_In in I. eapply X; eauto.
  - eapply X; eauto.
Qed.
Lemma FilterHeader_no_lf strict t out : crlf_folds t -> cr_before t -> FilterHeader strict RELAXED t = Ok out -> ~ In LF out.
Proof.
  intros CF CB E. apply FilterHeader_strict in E. destruct (FilterHeader_bytes _ _ CF E) as (pre & post & u & -> & U & X).
  intros I. apply X in I. revert I. apply (unfolded_no_lf _ _ U). revert CB. apply cr_before_alike.
  apply Forall2_app; [apply alike_lower|apply alike_refl].
Qed.

Lemma header_block_lf ls h : header_block ls h -> Forall (fun l => ~ In LF l) ls.
Proof. induction 1; constructor; auto. Qed.
Lemma Forall_concat {A} (P : A -> Prop) gs : Forall P (concat gs) -> Forall (Forall P) gs.
Proof. induction gs; cbn; intros H; constructor; apply Forall_app in H; tauto. Qed.
(** The fields of every message: CRLF line ends only, all of them folds. *)
Lemma message_texts t m s : parse_all new_message (open_str t) = Ok (m, s) ->
  Forall (fun h => lf_folds (h_text h) /\ cr_before (h_text h)) (m_headers m) /\
  match m_headers m with [] => True | _ :: r => Forall (fun h => begins_field (h_text h)) r end.
Proof.
  intros P. destruct (message_fields' t) as (ls & h & rest & m' & s' & HB & -> & P' & _ & gs & F2 & FL & SF & X).
  rewrite P in P'. injection P' as <- <-.
  assert (NE : Forall (fun l => l <> []) (concat gs) /\ Forall (fun l => ~ In LF l) (concat gs)).
  { destruct X as [[_ ->]|(_ & l & [NL LL] & ->)].
    - split; [eapply header_block_nonempty; eauto|eapply header_block_lf; eauto].
    - split; apply Forall_app.
      + split; [eapply header_block_nonempty; eauto|]. unfold opt_line. destruct l; constructor; [discriminate|constructor].
      + split; [eapply header_block_lf; eauto|]. unfold opt_line. destruct l as [|c l]; constructor; [|constructor].
        intros I. apply NL. destruct LL as [->|[-> _]]; auto. apply in_or_app. auto. }
  destruct NE as [NE NLF]. apply Forall_concat in NE. apply Forall_concat in NLF.
  assert (ALL : forall hs gs, Forall2 field_of hs gs -> Forall field_lines gs -> Forall (Forall (fun l => ~ In LF l)) gs ->
    Forall (fun h => lf_folds (h_text h) /\ cr_before (h_text h)) hs).
  { clear. intros hs gs F. induction F as [|h g hs gs FO F IH]; intros L N; constructor; inversion L; inversion N; subst; auto.
    destruct FO as [-> _]. apply joined_lf; auto. }
  split; [eapply ALL; eauto|]. destruct F2 as [|h0 g hs gs FO F2]; [exact I|].
  inversion NE; subst. clear - F2 SF H2. revert SF H2. induction F2 as [|h g hs gs [E _] F IH]; intros SF NE; constructor;
    inversion SF; inversion NE; subst; auto.
  rewrite E. destruct g as [|l g]; [contradiction|]. inversion H5; subst. cbn [starts_field] in H1.
  destruct l as [|c l]; [congruence|]. assert (NW : ~ WSP c) by (intros W; apply H1; exists c, l; auto).
  destruct g as [|x g]; cbn [joined app]; eexists c, _; split; auto; reflexivity.
Qed.

(** For literal texts. *)
Ltac wsps := repeat (apply Forall_cons; [solve [left; reflexivity|right; reflexivity]|]); apply Forall_nil.
Ltac not_wsp := first [intros [K|K]; discriminate K | split; [intros [K|K]; discriminate K|discriminate]].
Ltac one_fold a b := change (FWSs ((a ++ CRLF ++ b) ++ [])); apply FWSs_cons; [apply (FWS_fold a b); [wsps|wsps|discriminate]|constructor].
Ltac one_run := match goal with |- FWSs ?w => change (FWSs (w ++ [])) end; apply FWSs_cons; [constructor; [wsps|discriminate]|constructor].
