(** Header canonicalization: proofs. *)
From Verif Require Import Bytes Outcome Stream Tokenizer Canonicalization BytesFacts StreamFacts TokenizerFacts
  SpecText SpecMail SpecCanon QPFacts ListFacts MailFacts.

(** ** Lower case *)
Lemma low_tolower c : low c = tolower c.
Proof. reflexivity. Qed.
Lemma map_low n : map low n = lower n.
Proof. reflexivity. Qed.
Lemma tolower_keep d c : is_upper d = false -> is_lower d = false -> (tolower c = d <-> c = d).
Proof.
  intros U L.
  assert (X : forall c, (if is_upper c then is_lower (tolower c) else tolower c =?c c) = true).
  { apply byte_sweep. vm_compute. reflexivity. }
  specialize (X c). destruct (is_upper c) eqn:UC.
  - split; intros E; [rewrite E in X|rewrite E in UC]; congruence.
  - apply ceqb_eq in X. rewrite X. tauto.
Qed.
Lemma tolower_WSP c : WSP (tolower c) <-> WSP c.
Proof. unfold WSP. rewrite !tolower_keep by reflexivity. tauto. Qed.
Lemma tolower_CR c : tolower c = CR <-> c = CR.
Proof. apply tolower_keep; reflexivity. Qed.
Lemma tolower_COLON c : tolower c = COLON <-> c = COLON.
Proof. apply tolower_keep; reflexivity. Qed.
Lemma lower_colon n : ~ In COLON n -> ~ In COLON (lower n).
Proof. intros N I. apply in_map_iff in I as (c & E & I). apply (proj1 (tolower_COLON c)) in E. apply N. rewrite <- E. exact I. Qed.

Lemma lower_FWSs_id w : FWSs w -> lower w = w.
Proof.
  intros F. apply FWSs_ws in F. induction F as [|c w W F IH|c w W F IH]; cbn [lower map]; auto; fold (lower w); rewrite IH.
  - destruct W as [->| ->]; reflexivity.
  - destruct W as [->| ->]; reflexivity.
Qed.
Lemma unfolded_lower t u : unfolded t u -> unfolded (lower t) (lower u).
Proof.
  induction 1 as [w W|c t u NW NC U IH|w c t u N W NW NC U IH].
  - rewrite lower_FWSs_id by auto. constructor. auto.
  - cbn [lower map]. apply unf_char; auto; [rewrite tolower_WSP|rewrite tolower_CR]; auto.
  - rewrite lower_app, lower_FWSs_id by auto. change (lower (SP :: u)) with (SP :: lower u).
    change (lower (c :: t)) with (tolower c :: lower t) in *.
    apply unf_run; auto; [rewrite tolower_WSP|rewrite tolower_CR]; auto.
Qed.

(** ** The unfolding loop *)
Lemma stops_char c t : ~ WSP c -> c <> CR -> stops (c :: t).
Proof. intros W C. split; auto. apply not_WSP_b. auto. Qed.

Lemma fh_skip s p w r : St s p (w ++ r) -> ws w -> stops r ->
  exists s1, (let* (v, s1) := read_fws s in
     let* s2 := (match v with [] => Ok s1 | _ => skip_fws (fuel_of s1) s1 end) in
     Ok (match v with [] => false | _ => true end, s2)) = Ok (match w with [] => false | _ => true end, s1) /\
    St s1 (rev w ++ p) r.
Proof.
  intros H W SR. destruct w as [|c w].
  - pose proof (read_fws_St _ _ _ H) as R. cbn [app] in R. rewrite l_fws_stops in R by auto. destruct R as (s1 & R & H1).
    rewrite R. cbn [obind]. exists s1. split; auto.
  - destruct (l_fws_ws (c :: w) r W ltac:(discriminate) SR) as (w1 & w2 & E & N1 & W2 & LF2).
    pose proof (read_fws_St _ _ _ H) as R. rewrite LF2 in R. destruct R as (s1 & R & H1). rewrite R. cbn [obind].
    destruct w1 as [|x w1]; [congruence|]. rewrite (St_fuel _ _ _ H1).
    destruct (skip_fws_ws (S (length (w2 ++ r))) s1 _ w2 r H1 W2 SR) as (s2 & P & H2).
    { rewrite app_length. lia. }
    rewrite P. cbn [obind]. exists s2. split; auto. rewrite E, rev_app_distr, <- app_assoc. exact H2.
Qed.

Lemma fh_step f s x : fh_loop (S f) s x =
  obind (let* (v, s1) := read_fws s in
     let* s2 := (match v with [] => Ok s1 | _ => skip_fws (fuel_of s1) s1 end) in
     Ok (match v with [] => false | _ => true end, s2))
   (fun '(found, s2) =>
      let '(o, s3) := peek s2 in
      match o with
      | None => Ok x
      | Some _ => let '(g, s4) := get s3 in fh_loop f s4 (x ++ (if found then [SP] else []) ++ [as_char g])
      end).
Proof.
  cbn [fh_loop]. destruct (read_fws s) as [[v s1]| | |]; cbn [obind]; auto.
  destruct v as [|a v]; cbn [obind]; auto. destruct (skip_fws (fuel_of s1) s1); reflexivity.
Qed.

Lemma fh_unfolded t u : unfolded t u -> forall f s p x, St s p t -> length t < f -> fh_loop f s x = Ok (x ++ u).
Proof.
  intros U. remember (length t) as n eqn:LN. revert t u U LN. induction n as [n IH] using lt_wf_ind. intros t u U -> f s p x H L.
  destruct f as [|f]; [lia|]. rewrite fh_step.
  assert (ONE : forall w c t' u', ws w -> ~ WSP c -> c <> CR -> unfolded t' u' -> St s p (w ++ c :: t') -> length (w ++ c :: t') < S f ->
    length t' < length t ->
    obind (let* (v, s1) := read_fws s in
     let* s2 := (match v with [] => Ok s1 | _ => skip_fws (fuel_of s1) s1 end) in
     Ok (match v with [] => false | _ => true end, s2))
    (fun '(found, s2) =>
      let '(o, s3) := peek s2 in
      match o with
      | None => Ok x
      | Some _ => let '(g, s4) := get s3 in fh_loop f s4 (x ++ (if found then [SP] else []) ++ [as_char g])
      end) = Ok (x ++ (match w with [] => [] | _ => [SP] end) ++ c :: u')).
  { intros w c t' u' W NW NC U' H' L' LT. destruct (fh_skip s p w (c :: t') H' W (stops_char c t' NW NC)) as (s2 & P & H2).
    rewrite P. cbn [obind]. peek_at H2. get_at H2. cbn [as_char].
    rewrite (IH (length t') LT t' u' U' eq_refl f s0 _ _ H0) by (rewrite app_length in L'; cbn [length] in L'; lia).
    rewrite <- !app_assoc. destruct w; reflexivity. }
  inversion U as [w W|c t' u' NW NC U'|w c t' u' N W NW NC U']; subst.
  - assert (H' : St s p (t ++ [])) by (rewrite app_nil_r; auto).
    destruct (fh_skip s p t [] H' (FWSs_ws _ W) I) as (s2 & P & H2).
    rewrite P. cbn [obind]. peek_at H2. rewrite app_nil_r. reflexivity.
  - exact (ONE [] c t' u' ws_nil NW NC U' H L ltac:(cbn [length]; lia)).
  - assert (X : exists u2, u' = c :: u2 /\ unfolded t' u2).
    { inversion U' as [w0 W0 EW|c0 t0 u0 A B D|w0 c0 t0 u0 N0 W0 A B D E0]; subst.
      - apply FWSs_ws in W0. inversion W0; subst; contradiction.
      - eauto.
      - apply FWSs_ws in W0. destruct w0 as [|y w0]; [congruence|]. injection E0 as -> _. inversion W0; subst; contradiction. }
    destruct X as (u2 & -> & U2).
    rewrite (ONE w c t' u2 (FWSs_ws _ W) NW NC U2 H L ltac:(rewrite app_length; cbn [length]; lia)).
    destruct w; [congruence|]. reflexivity.
Qed.

(** ** Shape of unfolded texts *)
Lemma unfolded_char c t u : ~ WSP c -> c <> CR -> unfolded (c :: t) u -> exists u2, u = c :: u2 /\ unfolded t u2.
Proof.
  intros NW NC U. inversion U as [w0 W0 EW|c0 t0 u0 A B D|w0 c0 t0 u0 N0 W0 A B D E0]; subst.
  - apply FWSs_ws in W0. inversion W0; subst; contradiction.
  - eauto.
  - apply FWSs_ws in W0. destruct w0 as [|y w0]; [congruence|]. injection E0 as -> _. inversion W0; subst; contradiction.
Qed.
Lemma ws_last w : ws w -> w <> [] -> exists a c, w = a ++ [c] /\ WSP c.
Proof.
  induction 1 as [|c w W F IH|c w W F IH]; intros N; [congruence| |].
  - destruct w as [|d w]; [exists [], c; auto|]. destruct IH as (a & e & E & We); [discriminate|]. exists (c :: a), e. rewrite E. auto.
  - destruct w as [|d w]; [exists [CR; LF], c; auto|]. destruct IH as (a & e & E & We); [discriminate|].
    exists (CR :: LF :: c :: a), e. rewrite E. auto.
Qed.
Lemma last_ok_snoc P (a : bytes) c : last_ok P (a ++ [c]) <-> P c.
Proof. unfold last_ok. rewrite rev_app_distr. cbn. tauto. Qed.
Lemma last_ok_cons P (c : ascii) v : last_ok P (c :: v) -> last_ok P v.
Proof. destruct v as [|d v]; [intros _; exact I|]. apply last_ok_tail. discriminate. Qed.

Lemma unfolded_app n n' : unfolded n n' -> last_ok (fun c => ~ WSP c) n -> forall t u, unfolded t u -> unfolded (n ++ t) (n' ++ u).
Proof.
  induction 1 as [w W|c t0 u0 NW NC U IH|w c t0 u0 N W NW NC U IH]; intros LO t u T.
  - destruct w as [|c w]; auto. exfalso. destruct (ws_last (c :: w) (FWSs_ws _ W) ltac:(discriminate)) as (a & d & E & Wd).
    rewrite E in LO. apply last_ok_snoc in LO. auto.
  - cbn [app]. apply unf_char; auto. apply IH; auto. eapply last_ok_cons; eauto.
  - rewrite <- app_assoc. cbn [app]. apply unf_run; auto. apply IH; auto.
    clear -LO. induction w as [|x w IH]; auto. apply IH. cbn [app] in LO. destruct w; eapply last_ok_cons; eauto.
Qed.
Lemma unfolded_In d t u : unfolded t u -> In d u -> d = SP \/ In d t.
Proof.
  induction 1 as [w W|c t u NW NC U IH|w c t u N W NW NC U IH]; cbn; try tauto.
  intros [<-|I]; auto. destruct (IH I); auto. right. apply in_or_app. auto.
Qed.
(** The last byte of the unfolded text, when the text does not end in whitespace. *)
Lemma unfolded_last n n' : unfolded n n' -> n <> [] -> last_ok (fun c => ~ WSP c) n ->
  exists a c, n' = a ++ [c] /\ ~ WSP c.
Proof.
  induction 1 as [w W|c t u NW NC U IH|w c t u N W NW NC U IH]; intros NE LO.
  - exfalso. destruct (ws_last w (FWSs_ws _ W) NE) as (a & d & E & Wd). rewrite E in LO. apply last_ok_snoc in LO. auto.
  - destruct t as [|d t].
    + inversion U; subst.
      * exists [], c. auto.
      * destruct w; discriminate.
    + destruct IH as (a & e & E & Ne); [discriminate|eapply last_ok_cons; eauto|]. exists (c :: a), e. rewrite E. auto.
  - destruct IH as (a & e & E & Ne); [discriminate| |].
    + clear -LO. induction w as [|x w IH]; auto. apply IH. cbn [app] in LO. destruct w; eapply last_ok_cons; eauto.
    + exists (SP :: a), e. rewrite E. auto.
Qed.
Lemma unfolded_first v v' : unfolded v v' -> first_ok (fun c => ~ WSP c /\ c <> CR) v ->
  (v = [] /\ v' = []) \/ exists c a, v' = c :: a /\ ~ WSP c.
Proof.
  intros U FO. destruct v as [|c v].
  - left. split; auto. inversion U; auto. destruct w; discriminate.
  - right. cbn in FO. destruct FO as [A B]. destruct (unfolded_char c v v' A B U) as (u2 & -> & _). eauto.
Qed.

(** ** FilterHeader *)
Definition sp_if (w : bytes) : bytes := match w with [] => [] | _ => [SP] end.

Lemma unfolded_ws w t u : FWSs w -> first_ok (fun c => ~ WSP c /\ c <> CR) t -> unfolded t u ->
  unfolded (w ++ t) (match t with [] => [] | _ => sp_if w end ++ u).
Proof.
  intros W FO U. destruct t as [|c t].
  - rewrite app_nil_r. inversion U as [| |w0 ? ? ? ? ? ? ? ? E]; subst; [constructor; auto|destruct w0; discriminate].
  - cbn in FO. destruct FO as [A B]. destruct w as [|d w]; auto. cbn [sp_if]. apply unf_run; auto. discriminate.
Qed.

Lemma is_sp_SP c : is_sp c = true <-> c = SP.
Proof. unfold is_sp. apply ceqb_eq. Qed.
Lemma is_sp_not c : ~ WSP c -> is_sp c = false.
Proof. intros N. destruct (is_sp c) eqn:E; auto. apply is_sp_SP in E. subst. destruct N. left. reflexivity. Qed.

Lemma lower_ok strict n : strict && existsb is_8bit n = false -> lower_str strict n = Ok (lower n).
Proof. intros H. unfold lower_str. rewrite H. reflexivity. Qed.

Lemma FWSs_7bit w : FWSs w -> existsb is_8bit w = false.
Proof.
  intros F. apply FWSs_ws in F. induction F as [|c w W F IH|c w W F IH]; cbn [existsb]; auto;
    destruct W as [->| ->]; cbn; auto.
Qed.
Lemma FilterHeader_relaxed strict t n out : relaxed_field t n out -> strict && existsb is_8bit n = false ->
  FilterHeader strict RELAXED t = Ok out.
Proof.
  intros R S8. destruct R as [n n' w1 w2 v v' NE NC LO UN W1 W2 FV UV].
  assert (NCW : forall w, FWSs w -> ~ In COLON w).
  { intros w F. apply FWSs_ws in F. induction F as [|c w W F IH|c w W F IH]; cbn; auto;
      intros K; repeat (destruct K as [K|K]; [try discriminate; subst; destruct W; discriminate|]); auto. }
  assert (FC : find_char COLON (n ++ w1 ++ COLON :: w2 ++ v) = Some (length (n ++ w1))).
  { rewrite app_assoc. apply find_char_app. intros I. apply in_app_or in I as [I|I]; auto. apply (NCW w1); auto. }
  unfold FilterHeader. rewrite FC. rewrite app_assoc, firstn_app_exact.
  rewrite lower_ok by (rewrite existsb_app, (FWSs_7bit w1), orb_false_r by auto; auto). cbn [obind]. rewrite skipn_app_exact, lower_app, (lower_FWSs_id w1) by auto.
  assert (LO' : last_ok (fun c => ~ WSP c) (lower n)).
  { unfold last_ok in *. unfold lower. rewrite <- map_rev. destruct (rev n); cbn in *; auto. rewrite tolower_WSP. auto. }
  assert (NE' : lower n <> []) by (destruct n; [congruence|discriminate]).
  rename n' into A. change (map low n) with (lower n) in UN.
  assert (UT : unfolded ((lower n ++ w1) ++ COLON :: w2 ++ v) (A ++ sp_if w1 ++ COLON :: (match v with [] => [] | _ => sp_if w2 end) ++ v')).
  { rewrite <- app_assoc. apply unfolded_app; auto.
    assert (UC : unfolded (COLON :: w2 ++ v) (COLON :: (match v with [] => [] | _ => sp_if w2 end) ++ v')).
    { apply unf_char; [intros [K|K]; discriminate|discriminate|]. apply unfolded_ws; auto. }
    apply (unfolded_ws w1 (COLON :: w2 ++ v) _ W1); auto. cbn. split; [intros [K|K]; discriminate|discriminate]. }
  rewrite (St_fuel _ _ _ (St_open _)).
  rewrite (fh_unfolded _ _ UT _ _ _ [] (St_open _)) by lia. cbn [obind app].
  assert (NA : ~ In COLON (A ++ sp_if w1)).
  { intros I. apply in_app_or in I as [I|I].
    - destruct (unfolded_In _ _ _ UN I) as [K|K]; [discriminate|]. revert K. apply lower_colon. auto.
    - destruct w1; cbn in I; [auto|]. destruct I as [I|[]]. discriminate. }
  rewrite app_assoc, find_char_app by auto.
  assert (X1 : (match find_first_not is_sp (skipn (S (length (A ++ sp_if w1))) ((A ++ sp_if w1) ++ COLON :: match v with [] => [] | _ :: _ => sp_if w2 end ++ v')) with
     | Some k => erase_at ((A ++ sp_if w1) ++ COLON :: match v with [] => [] | _ :: _ => sp_if w2 end ++ v') (S (length (A ++ sp_if w1))) k
     | None => (A ++ sp_if w1) ++ COLON :: match v with [] => [] | _ :: _ => sp_if w2 end ++ v' end) = (A ++ sp_if w1) ++ COLON :: v').
  { set (B := A ++ sp_if w1).
    assert (EB : forall y, B ++ COLON :: y = (B ++ [COLON]) ++ y) by (intros; rewrite <- app_assoc; reflexivity).
    assert (LB : S (length B) = length (B ++ [COLON])) by (rewrite app_length; cbn [length]; lia).
    rewrite (EB (_ ++ v')), (EB v'), LB, skipn_app_exact.
    destruct (unfolded_first v v' UV FV) as [[-> ->]|(c & a & -> & NWc)].
    - cbn. reflexivity.
    - set (g := match v with [] => [] | _ :: _ => sp_if w2 end). rewrite find_first_not_app.
      + rewrite erase_at_app. reflexivity.
      + subst g. destruct v; [reflexivity|]. destruct w2; reflexivity.
      + apply is_sp_not. auto. }
  rewrite X1. rewrite firstn_app_exact.
  destruct (unfolded_last _ _ UN NE' LO') as (a & c & EA & NWc).
  assert (FL : find_last_not is_sp (A ++ sp_if w1) = Some (length a)).
  { rewrite EA, <- app_assoc. apply find_last_not_app.
    - destruct w1; reflexivity.
    - apply is_sp_not. auto. }
  rewrite FL.
  assert (LA : S (length a) = length A) by (rewrite EA, app_length; cbn [length]; lia).
  rewrite LA. rewrite app_length. destruct w1 as [|d w1]; cbn [sp_if length].
  - rewrite Nat.add_0_r, Nat.eqb_refl, app_nil_r. reflexivity.
  - replace (Nat.eqb (length A) (length A + 1)) with false by (symmetry; apply Nat.eqb_neq; lia).
    replace (length A + 1 - length A) with (length [SP]) by (cbn [length]; lia).
    rewrite <- app_assoc. rewrite erase_at_app. reflexivity.
Qed.

Lemma FilterHeader_simple strict t : FilterHeader strict SIMPLE t = Ok t.
Proof. reflexivity. Qed.

(** ** Every field of a message *)
Lemma crlf_folds_app a b : crlf_folds (a ++ b) -> crlf_folds b.
Proof. intros H x y E. apply (H (a ++ x) y). rewrite E, <- app_assoc. reflexivity. Qed.
Lemma l_fws_folds t w r : crlf_folds t -> l_fws t = Some (w, r) -> ws w /\ t = w ++ r /\ (w = [] -> stops t).
Proof.
  intros CF. unfold l_fws. destruct (span is_wsp t) as [a b] eqn:SP1.
  pose proof (span_all _ _ _ _ SP1) as FA. pose proof (span_stop _ _ _ _ SP1) as FB. apply span_app in SP1.
  assert (WA : ws a) by (apply ws_wsps, forallb_WSP; auto).
  destruct b as [|c b].
  - intros [= <- <-]. split; [|split]; auto. intros ->. cbn in SP1. subst. exact I.
  - destruct (c =?c CR) eqn:C.
    + apply ceqb_eq in C. subst c. destruct b as [|d b]; [discriminate|]. destruct (d =?c LF) eqn:D; [|discriminate].
      apply ceqb_eq in D. subst d. destruct (span is_wsp b) as [w2 r4] eqn:SP2.
      pose proof (span_all _ _ _ _ SP2) as FA2. pose proof (span_stop _ _ _ _ SP2) as FB2. apply span_app in SP2.
      destruct (CF a b SP1) as (y & b' & EB & Y).
      destruct w2 as [|z w2].
      * cbn in SP2. subst r4. rewrite EB in FB2. rewrite WSP_b in FB2 by auto. discriminate.
      * intros [= <- <-]. split; [|split].
        -- apply ws_app; auto. apply forallb_WSP in FA2. inversion FA2; subst. apply ws_fold; auto. apply ws_wsps. auto.
        -- rewrite SP1, SP2, <- !app_assoc. reflexivity.
        -- intros K. destruct a; discriminate.
    + intros [= <- <-]. split; [|split]; auto. intros ->. cbn in SP1. subst. split; auto. apply ceqb_neq. auto.
Qed.
Lemma skip_folds f : forall s p r, St s p r -> crlf_folds r -> length r < f ->
  skip_fws f s = perm \/
  exists w r' s', r = w ++ r' /\ ws w /\ stops r' /\ skip_fws f s = Ok s' /\ St s' (rev w ++ p) r'.
Proof.
  induction f as [|f IH]; intros s p r H CF L; [lia|]. cbn [skip_fws].
  pose proof (read_fws_St _ _ _ H) as R. destruct (l_fws r) as [[w r1]|] eqn:LF1; [|rewrite R; left; reflexivity].
  destruct R as (s1 & R & H1). rewrite R. cbn [obind]. destruct (l_fws_folds _ _ _ CF LF1) as (W & E & ST).
  destruct w as [|c w].
  - right. exists [], r, s1. cbn in E. subst r1. split; [|split; [|split; [|split]]]; auto.
  - subst r. destruct (IH s1 _ r1 H1 (crlf_folds_app _ _ CF)) as [P|(w2 & r2 & s2 & E2 & W2 & S2 & P & H2)].
    + rewrite app_length in L. cbn [length] in L. lia.
    + left. exact P.
    + right. exists ((c :: w) ++ w2), r2, s2. rewrite E2, <- app_assoc, rev_app_distr, <- app_assoc.
      split; [|split; [|split; [|split]]]; auto. apply ws_app; auto.
Qed.
Definition fws_found s := let* (v, s1) := read_fws s in
     let* s2 := (match v with [] => Ok s1 | _ => skip_fws (fuel_of s1) s1 end) in
     Ok (match v with [] => false | _ => true end, s2).
Lemma fws_folds s p t : St s p t -> crlf_folds t ->
  fws_found s = perm \/
  exists w r s1, t = w ++ r /\ ws w /\ stops r /\ fws_found s = Ok (match w with [] => false | _ => true end, s1) /\
    St s1 (rev w ++ p) r.
Proof.
  intros H CF. unfold fws_found.
  pose proof (read_fws_St _ _ _ H) as R. destruct (l_fws t) as [[w r1]|] eqn:LF1; [|rewrite R; left; reflexivity].
  destruct R as (s1 & R & H1). rewrite R. cbn [obind]. destruct (l_fws_folds _ _ _ CF LF1) as (W & E & ST).
  destruct w as [|c w].
  - right. exists [], t, s1. cbn in E. subst r1. cbn [obind]. split; [|split; [|split; [|split]]]; auto.
  - subst t. destruct (skip_folds (fuel_of s1) s1 _ r1 H1 (crlf_folds_app _ _ CF)) as [P|(w2 & r2 & s2 & E2 & W2 & S2 & P & H2)].
    + rewrite (St_fuel _ _ _ H1). lia.
    + left. rewrite P. reflexivity.
    + right. exists ((c :: w) ++ w2), r2, s2. rewrite E2, <- app_assoc, rev_app_distr, <- app_assoc.
      split; [|split; [|split; [|split]]]; auto; [apply ws_app; auto|rewrite P; reflexivity].
Qed.
Lemma fh_complete f : forall s p t x, St s p t -> crlf_folds t -> length t < f ->
  fh_loop f s x = perm \/ exists u, unfolded t u /\ fh_loop f s x = Ok (x ++ u).
Proof.
  induction f as [|f IH]; intros s p t x H CF L; [lia|]. rewrite fh_step. fold (fws_found s).
  destruct (fws_folds s p t H CF) as [P|(w & r & s1 & E & W & SR & P & H1)]; [rewrite P; left; reflexivity|].
  rewrite P. cbn [obind]. subst t. destruct r as [|c r].
  - right. exists []. rewrite app_nil_r. split; [apply unf_end, ws_FWSs; auto|]. peek_at H1. rewrite app_nil_r. reflexivity.
  - destruct SR as [N1 N2]. peek_at H1. get_at H1. cbn [as_char].
    assert (NW : ~ WSP c) by (intros K; rewrite WSP_b in N1; auto; discriminate).
    match goal with |- fh_loop f s0 ?y = _ \/ _ => destruct (IH s0 _ r y H0) as [Q|(u & U & Q)] end.
    + apply (crlf_folds_app (w ++ [c])). rewrite <- app_assoc. exact CF.
    + rewrite app_length in L. cbn [length] in L. lia.
    + left. exact Q.
    + right. rewrite Q. destruct w as [|d w].
      * exists (c :: u). split; [apply unf_char; auto|]. cbn [app]. rewrite <- !app_assoc. reflexivity.
      * exists (SP :: c :: u). split; [apply unf_run; auto; [discriminate|apply ws_FWSs; auto|apply unf_char; auto]|].
        rewrite <- !app_assoc. reflexivity.
Qed.

(** Splitting off the whitespace at the end of an unfolded text. *)
Lemma unfolded_nil w : unfolded w [] -> FWSs w.
Proof. intros U. inversion U; auto. Qed.
Lemma unfolded_split n : forall t y c z, length t < n -> unfolded t (y ++ c :: z) -> c <> SP ->
  exists a b, t = a ++ c :: b /\ unfolded b z /\
    ((FWSs a /\ y = sp_if a) \/
     exists a1 w y1, a = a1 ++ w /\ a1 <> [] /\ last_ok (fun c => ~ WSP c) a1 /\ FWSs w /\ unfolded a1 y1 /\ y = y1 ++ sp_if w).
Proof.
  induction n as [|n IH]; intros t y c z L U NS; [lia|].
  inversion U as [w W EW EY|c0 t0 u0 NW NC D ET EY|w c0 t0 u0 N0 W0 NW NC D ET EY]; subst.
  - destruct y; discriminate.
  - destruct y as [|y0 y]; cbn [app] in EY; injection EY as -> ->.
    + exists [], t0. split; [reflexivity|]. split; auto. left. split; [constructor|reflexivity].
    + destruct (IH t0 y c z) as (a & b & -> & UB & X); auto; [cbn [length] in L; lia|].
      exists (y0 :: a), b. split; [reflexivity|]. split; auto. right.
      destruct X as [[FA ->]|(a1 & w & y1 & -> & N1 & LO & FW & U1 & ->)].
      * exists [y0], a, [y0]. split; [reflexivity|]. split; [discriminate|]. split; [exact NW|]. split; auto.
        split; auto. apply unf_char; auto. apply unf_end. constructor.
      * exists (y0 :: a1), w, (y0 :: y1). split; [reflexivity|]. split; [discriminate|].
        split; [apply (last_ok_app _ [y0] a1); auto|]. split; auto. split; [apply unf_char; auto|reflexivity].
  - destruct y as [|y0 y]; cbn [app] in EY; injection EY as E1 E2; [congruence|]. subst y0 u0.
    destruct (IH (c0 :: t0) y c z) as (a & b & E & UB & X); auto.
    { rewrite app_length in L. destruct w; [congruence|]. cbn [length] in *. lia. }
    exists (w ++ a), b. rewrite E, <- app_assoc. split; [reflexivity|]. split; auto.
    destruct X as [[FA ->]|(a1 & w1 & y1 & -> & N1 & LO & FW & U1 & ->)].
    + destruct a as [|a0 a].
      * left. rewrite app_nil_r. split; auto. destruct w; [congruence|reflexivity].
      * exfalso. injection E as -> _. apply FWSs_ws in FA. inversion FA; subst; contradiction.
    + right. exists (w ++ a1), w1, (SP :: y1). split; [apply app_assoc|]. split; [destruct w; [congruence|discriminate]|].
      split; [apply last_ok_app; auto|]. split; auto. split; [|reflexivity].
      destruct a1 as [|x a1]; [congruence|]. injection E as -> _. apply unf_run; auto.
Qed.
Lemma ws_chars w d : ws w -> In d w -> WSP d \/ d = CR \/ d = LF.
Proof.
  induction 1 as [|c w W F IH|c w W F IH]; cbn [In].
  - tauto.
  - intros [<-|I]; auto.
  - intros [<-|[<-|[<-|I]]]; auto.
Qed.
Lemma unfolded_kept d t u : ~ WSP d -> d <> CR -> d <> LF -> unfolded t u -> In d t -> In d u.
Proof.
  intros NW NC NL U. induction U as [w W|c t u A B U IH|w c t u N W A B U IH]; intros I.
  - exfalso. destruct (ws_chars w d (FWSs_ws _ W) I) as [K|[K|K]]; auto.
  - destruct I as [->|I]; [left; reflexivity|right; auto].
  - apply in_app_or in I as [I|I]; [|right; auto]. exfalso. destruct (ws_chars w d (FWSs_ws _ W) I) as [K|[K|K]]; auto.
Qed.
Ltac keep H := match type of H with tolower ?c = ?d => apply (proj1 (tolower_keep d c eq_refl eq_refl)) in H end.
Lemma lower_ws w w1 : ws w -> lower w1 = w -> w1 = w.
Proof.
  intros W. revert w1. induction W as [|c w W F IH|c w W F IH]; intros w1 E.
  - destruct w1; [reflexivity|discriminate].
  - destruct w1 as [|d w1]; [discriminate|]. cbn [lower map] in E. injection E as E1 E2. fold (lower w1) in E2.
    rewrite (IH _ E2). f_equal. destruct W as [->| ->]; (keep E1; auto).
  - destruct w1 as [|d [|e [|g w1]]]; try discriminate. cbn [lower map] in E. injection E as E0 E1 E2 E3. fold (lower w1) in E3.
    rewrite (IH _ E3). keep E0. keep E1. subst d e. do 3 f_equal.
    destruct W as [->| ->]; (keep E2; auto).
Qed.
Lemma unfolded_value t u : unfolded t u -> exists w v v', t = w ++ v /\ FWSs w /\ first_ok (fun c => ~ WSP c /\ c <> CR) v /\ unfolded v v'.
Proof.
  intros U. inversion U; subst.
  - exists t, [], []. rewrite app_nil_r. split; [reflexivity|]. split; auto. split; [exact I|]. apply unf_end. constructor.
  - exists [], (c :: t0), (c :: u0). split; [reflexivity|]. split; [constructor|]. split; [split; auto|]. auto.
  - exists w, (c :: t0), u0. split; [reflexivity|]. split; auto. split; [split; auto|]. auto.
Qed.

Lemma crlf_folds_lower pre post : crlf_folds (pre ++ COLON :: post) -> crlf_folds (lower pre ++ COLON :: post).
Proof.
  intros CF a b E.
  assert (X : exists a' b', pre ++ COLON :: post = a' ++ CRLF ++ b' /\ (forall d, (match b with d0 :: _ => d0 = d | [] => False end) -> WSP d \/ True) /\
    (forall c r, b' = c :: r -> exists c' r', b = c' :: r' /\ (c' = c \/ c' = tolower c))).
  { revert a E CF. induction pre as [|p pre IH]; intros a E CF.
    - exists a, b. split; [exact E|]. split; [auto|]. intros c r ->. eauto.
    - cbn [lower map app] in E. fold (lower pre) in E. destruct a as [|x a]; cbn [app] in E.
      + injection E as E1 E2. apply (proj1 (tolower_CR p)) in E1. subst p.
        destruct pre as [|q pre]; cbn [lower map app] in E2; [discriminate|]. injection E2 as E2 E3. fold (lower pre) in E3.
        keep E2. subst q.
        exists [], (pre ++ COLON :: post). split; [reflexivity|]. split; [auto|]. intros c r EC.
        destruct pre as [|q pre]; cbn [app lower map] in *.
        * injection EC as <- <-. exists COLON, post. auto.
        * injection EC as <- <-. rewrite <- E3. eauto.
      + injection E as E1 E2. destruct (IH a E2) as (a' & b' & E' & T & X).
        { apply (crlf_folds_app [p]). exact CF. }
        exists (p :: a'), b'. split; [cbn [app]; f_equal; exact E'|]. auto. }
  destruct X as (a' & b' & E' & _ & X). destruct (CF _ _ E') as (c & r & EB & W).
  destruct (X _ _ EB) as (c' & r' & EB' & [->| ->]); exists (if true then c else c), r'.
  - auto.
  - rewrite EB'. destruct W as [->| ->]; auto; split; try reflexivity; [left|right]; reflexivity.
Qed.

Lemma FilterHeader_shape t : crlf_folds t ->
  FilterHeader false RELAXED t = perm \/
  exists out, FilterHeader false RELAXED t = Ok out /\ ((exists n, relaxed_field t n out) \/ blank_name t).
Proof.
  intros CF. destruct (find_char COLON t) as [k|] eqn:FC; [|left; unfold FilterHeader; rewrite FC; reflexivity].
  pose proof FC as FC0. apply find_char_Some in FC as (pre & post & -> & <- & NC).
  pose proof (crlf_folds_lower _ _ CF) as CF2.
  destruct (fh_complete (S (length (lower pre ++ COLON :: post))) (open_str (lower pre ++ COLON :: post)) _ _ [] (St_open _) CF2) as [P|(u & U & P)]; [lia| |].
  - left. unfold FilterHeader. rewrite FC0, firstn_app_exact, skipn_app_exact. unfold lower_str. cbn [andb obind].
    rewrite (St_fuel _ _ _ (St_open _)), P. reflexivity.
  - assert (IU : In COLON u).
    { apply (unfolded_kept COLON _ _) with (4 := U); try discriminate. { intros [K|K]; discriminate. } apply in_or_app. right. left. reflexivity. }
    destruct (find_char COLON u) as [k|] eqn:FU; [|apply find_char_None in FU; contradiction].
    apply find_char_Some in FU as (y & z & -> & EK & NY).
    destruct (unfolded_split (S (length (lower pre ++ COLON :: post))) _ y COLON z (Nat.lt_succ_diag_r _) U ltac:(discriminate)) as (a & b & E & UB & X).
    assert (NA : ~ In COLON a).
    { intros I. destruct X as [[FA _]|(a1 & w & y1 & -> & _ & _ & FW & U1 & ->)].
      - destruct (ws_chars a COLON (FWSs_ws _ FA) I) as [[K|K]|[K|K]]; discriminate.
      - apply in_app_or in I as [I|I].
        + apply NY, in_or_app. left. apply (unfolded_kept COLON a1 y1); auto; try discriminate. intros [K|K]; discriminate.
        + destruct (ws_chars w COLON (FWSs_ws _ FW) I) as [[K|K]|[K|K]]; discriminate. }
    assert (AP : lower pre = a /\ post = b).
    { clear - E NA NC. pose proof (lower_colon _ NC) as NC'. revert a E NA. induction (lower pre) as [|q l IH]; intros a E NA.
      - destruct a as [|x a]; [injection E as ->; auto|]. injection E as E0 _. destruct NA. left. auto.
      - destruct a as [|x a]; [injection E as E0 _; destruct NC'; left; auto|]. injection E as -> E.
        destruct (IH ltac:(intros K; apply NC'; right; auto) a E) as [-> ->]; auto. intros K. apply NA. right. auto. }
    destruct AP as [<- ->].
    destruct (unfolded_value _ _ UB) as (w2 & v & v' & -> & W2 & FV & UV).
    destruct X as [[FA EY]|(a1 & w & y1 & EA & NE & LO & FW & U1 & EY)].
    + assert (EP : lower pre = pre) by (symmetry; eapply lower_ws; [apply FWSs_ws; exact FA|reflexivity]).
      destruct (FilterHeader false RELAXED (pre ++ COLON :: w2 ++ v)) as [out| | |] eqn:EF.
      * right. exists out. split; auto. right. exists pre, (w2 ++ v). rewrite EP in FA. auto.
      * exfalso. revert EF. unfold FilterHeader. rewrite FC0, firstn_app_exact, skipn_app_exact. unfold lower_str. cbn [andb obind].
        rewrite (St_fuel _ _ _ (St_open _)), P. cbn [obind app]. rewrite find_char_app by auto.
        destruct find_last_not; [destruct Nat.eqb|]; discriminate.
      * exfalso. revert EF. unfold FilterHeader. rewrite FC0, firstn_app_exact, skipn_app_exact. unfold lower_str. cbn [andb obind].
        rewrite (St_fuel _ _ _ (St_open _)), P. cbn [obind app]. rewrite find_char_app by auto.
        destruct find_last_not; [destruct Nat.eqb|]; discriminate.
      * exfalso. revert EF. unfold FilterHeader. rewrite FC0, firstn_app_exact, skipn_app_exact. unfold lower_str. cbn [andb obind].
        rewrite (St_fuel _ _ _ (St_open _)), P. cbn [obind app]. rewrite find_char_app by auto.
        destruct find_last_not; [destruct Nat.eqb|]; discriminate.
    + unfold lower in EA. apply map_eq_app in EA as (n & w1 & -> & EN & EW).
      apply (lower_ws w) in EW; [|apply FWSs_ws; auto]. subst w1.
      assert (RF : relaxed_field ((n ++ w) ++ COLON :: w2 ++ v) n (y1 ++ COLON :: v')).
      { rewrite <- app_assoc. apply rf_intro; auto.
        - destruct n; [cbn in EN; congruence|discriminate].
        - intros I. apply NC, in_or_app. auto.
        - unfold last_ok in *. rewrite <- EN, <- map_rev in LO. destruct (rev n); cbn in *; auto.
          intros K. apply LO. apply tolower_WSP. auto.
        - change (map low n) with (map tolower n). rewrite EN. auto. }
      right. exists (y1 ++ COLON :: v'). split; [apply (FilterHeader_relaxed false _ _ _ RF); reflexivity|]. eauto.
Qed.
