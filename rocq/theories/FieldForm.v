(** What the canonical form of a signature field says about its tags: proofs. *)
From Verif Require Import Bytes Outcome Tokenizer TagList BytesFacts SpecText SpecTags SpecMail SpecCanon SpecVerify SpecSig QPFacts
  TagListFacts TagPosition ListFacts MailFacts MailParser Canonicalization HeaderFacts HeaderProps AddressClean.

(** ** Whitespace runs as one space *)
Fixpoint nrm (b : bool) (t : bytes) : bytes :=
  match t with
  | [] => []
  | c :: r => if is_lwsp c then nrm true r else (if b then [SP] else []) ++ c :: nrm false r
  end.
Fixpoint strip (t : bytes) : bytes := match t with [] => [] | c :: r => if is_lwsp c then strip r else t end.
Definition norm (t : bytes) : bytes := nrm false (strip t).

Lemma LWSP_is c : LWSP c <-> is_lwsp c = true.
Proof.
  split.
  - intros [->|[->|[->| ->]]]; reflexivity.
  - assert (K : forall c, implb (is_lwsp c) ((c =?c SP) || (c =?c HT) || (c =?c CR) || (c =?c LF)) = true) by (apply byte_sweep; vm_compute; reflexivity).
    intros E. specialize (K c). rewrite E in K. cbn [implb] in K. rewrite !orb_true_iff in K. unfold LWSP.
    destruct K as [[[K|K]|K]|K]; apply ceqb_eq in K; auto.
Qed.
Lemma strip_ws w t : Forall LWSP w -> strip (w ++ t) = strip t.
Proof. induction 1 as [|c w W F IH]; auto. cbn [app strip]. apply LWSP_is in W. rewrite W. exact IH. Qed.
Lemma strip_first t : first_ok (fun c => is_lwsp c = false) t -> strip t = t.
Proof. destruct t as [|c t]; cbn; auto. intros ->. reflexivity. Qed.
Lemma strip_split t : exists w, Forall LWSP w /\ t = w ++ strip t.
Proof.
  induction t as [|c t (w & W & E)]; [exists []; auto|]. cbn [strip]. destruct (is_lwsp c) eqn:L; [|exists []; auto].
  exists (c :: w). split; [constructor; auto; apply LWSP_is; auto|]. cbn [app]. congruence.
Qed.
Lemma strip_starts t : first_ok (fun c => is_lwsp c = false) (strip t).
Proof. induction t as [|c t IH]; cbn [strip]; [exact I|]. destruct (is_lwsp c) eqn:L; auto. Qed.
Lemma nrm_ws w t b : Forall LWSP w -> nrm b (w ++ t) = nrm (match w with [] => b | _ => true end) t.
Proof.
  intros W. revert b. induction W as [|c w L W IH]; intros b; auto. cbn [app nrm]. apply LWSP_is in L. rewrite L, IH. destruct w; reflexivity.
Qed.
Lemma nrm_word n t b : n <> [] -> Forall (fun c => is_lwsp c = false) n -> nrm b (n ++ t) = (if b then [SP] else []) ++ n ++ nrm false t.
Proof.
  intros N F. destruct F as [|c n L F]; [congruence|]. cbn [app nrm]. rewrite L. f_equal. f_equal. clear N L c.
  induction F as [|c n L F IH]; auto. cbn [app nrm]. rewrite L. cbn [app]. f_equal. exact IH.
Qed.
Lemma nrm_plain n : Forall (fun c => is_lwsp c = false) n -> nrm false n = n.
Proof. intros F. induction F as [|c n L F IH]; auto. cbn [nrm]. rewrite L, IH. reflexivity. Qed.
Lemma nrm_app v c t b : is_lwsp c = false -> nrm b (v ++ c :: t) = nrm b (v ++ [c]) ++ nrm false t.
Proof.
  intros L. revert b. induction v as [|x v IH]; intros b; cbn [app nrm].
  - rewrite L, <- app_assoc. reflexivity.
  - destruct (is_lwsp x); rewrite IH; auto. rewrite <- app_assoc. reflexivity.
Qed.
Lemma nrm_value v t b : v <> [] -> first_ok (fun c => is_lwsp c = false) v -> last_ok (fun c => is_lwsp c = false) v ->
  nrm b (v ++ t) = (if b then [SP] else []) ++ nrm false v ++ nrm false t.
Proof.
  intros N F L. destruct (exists_last N) as (k & z & ->). unfold last_ok in L. rewrite rev_app_distr in L. cbn in L.
  rewrite <- app_assoc. cbn [app]. rewrite nrm_app by auto. rewrite app_assoc. f_equal.
  destruct k as [|c k]; cbn [app nrm] in *; rewrite F; reflexivity.
Qed.
Lemma nrm_first c t : is_lwsp c = false -> nrm false (c :: t) = c :: nrm false t.
Proof. intros L. cbn [nrm]. rewrite L. reflexivity. Qed.
Lemma nrm_bytes (P : ascii -> Prop) t b : P SP -> Forall P t -> Forall P (nrm b t).
Proof.
  intros S F. revert b. induction F as [|c t H F IH]; intros b; cbn [nrm]; auto. destruct (is_lwsp c); auto. apply Forall_app. split; auto.
  destruct b; auto.
Qed.
Lemma nrm_In c t b : is_lwsp c = false -> In c t -> In c (nrm b t).
Proof.
  intros L. revert b. induction t as [|x t IH]; intros b; [intros []|]. cbn [nrm]. intros [->|I].
  - rewrite L. apply in_or_app. right. left. reflexivity.
  - destruct (is_lwsp x); auto. apply in_or_app. right. right. auto.
Qed.
Lemma nrm_last t b : last_ok (fun c => is_lwsp c = false) (nrm b t).
Proof.
  revert b. induction t as [|c t IH]; intros b; cbn [nrm]; [exact I|]. destruct (is_lwsp c) eqn:L; auto.
  specialize (IH false). unfold last_ok in *. rewrite rev_app_distr. cbn [rev]. destruct (rev (nrm false t)); cbn in *; auto.
Qed.

(** Without whitespace inside, there was none. *)
Lemma nrm_no_space t b : ~ In SP (nrm b t) -> last_ok (fun c => is_lwsp c = false) t -> (b = true -> t = []) -> Forall (fun c => is_lwsp c = false) t.
Proof.
  revert b. induction t as [|c t IH]; intros b N L B; [constructor|]. destruct b; [specialize (B eq_refl); discriminate|].
  cbn [nrm] in N. destruct (is_lwsp c) eqn:LC.
  - exfalso. assert (NE : t <> []). { intros ->. unfold last_ok in L. cbn in L. congruence. }
    destruct (strip_split t) as (w & W & E). destruct (strip t) as [|z r] eqn:S.
    + rewrite app_nil_r in E. subst w. destruct (exists_last NE) as (k & z & ->). rewrite app_comm_cons in L. unfold last_ok in L. rewrite rev_app_distr in L. cbn in L.
      apply Forall_app in W as [_ W]. inversion W; subst. apply LWSP_is in H1. congruence.
    + apply N. rewrite E, nrm_ws by auto. replace (match w with [] => true | _ => true end) with true by (destruct w; auto).
      pose proof (strip_starts t) as F. rewrite S in F. cbn in F. cbn [nrm]. rewrite F. left. reflexivity.
  - constructor; auto. apply (IH false).
    + intros I. apply N. right. exact I.
    + unfold last_ok in *. cbn [rev] in L. destruct (rev t); cbn in *; auto.
    + discriminate.
Qed.
Lemma nrm_exact v u : last_ok (fun c => is_lwsp c = false) v -> nrm false v = u -> ~ In SP u -> v = u.
Proof. intros L E N. subst u. rewrite nrm_plain; auto. apply (nrm_no_space v false); auto. discriminate. Qed.

Lemma unspaced_lwsp c : is_lwsp c = true -> negb ((code c =? 32) || ((9 <=? code c) && (code c <=? 13)))%N = false.
Proof. intros L. apply LWSP_is in L. destruct L as [->|[->|[->| ->]]]; reflexivity. Qed.
Lemma unspaced_nrm t b : unspaced (nrm b t) = unspaced t.
Proof.
  revert b. induction t as [|c t IH]; intros b; auto. cbn [nrm]. unfold unspaced in *. destruct (is_lwsp c) eqn:L.
  - cbn [filter]. rewrite unspaced_lwsp by auto. apply IH.
  - rewrite filter_app. replace (filter _ (if b then [SP] else [])) with (@nil ascii) by (destruct b; reflexivity). cbn [app filter]. rewrite IH. reflexivity.
Qed.

(** ** Tags *)
Definition nrm_tag (p : bytes * bytes) : bytes * bytes := (fst p, nrm false (snd p)).
Lemma value_lwsp c : value_byte c -> is_lwsp c = false.
Proof. intros V. apply val_not_lwsp. apply value_byte_b. exact V. Qed.
Lemma value_ends v : tag_value v -> first_ok (fun c => is_lwsp c = false) v /\ last_ok (fun c => is_lwsp c = false) v.
Proof.
  intros (_ & F & L). split; [destruct v; cbn in *; auto|unfold last_ok in *; destruct (rev v); cbn in *; auto]; apply value_lwsp; auto.
Qed.
Lemma value_SP : value_byte SP \/ LWSP SP.
Proof. right. left. reflexivity. Qed.
Lemma nrm_tag_value v : tag_value v -> tag_value (nrm false v).
Proof.
  intros (A & F & L). destruct v as [|c v]; [repeat split; auto|]. cbn in F. pose proof (value_lwsp _ F) as LC. split; [|split].
  - apply nrm_bytes; auto. apply value_SP.
  - rewrite nrm_first by auto. exact F.
  - assert (N : c :: v <> []) by discriminate. destruct (exists_last N) as (k & z & E). rewrite E in *. unfold last_ok in L. rewrite rev_app_distr in L. cbn in L.
    pose proof (value_lwsp _ L) as LZ. pose proof (nrm_last (k ++ [z]) false) as X. rewrite (nrm_app k z []) by auto. cbn [nrm]. rewrite app_nil_r.
    clear - L LZ. assert (X : forall b, exists k', nrm b (k ++ [z]) = k' ++ [z]).
    { induction k as [|x k IH]; intros b; cbn [app nrm].
      - rewrite LZ. exists (if b then [SP] else []). reflexivity.
      - destruct (is_lwsp x); [apply IH|]. destruct (IH false) as (k' & ->). exists ((if b then [SP] else []) ++ x :: k'). rewrite <- app_assoc. reflexivity. }
    destruct (X false) as (k' & ->). unfold last_ok. rewrite rev_app_distr. exact L.
Qed.
Lemma name_word n : tag_name n -> Forall (fun c => is_lwsp c = false) n.
Proof. intros [_ F]. eapply Forall_impl; [|exact F]. intros c H. apply name_not_lwsp. apply name_byte_b. exact H. Qed.
Definition sp_if (b : bool) : bytes := if b then [SP] else [].
Lemma sp_ws b : Forall LWSP (sp_if b).
Proof. destruct b; repeat constructor. Qed.
Lemma nrm_entry w1 n w2 w3 v w4 r b : Forall LWSP w1 -> tag_name n -> Forall LWSP w2 -> Forall LWSP w3 -> tag_value v -> Forall LWSP w4 ->
  (r = [] \/ exists r', r = SEMI :: r') ->
  exists b1 b2 b3 b4, nrm b (w1 ++ n ++ w2 ++ EQUALS :: w3 ++ v ++ w4 ++ r) = sp_if b1 ++ n ++ sp_if b2 ++ EQUALS :: sp_if b3 ++ nrm false v ++ sp_if b4 ++ nrm false r.
Proof.
  intros W1 N W2 W3 V W4 R. destruct (value_ends v V) as [VF VL]. pose proof (name_word n N) as NW. destruct N as [NN _].
  rewrite nrm_ws by auto. eexists. rewrite nrm_word by auto. rewrite nrm_ws by auto. cbn [nrm]. change (is_lwsp EQUALS) with false. cbv iota.
  exists (match w2 with [] => false | _ => true end). rewrite nrm_ws by auto. set (b3 := match w3 with [] => false | _ => true end).
  assert (K : exists b3' b4, nrm b3 (v ++ w4 ++ r) = sp_if b3' ++ nrm false v ++ sp_if b4 ++ nrm false r).
  { assert (K4 : forall b, exists b', nrm b (w4 ++ r) = sp_if b' ++ nrm false r).
    { intros b0. rewrite nrm_ws by auto. destruct R as [->|(r' & ->)]; [exists false; reflexivity|].
      cbn [nrm]. change (is_lwsp SEMI) with false. cbv iota. eexists. reflexivity. }
    destruct v as [|c v].
    - cbn [app nrm]. destruct (K4 b3) as (b' & ->). exists false, b'. reflexivity.
    - rewrite nrm_value by (auto; discriminate). destruct (K4 false) as (b' & ->). exists b3, b'. reflexivity. }
  destruct K as (b3' & b4 & ->). exists b3', b4. reflexivity.
Qed.
Lemma nrm_tags l t : rendered_tags l t -> forall b, rendered_tags (map nrm_tag l) (nrm b t).
Proof.
  induction 1 as [w W|w1 n w2 w3 v w4 W1 N W2 W3 V W4|w1 n w2 w3 v w4 l t W1 N W2 W3 V W4 R IH]; intros b.
  - rewrite <- (app_nil_r w), nrm_ws by auto. constructor. constructor.
  - rewrite <- (app_nil_r w4). destruct (nrm_entry w1 n w2 w3 v w4 [] b W1 N W2 W3 V W4 (or_introl eq_refl)) as (b1 & b2 & b3 & b4 & ->).
    cbn [nrm map]. rewrite app_nil_r. apply rt_last; auto using sp_ws, nrm_tag_value.
  - destruct (nrm_entry w1 n w2 w3 v w4 (SEMI :: t) b W1 N W2 W3 V W4) as (b1 & b2 & b3 & b4 & ->); [eauto|].
    cbn [map]. rewrite nrm_first by reflexivity. apply rt_more; auto using sp_ws, nrm_tag_value.
Qed.
Lemma strip_tags l t : rendered_tags l t -> rendered_tags l (strip t).
Proof.
  assert (S : forall n r, tag_name n -> strip (n ++ r) = n ++ r).
  { intros n r N. apply strip_first. destruct (name_first n r N) as (c & n' & _ & L & ->). exact L. }
  intros R. destruct R as [w W|w1 n w2 w3 v w4 W1 N W2 W3 V W4|w1 n w2 w3 v w4 l t W1 N W2 W3 V W4 R].
  - rewrite <- (app_nil_r w), strip_ws by auto. constructor. constructor.
  - rewrite strip_ws, S by auto. apply (rt_last []); auto.
  - rewrite strip_ws, S by auto. apply (rt_more []); auto.
Qed.
Lemma norm_tags l t : rendered_tags l t -> rendered_tags (map nrm_tag l) (norm t).
Proof. intros R. apply nrm_tags, strip_tags, R. Qed.

(** ** Without the value of b= *)
Definition blanked (n : bytes) (l : list (bytes * bytes)) : list (bytes * bytes) :=
  map (fun p => (fst p, if beqb (fst p) n then [] else snd p)) l.
Lemma blanked_absent n l : ~ In n (map fst l) -> blanked n l = l.
Proof.
  induction l as [|[m v] l IH]; intros N; auto. cbn [blanked map fst snd]. fold (blanked n l). rewrite IH by (intros I; apply N; right; auto).
  assert (E : beqb m n = false). { destruct (beqb m n) eqn:E; auto. apply beqb_eq in E. subst. destruct N. left. reflexivity. }
  rewrite E. reflexivity.
Qed.
Lemma empty_value : tag_value [].
Proof. repeat split; auto. Qed.
Lemma blanked_tags l input : rendered_tags l input -> forall n pre v post, tag_at n input pre v post -> tag_name n -> v <> [] -> NoDup (map fst l) ->
  rendered_tags (blanked n l) (pre ++ post).
Proof.
  intros R n pre v post (E & V & (t & w1 & w2 & w3 & EP & B & W1 & W2 & W3) & (w4 & r & EQ & W4 & ER)) N NV. subst pre post.
  rewrite <- ?app_assoc in E. cbn [app] in E. rewrite <- ?app_assoc in E. change (at_boundary t) in B.
  rewrite <- ?app_assoc. cbn [app]. rewrite <- ?app_assoc. revert t B E.
  induction R as [w W|a1 m a2 a3 u a4 A1 M A2 A3 U A4|a1 m a2 a3 u a4 l t0 A1 M A2 A3 U A4 R IH]; intros t B E ND.
  - exfalso. subst w. apply (LWSP_not EQUALS _ W eq_refl). apply in_or_app. right. apply in_or_app. right. apply in_or_app. right.
    apply in_or_app. right. left. reflexivity.
  - pose proof (entry_no_semi _ _ _ _ _ _ A1 M A2 A3 U A4) as NS. destruct B as [->|(t1 & ->)].
    + cbn [app] in E |- *.
      assert (X : a1 ++ m ++ a2 ++ EQUALS :: a3 ++ u ++ a4 ++ [] = w1 ++ n ++ w2 ++ EQUALS :: w3 ++ v ++ w4 ++ r) by (rewrite app_nil_r; exact E).
      pose proof X as X'. apply entry_det in X; auto; [|exact I|apply ends_value_post; auto]. destruct X as (-> & -> & -> & -> & EW). rewrite <- (EW NV) in *.
      do 2 apply app_inv_head in X'. apply app_inv_head in X'. injection X' as X'. do 2 apply app_inv_head in X'. rewrite app_nil_r in X'. subst a4.
      assert (NR : r = []). { destruct ER as [->|(r' & ->)]; auto. exfalso. apply Forall_app in A4 as [_ A4]. apply Forall_inv, LWSP_is in A4. discriminate. }
      subst r. cbn [blanked map fst snd]. rewrite beqb_refl. apply (rt_last w1 n w2 a3 [] (w4 ++ [])); auto using empty_value.
    + exfalso. apply NS. rewrite E. rewrite <- app_assoc. apply in_or_app. right. left. reflexivity.
  - pose proof (entry_no_semi _ _ _ _ _ _ A1 M A2 A3 U A4) as NS. cbn [map fst] in ND. inversion ND as [|? ? NI ND']; subst. destruct t as [|c t].
    + cbn [app] in E |- *. pose proof E as X'. apply entry_det in E; auto; [|reflexivity|apply ends_value_post; auto]. destruct E as (-> & -> & -> & -> & EW).
      rewrite <- (EW NV) in *. do 2 apply app_inv_head in X'. apply app_inv_head in X'. injection X' as X'. do 2 apply app_inv_head in X'.
      assert (X2 : a4 = w4 /\ r = SEMI :: t0).
      { destruct (app_split _ _ _ _ X') as [(l0 & E1 & E2)|(l0 & E1 & E2)].
        - destruct l0 as [|z l0]; [rewrite app_nil_r in E1; auto|]. exfalso. subst a4. apply Forall_app in A4 as [_ A4]. apply Forall_inv, LWSP_is in A4.
          destruct ER as [ER|(r' & ER)]; rewrite ER in E2; [discriminate|]. injection E2 as <- _. discriminate.
        - destruct l0 as [|z l0]; [rewrite app_nil_r in E1; auto|]. exfalso. subst w4. apply Forall_app in W4 as [_ W4]. apply Forall_inv, LWSP_is in W4.
          injection E2 as <- _. discriminate. }
      destruct X2 as [-> ->]. cbn [blanked map fst snd]. rewrite beqb_refl. fold (blanked n l). rewrite blanked_absent by auto.
      apply (rt_more w1 n w2 a3 [] w4); auto using empty_value.
    + assert (X : (c :: t) ++ w1 ++ n ++ w2 ++ EQUALS :: w3 ++ v ++ w4 ++ r = (a1 ++ m ++ a2 ++ EQUALS :: a3 ++ u ++ a4) ++ SEMI :: t0).
      { rewrite <- E. rewrite <- !app_assoc. cbn [app]. rewrite <- !app_assoc. reflexivity. }
      pose proof X as X'.
      destruct (boundary_skip _ _ _ _ B ltac:(discriminate) NS X) as (t1 & B1 & E1 & ES).
      specialize (IH t1 B1 E1 ND').
      assert (ET : c :: t = (a1 ++ m ++ a2 ++ EQUALS :: a3 ++ u ++ a4) ++ SEMI :: t1).
      { apply (app_inv_tail (w1 ++ n ++ w2 ++ EQUALS :: w3 ++ v ++ w4 ++ r)). rewrite X', E1, <- (app_assoc _ (SEMI :: t1)). reflexivity. }
      rewrite ET. rewrite <- ?app_assoc. cbn [app]. rewrite <- ?app_assoc. cbn [app].
      assert (NN : beqb m n = false).
      { destruct (beqb m n) eqn:EB; auto. apply beqb_eq in EB. subst m. exfalso. apply NI.
        pose proof (at_nth l t0 R n t1 w1 w2 w3 v w4 r N B1 W1 W2 W3 V W4 (ends_value_post _ ER) E1) as NE. apply nth_error_In in NE.
        apply (in_map fst) in NE. exact NE. }
      cbn [blanked map fst snd]. rewrite NN. fold (blanked n l). apply rt_more; auto.
Qed.

(** ** The canonical form of a field *)
Lemma FWSs_LWSP w : FWSs w -> Forall LWSP w.
Proof.
  assert (K : forall w, Forall WSP w -> Forall LWSP w) by (intros w0; apply Forall_impl; intros c [->| ->]; [left|right; left]; auto).
  induction 1 as [|w r F R IH]; [constructor|]. apply Forall_app. split; auto. destruct F; auto.
  apply Forall_app. split; auto. apply Forall_app. split; auto. constructor; [right; right; left; auto|]. constructor; [right; right; right; auto|constructor].
Qed.
Lemma visible_not c : ~ WSP c -> c <> CR -> c <> LF -> is_lwsp c = false.
Proof. intros W R L. destruct (is_lwsp c) eqn:E; auto. apply LWSP_is in E. destruct E as [E|[E|[E|E]]]; [destruct W; left; auto|destruct W; right; auto|congruence..]. Qed.
Lemma unfolded_nrm t u : unfolded t u -> cr_before t -> nrm false t = u.
Proof.
  induction 1 as [w W|c t u NW NC U IH|w c t u N W NW NC U IH]; intros H.
  - rewrite <- (app_nil_r w), nrm_ws by (apply FWSs_LWSP; auto). reflexivity.
  - destruct (cr_before_tail c t NC H) as [A B]. rewrite nrm_first by (apply visible_not; auto). rewrite IH by auto. reflexivity.
  - apply cr_before_ws in H; [|apply FWSs_ws; auto]. destruct (cr_before_tail c t NC H) as [A B]. specialize (IH H).
    pose proof (visible_not c NW NC A) as L. rewrite nrm_ws by (apply FWSs_LWSP; auto). destruct w as [|x w]; [congruence|].
    rewrite nrm_first in IH by auto. cbn [nrm]. rewrite L. cbn [app]. rewrite IH. reflexivity.
Qed.
Lemma nrm_idem t : nrm false (nrm false t) = nrm false t.
Proof.
  assert (K : forall t, nrm false (nrm false t) = nrm false t /\ nrm false (nrm true t) = nrm true t).
  { clear t. induction t as [|c t [IH1 IH2]]; [auto|]. cbn [nrm]. destruct (is_lwsp c) eqn:L; [auto|]. cbn [app nrm]. rewrite L.
    change (is_lwsp SP) with true. cbv iota. cbn [app nrm]. cbn [app]. rewrite IH1. auto. }
  apply K.
Qed.
Lemma nrm_tail t w b : Forall LWSP w -> nrm b (t ++ w) = nrm b t.
Proof.
  intros W. revert b. induction t as [|c t IH]; intros b; cbn [app nrm].
  - rewrite <- (app_nil_r w), nrm_ws by auto. reflexivity.
  - rewrite !IH. reflexivity.
Qed.
Lemma strip_nrm t b : nrm false (strip (nrm b t)) = nrm false (strip t).
Proof.
  destruct (strip_split t) as (w & W & E). pose proof (strip_starts t) as F. destruct (strip t) as [|c r].
  - rewrite E, nrm_ws by auto. reflexivity.
  - cbn in F. rewrite E, nrm_ws by auto. set (b' := match w with [] => b | _ => true end). cbn [nrm]. rewrite F.
    assert (K : strip ((if b' then [SP] else []) ++ c :: nrm false r) = c :: nrm false r).
    { destruct b'; cbn [app strip]; [change (is_lwsp SP) with true; cbv iota|]; rewrite F; reflexivity. }
    rewrite K. rewrite nrm_first by auto. rewrite nrm_idem. reflexivity.
Qed.
Lemma norm_nrm t : norm (nrm false t) = norm t.
Proof. apply strip_nrm. Qed.
Lemma norm_ws w t : Forall LWSP w -> norm (w ++ t) = norm t.
Proof. intros W. unfold norm. rewrite strip_ws; auto. Qed.
Lemma strip_tail t w : Forall LWSP w -> exists w', Forall LWSP w' /\ strip (t ++ w) = strip t ++ w'.
Proof.
  intros W. induction t as [|c t (w' & W' & E)]; cbn [app strip].
  - exists []. split; [constructor|]. rewrite <- (app_nil_r w), strip_ws by auto. reflexivity.
  - destruct (is_lwsp c); [eauto|]. exists w. auto.
Qed.
Lemma norm_tail t w : Forall LWSP w -> norm (t ++ w) = norm t.
Proof. intros W. unfold norm. destruct (strip_tail t w W) as (w' & W' & ->). apply nrm_tail. auto. Qed.
Lemma low_lwsp c : is_lwsp (low c) = is_lwsp c.
Proof.
  assert (K : forall c, Bool.eqb (is_lwsp (low c)) (is_lwsp c) = true) by (apply byte_sweep; vm_compute; reflexivity).
  apply Bool.eqb_prop, K.
Qed.
Lemma low_nrm t b : map low (nrm b t) = nrm b (map low t).
Proof.
  revert b. induction t as [|c t IH]; intros b; auto. cbn [map nrm]. rewrite low_lwsp. destruct (is_lwsp c); auto.
  rewrite map_app. cbn [map]. rewrite IH. destruct b; reflexivity.
Qed.
Lemma low_idem c : low (low c) = low c.
Proof.
  assert (K : forall c, (low (low c) =?c low c) = true) by (apply byte_sweep; vm_compute; reflexivity). apply ceqb_eq, K.
Qed.
Lemma map_low_idem t : map low (map low t) = map low t.
Proof. rewrite map_map. apply map_ext. apply low_idem. Qed.
Lemma low_ws w : Forall LWSP w -> Forall LWSP (map low w).
Proof. intros W. apply Forall_map. eapply Forall_impl; [|exact W]. intros c H. apply LWSP_is. rewrite low_lwsp. apply LWSP_is. auto. Qed.
Lemma low_colon c : low c = COLON -> c = COLON.
Proof.
  assert (K : forall c, implb (low c =?c COLON) (c =?c COLON) = true) by (apply byte_sweep; vm_compute; reflexivity).
  intros E. specialize (K c). rewrite E, ceqb_refl in K. apply ceqb_eq. exact K.
Qed.
Lemma cr_before_app a c b : cr_before (a ++ c :: b) -> c <> CR -> cr_before b.
Proof.
  intros H NC x y ->. destruct (H (a ++ c :: x) y) as (a' & E); [rewrite <- app_assoc; reflexivity|].
  destruct x as [|z x] using rev_ind.
  - apply app_inj_tail in E as [_ ->]. congruence.
  - rewrite app_comm_cons, app_assoc in E. apply app_inj_tail in E as [_ ->]. eauto.
Qed.
Lemma cr_before_front a b : cr_before (a ++ b) -> cr_before a.
Proof. intros H x y ->. apply (H x (y ++ b)). rewrite <- app_assoc. reflexivity. Qed.
Lemma cr_before_low t : cr_before t -> cr_before (map low t).
Proof. intros H. eapply cr_before_alike; [|exact H]. rewrite map_low. apply alike_lower. Qed.
Lemma first_colon n val n2 r : ~ In COLON n -> ~ In COLON n2 -> n ++ COLON :: val = n2 ++ COLON :: r -> n = n2 /\ val = r.
Proof.
  intros N N2 E. revert n2 N2 E. induction n as [|c n IH]; intros [|c2 n2] N2 E; cbn [app] in E; injection E as; subst.
  - auto.
  - destruct N2. left. auto.
  - destruct N. left. auto.
  - destruct (IH (fun I => N (or_intror I)) n2 (fun I => N2 (or_intror I)) H0) as [-> ->]. auto.
Qed.
Lemma LWSP_colon w : Forall LWSP w -> ~ In COLON w.
Proof. intros W I. rewrite Forall_forall in W. apply W, LWSP_is in I. discriminate. Qed.

Lemma form_parts mode w nm w' K val out : Forall WSP w -> Forall WSP w' -> map low nm = K -> K <> [] ->
  Forall (fun c => is_lwsp c = false /\ c <> COLON) K ->
  crlf_folds ((w ++ nm ++ w') ++ COLON :: val) -> cr_before ((w ++ nm ++ w') ++ COLON :: val) ->
  FilterHeader false mode ((w ++ nm ++ w') ++ COLON :: val) = Ok out ->
  exists n' v', out = n' ++ COLON :: v' /\ ~ In COLON n' /\ norm (map low n') = K /\ norm v' = norm val /\ (w = [] -> begins_field out).
Proof.
  intros W W' EK NK FK CF CB E.
  assert (WL : forall x, Forall WSP x -> Forall LWSP x) by (intros x; apply Forall_impl; intros c [->| ->]; [left|right; left]; auto).
  assert (KL : Forall (fun c => is_lwsp c = false) K) by (revert FK; apply Forall_impl; intros c [X _]; exact X).
  assert (NN : Forall (fun c => is_lwsp c = false) nm).
  { subst K. apply Forall_map in KL. eapply Forall_impl; [|exact KL]. intros c X. cbn beta in X. rewrite low_lwsp in X. auto. }
  assert (NC : ~ In COLON (w ++ nm ++ w')).
  { intros I. apply in_app_or in I as [I|I]; [revert I; apply LWSP_colon; auto|]. apply in_app_or in I as [I|I]; [|revert I; apply LWSP_colon; auto].
    subst K. apply (in_map low) in I. rewrite Forall_forall in FK. apply FK in I. destruct I as [_ I]. apply I. reflexivity. }
  assert (NE : nm <> []) by (intros ->; apply NK; auto).
  assert (KN : norm (map low (w ++ nm ++ w')) = K).
  { rewrite !map_app, EK. rewrite norm_ws by (apply low_ws; auto). rewrite norm_tail by (apply low_ws; auto). unfold norm. rewrite strip_first.
    - apply nrm_plain. auto.
    - destruct K; [exact I|]. inversion KL; auto. }
  destruct mode.
  - rewrite FilterHeader_simple in E. apply Ok_inj in E. subst out. exists (w ++ nm ++ w'), val. repeat (split; auto).
    intros ->. destruct nm as [|c nm]; [congruence|]. exists c, ((nm ++ w') ++ COLON :: val). split; auto. inversion NN; subst. intros X.
    assert (Y : LWSP c) by (destruct X; [left|right; left]; auto). apply LWSP_is in Y. congruence.
  - destruct (FilterHeader_shape _ CF) as [P|(o & P & SH)]; rewrite E in P; [discriminate|]. apply Ok_inj in P. subst o.
    destruct SH as [(n & RF)|(w0 & r & F0 & ET)].
    + remember ((w ++ nm ++ w') ++ COLON :: val) as text eqn:ETX.
      destruct RF as [n2 n' w1 w2 v v' N2 C2 L2 U1 F1 F2 FV U2].
      assert (CW : ~ In COLON (n2 ++ w1)).
      { intros I. apply in_app_or in I as [I|I]; auto. revert I. apply LWSP_colon, FWSs_LWSP, F1. }
      rewrite app_assoc in ETX. symmetry in ETX. destruct (first_colon _ _ _ _ NC CW ETX) as [EN EV]. subst val.
      exists n', v'. split; auto.
      assert (U1' : nrm false (map low n2) = n').
      { apply unfolded_nrm; auto. apply cr_before_low. eapply cr_before_front; eauto. }
      assert (U2' : nrm false v = v').
      { apply unfolded_nrm; auto. eapply cr_before_ws; [apply FWSs_ws; exact F2|]. apply (cr_before_app (n2 ++ w1) COLON); [rewrite <- app_assoc; exact CB|discriminate]. }
      split.
      { intros I. rewrite <- U1' in I. assert (X : Forall (fun c => c <> COLON) (nrm false (map low n2))).
        { apply nrm_bytes; [discriminate|]. apply Forall_map, Forall_forall. intros c IC EC. apply low_colon in EC. subst. auto. }
        rewrite Forall_forall in X. apply X in I. congruence. }
      split; [|split].
      * rewrite <- U1', low_nrm, map_low_idem, norm_nrm. rewrite <- KN, EN, map_app, norm_tail; auto. apply low_ws, FWSs_LWSP, F1.
      * rewrite <- U2', norm_nrm, norm_ws; auto. apply FWSs_LWSP, F2.
      * intros ->. cbn [app] in EN. destruct n2 as [|c n2]; [congruence|]. destruct nm as [|c' nm]; [congruence|].
        injection EN as -> EN. pose proof (Forall_inv NN) as H1. cbn beta in H1. cbn [map] in U1'. cbn [nrm] in U1'. rewrite low_lwsp, H1 in U1'. cbn [app] in U1'.
        rewrite <- U1'. eexists _, _. split; [reflexivity|]. intros X.
        assert (Y : LWSP (low c)) by (destruct X; [left|right; left]; auto). apply LWSP_is in Y. rewrite low_lwsp in Y. congruence.
    + exfalso. pose proof (FWSs_LWSP _ F0) as L0. destruct (first_colon _ _ _ _ NC (LWSP_colon _ L0) ET) as [EN _]. rewrite <- EN in L0.
      apply Forall_app in L0 as [_ L0]. apply Forall_app in L0 as [L0 _]. destruct nm as [|c nm]; [congruence|].
      inversion L0; subst. inversion NN; subst. apply LWSP_is in H1. congruence.
Qed.

(** The text after the last line break. *)
Lemma last_field A x B y : (A = [] \/ exists a, A = a ++ [LF]) -> (B = [] \/ exists b, B = b ++ [LF]) ->
  ~ In LF x -> begins_field x -> lf_folds y -> A ++ x = B ++ y -> x = y.
Proof.
  intros HA HB NX (c & r & -> & NW) LY E. destruct (app_split _ _ _ _ E) as [(l & E1 & E2)|(l & E1 & E2)].
  - destruct l as [|z l] using rev_ind; [auto|]. exfalso. clear IHl. destruct HA as [->|(a & ->)]; [destruct B, l; discriminate|].
    rewrite app_assoc in E1. apply app_inj_tail in E1 as [_ <-]. rewrite <- app_assoc in E2. destruct (LY _ _ E2) as (c' & r' & EQ & W).
    injection EQ as <- _. auto.
  - destruct l as [|z l] using rev_ind; [auto|]. exfalso. clear IHl. destruct HB as [->|(b & ->)]; [destruct A, l; discriminate|].
    rewrite app_assoc in E1. apply app_inj_tail in E1 as [_ <-]. apply NX. rewrite E2. apply in_or_app. left. apply in_or_app. right. left. reflexivity.
Qed.
Lemma with_crlf_end xs : with_crlf xs = [] \/ exists a, with_crlf xs = a ++ [LF].
Proof.
  destruct xs as [|x xs] using rev_ind; [left; reflexivity|]. right. rewrite with_crlf_app. unfold with_crlf at 2. cbn [concat map]. rewrite app_nil_r.
  exists (with_crlf xs ++ x ++ [CR]). rewrite <- !app_assoc. reflexivity.
Qed.
