(** The reasons for which Signature::Parse refuses (for C96). *)
From Verif Require Import Bytes Outcome Stream Tokenizer QuotedPrintable Base64 TagList MailParser Canonicalization Util
  CStdlib Crypto Signature PublicKey Tool ToolText ErrorText Reasons BytesFacts SpecText SpecTags SpecMail SpecCanon SpecVerify SpecSig SpecParse SpecKey SpecError SpecReason
  QPFacts ListFacts ListExact ListWide TagListFacts HeaderFacts SigFacts SigProps KeyExact SigExact ErrorQP ErrorList ErrorCases ReportFacts.
Local Open Scope string_scope. Local Open Scope list_scope.

(** ** One stage after the other *)
Definition good_stage {S} (R : nat -> bytes -> Prop) (I : nat -> S -> Prop) (k : nat) (x : stage S) : Prop := forall s, I k s ->
  (exists s', fst x s = (s', Ok tt) /\ I (Datatypes.S k) s' /\ forall m, ~ R k m) \/ (exists s', fst x s = (s', perm) /\ R k (snd x s)).
Fixpoint all_stages {S} (R : nat -> bytes -> Prop) (I : nat -> S -> Prop) (k : nat) (l : list (stage S)) : Prop :=
  match l with
  | [] => forall j m, k <= j -> ~ R j m
  | x :: r => good_stage R I k x /\ all_stages R I (Datatypes.S k) r
  end.
Lemma stages_reason {S} R I (l : list (stage S)) : forall k s, all_stages R I k l -> I k s ->
  match first_what l s with
  | Some m => (exists j, k <= j /\ R j m /\ forall i m', k <= i -> R i m' -> j <= i) /\ exists s', run_stages (map fst l) s = (s', perm)
  | None => (exists s', run_stages (map fst l) s = (s', Ok tt)) /\ forall j m, k <= j -> ~ R j m
  end.
Proof.
  induction l as [|[f what] l IH]; intros k s A J; cbn [all_stages] in A.
  - cbn [first_what map run_stages]. split; [eauto|exact A].
  - destruct A as [G A]. cbn [first_what map run_stages fst]. destruct (G s J) as [(s' & E & J' & N)|(s' & E & K)]; cbn [fst snd] in E; rewrite E; cbn [sbind].
    + specialize (IH (Datatypes.S k) s' A J'). destruct (first_what l s') as [m|].
      * destruct IH as [(j & L & K & F) X]. split; [|exact X]. exists j. split; [lia|]. split; [exact K|]. intros i m' Li Ki.
        destruct (Nat.eq_dec i k) as [->|D]; [destruct (N _ Ki)|]. apply (F i m'); [lia|exact Ki].
      * destruct IH as [X F]. split; [exact X|]. intros j m L Kj. destruct (Nat.eq_dec j k) as [->|D]; [exact (N _ Kj)|]. apply (F j m); [lia|exact Kj].
    + unfold perm at 1. cbn [thrown]. split; [|exists s'; reflexivity]. exists k. split; [lia|]. split; [exact K|]. intros i m' L _. exact L.
Qed.

(** ** Parts *)
Lemma up_to_nul_c_str x : up_to_nul x (c_str x).
Proof.
  induction x as [|c x IH]; [apply sh_all; intros []|]. cbn [c_str]. destruct (code c =? 0)%N eqn:E.
  - apply N.eqb_eq in E. assert (c = chr 0) as ->.
    { rewrite <- (ascii_N_embedding c). change (N_of_ascii c) with (code c). rewrite E. reflexivity. }
    apply (sh_nul [] x). intros [].
  - assert (N : c <> chr 0) by (intros ->; discriminate E).
    revert IH. generalize (c_str x). intros z IH. inversion IH as [y NI E1 E2|y r NI E1 E2].
    + subst. apply sh_all. intros [K|K]; [congruence|exact (NI K)].
    + apply (sh_nul (c :: z) r). intros [K|K]; [congruence|exact (NI K)].
Qed.
Lemma up_to_nul_fun x y z : up_to_nul x y -> up_to_nul x z -> y = z.
Proof.
  assert (H : forall x r y, ~ In (chr 0) x -> up_to_nul (x ++ chr 0 :: r) y -> y = x).
  { clear. intros x r y N K. inversion K as [a NI E|a r' NI E]; subst.
    - exfalso. apply NI. apply in_or_app. right. left. reflexivity.
    - apply app_eq_app in E as (l & [[-> E]|[-> E]]); destruct l as [|c l]; rewrite ?app_nil_r; auto; injection E as <- E; exfalso;
        [apply NI|apply N]; apply in_or_app; right; left; reflexivity. }
  intros A B. inversion A as [a NI E|a r NI E]; subst.
  - inversion B as [b NJ E|b r NJ E]; subst; [reflexivity|]. exfalso. apply NI. apply in_or_app. right. left. reflexivity.
  - symmetry. apply (H y r z NI B).
Qed.
Lemma halves_of c : let '(h, b) := match find_char (chr 47) c with
                                   | None => (c, str "simple")
                                   | Some i => (firstn i c, skipn (S i) c)
                                   end in c_halves c h b.
Proof.
  destruct (find_char (chr 47) c) as [i|] eqn:F.
  - apply find_char_Some in F as (pre & post & E & L & NI). subst i. rewrite E, firstn_app_exact.
    replace (S (length pre)) with (length (pre ++ [chr 47])) by (rewrite app_length; cbn; lia).
    replace (pre ++ chr 47 :: post) with ((pre ++ [chr 47]) ++ post) at 2 by (rewrite <- app_assoc; reflexivity).
    rewrite skipn_app_exact. apply ch_two. exact NI.
  - apply find_char_None in F. apply ch_one. exact F.
Qed.
Lemma halves_fun c h b h' b' : c_halves c h b -> c_halves c h' b' -> h = h' /\ b = b'.
Proof.
  intros A B. inversion A as [v N|h0 b0 N]; subst; inversion B as [v' N'|h1 b1 N' E]; subst; auto.
  - exfalso. apply N. apply in_or_app. right. left. reflexivity.
  - exfalso. apply N'. apply in_or_app. right. left. reflexivity.
  - apply app_eq_app in E as (k & [[-> E]|[-> E]]); destruct k as [|x k]; rewrite ?app_nil_r in *.
    + injection E as ->. auto.
    + injection E as <- E. exfalso. apply N'. apply in_or_app. right. left. reflexivity.
    + injection E as ->. auto.
    + injection E as <- E. exfalso. apply N. apply in_or_app. right. left. reflexivity.
Qed.
Lemma ul_reads_strtoul v : tag_value v -> let '(n, r, f) := strtoul v in ul_reads v n r f.
Proof.
  intros T. destruct (strtoul v) as [[n r] f] eqn:U. destruct (strtoul_spec v _ _ _ T U) as [(neg & m & t & E & SN & FR & X)|(E1 & E2 & E3 & NS)].
  - rewrite E. unfold ULONG_MAX in X. destruct f; destruct X as [-> X]; [apply (ur_large t r neg m)|apply (ur_number t r neg m)]; auto; lia.
  - subst. apply ur_none. exact NS.
Qed.
Lemma starts_rest t r neg m t' r' neg' m' : signed_number t neg m -> first_ok (fun c => ~ between 48 57 c) r ->
  signed_number t' neg' m' -> first_ok (fun c => ~ between 48 57 c) r' -> t ++ r = t' ++ r' -> r = r'.
Proof.
  intros S1 F1 S2 F2 E. destruct (signed_tail _ _ _ S1) as (c & x & -> & D). destruct (signed_tail _ _ _ S2) as (c' & x' & -> & D').
  cbn [app] in E. injection E as _ E. apply app_eq_app in E as (k & [[-> E]|[-> E]]); destruct k as [|y k]; auto.
  - subst r'. apply Forall_app in D as [_ D]. inversion D; subst. cbn in F2. contradiction.
  - subst r. apply Forall_app in D' as [_ D']. inversion D'; subst. cbn in F1. contradiction.
Qed.
Lemma ul_reads_inv v n r f : ul_reads v n r f ->
  (exists t neg m, v = t ++ r /\ signed_number t neg m /\ first_ok (fun c => ~ between 48 57 c) r /\
     n = (if (m <? 18446744073709551616)%N then ul_value neg m else 18446744073709551615%N) /\ f = negb (m <? 18446744073709551616)%N) \/
  (n = 0%N /\ r = v /\ f = false /\ forall neg m, ~ starts_number v neg m).
Proof.
  intros [t x neg m SN FR L|t x neg m SN FR L|w NS]; [left|left|right; auto]; exists t, neg, m.
  - apply N.ltb_lt in L. rewrite L. auto.
  - apply N.ltb_ge in L. rewrite L. auto.
Qed.
Lemma ul_reads_fun v n r f n' r' f' : ul_reads v n r f -> ul_reads v n' r' f' -> n = n' /\ r = r' /\ f = f'.
Proof.
  intros A B. apply ul_reads_inv in A as [(t & neg & m & E & SN & FR & -> & ->)|(-> & -> & -> & NS)];
    apply ul_reads_inv in B as [(t2 & neg2 & m2 & E2 & SN2 & FR2 & -> & ->)|(-> & -> & -> & NS2)].
  - assert (R : r = r') by (apply (starts_rest t r neg m t2 r' neg2 m2); auto; congruence). subst r'.
    assert (A1 : starts_number v neg m) by (exists t, r; auto). assert (A2 : starts_number v neg2 m2) by (exists t2, r; auto).
    destruct (starts_fun _ _ _ _ _ A1 A2) as [<- <-]. auto.
  - exfalso. apply (NS2 neg m). exists t, r. auto.
  - exfalso. apply (NS neg2 m2). exists t2, r'. auto.
  - auto.
Qed.
Lemma list_bad v m : ValueList_says v = Says m -> ~ list_ok v /\ list_say v m.
Proof.
  intros E. split; [|apply list_says_spec; exact E]. intros (vs & W). apply ValueList_wide in W. pose proof (same_list v) as X. rewrite E in X. rewrite X in W. discriminate.
Qed.
Lemma list_cases3 v : (exists vs, ValueList v = Ok vs /\ ValueList_says v = Fine vs /\ list_wide vs v) \/
  (exists m, ValueList v = perm /\ ValueList_says v = Says m /\ ~ list_ok v /\ list_say v m).
Proof.
  pose proof (same_list v) as X. destruct (ValueList_says v) as [vs|m|] eqn:E; [left|right|destruct X].
  - exists vs. split; [exact X|]. split; [reflexivity|]. apply ValueList_wide. exact X.
  - exists m. split; [exact X|]. split; [reflexivity|]. apply list_bad. exact E.
Qed.
Lemma quoted_cases3 v : (exists d, qp_decode v false = Ok d /\ qp_decode_says v false = Fine d /\ qp_text false v d) \/
  (exists m, qp_decode v false = perm /\ qp_decode_says v false = Says m /\ ~ qp_ok false v /\ qp_say false v m).
Proof.
  pose proof (same_quoted false v) as X. destruct (qp_decode_says v false) as [d|m|] eqn:E; [left|right|destruct X].
  - exists d. split; [exact X|]. split; [reflexivity|]. apply (proj1 (qp_decode_grammar false v)). exact X.
  - exists m. split; [exact X|]. split; [reflexivity|]. split; [|apply qp_says; exact E].
    intros (d & Q). apply (proj1 (qp_decode_grammar false v)) in Q. rewrite X in Q. discriminate.
Qed.

(** ** The stages of Signature::Parse behind the tag list *)
Lemma at_unique (a b a' b' : bytes) : ~ In AT a -> ~ In AT a' -> a ++ AT :: b = a' ++ AT :: b' -> a = a' /\ b = b'.
Proof.
  intros N N' E. apply app_eq_app in E as (k & [[-> E]|[-> E]]); destruct k as [|x k]; rewrite ?app_nil_r in *.
  - injection E as ->. auto.
  - injection E as <- E. exfalso. apply N. apply in_or_app. right. left. reflexivity.
  - injection E as ->. auto.
  - injection E as <- E. exfalso. apply N'. apply in_or_app. right. left. reflexivity.
Qed.
Definition inv (tags : taglist) (l : list (bytes * bytes)) (e0 arc : bool) (k : nat) (st : sig_st) : Prop :=
  sg_tags (fst st) = tags /\ sg_arc (fst st) = arc /\ (2 <= k -> exists d, has l "d" d /\ sg_domain (fst st) = map low d) /\ (k <= 9 -> snd st = e0).
Definition sig_checks (C : crypto) (now : Z) : list (stage sig_st) :=
  [(parse_d false, d_what); (parse_v, v_what); (parse_a, a_what);
   (parse_b C false, b_what); (parse_bh C false, bh_what); (parse_c, c_what); (parse_h, h_what); (parse_i false, i_what);
   (parse_l, l_what); (parse_q, q_what); (parse_s, s_what); (parse_x now, x_what)].

Section Stages.
Context (C : crypto) (now : Z) (tags : taglist) (l : list (bytes * bytes)) (e0 arc : bool).
Context (HV : forall n v, V tags n = Some v <-> has l n v) (LV : forall n, V tags n = None <-> lacks l n) (G : good_tags tags).
Notation R := (sig_reason now e0 arc l).
Notation I_ := (inv tags l e0 arc).

Lemma tag_find n st : sg_tags (fst st) = tags ->
  (tag n st = None /\ lacks l n) \/ (exists e, tag n st = Some e /\ has l n (te_value e) /\ tag_value (te_value e)).
Proof using HV LV G.
  intros <-. destruct (tag_V n st) as [[A B]|(e & A & B)]; unfold stV in B; [left|right].
  - split; [exact A|]. apply LV. exact B.
  - exists e. split; [exact A|]. split; [apply HV; exact B|exact (G _ _ B)].
Qed.
Lemma has_one n v w : has l n v -> has l n w -> v = w.
Proof using HV. intros A B. apply HV in A, B. congruence. Qed.
Lemma has_lacks n v : has l n v -> lacks l n -> False.
Proof using HV LV. intros A B. apply HV in A. apply LV in B. congruence. Qed.
Ltac fin := match goal with
  | A : has l ?n ?v, B : lacks l ?n |- _ => exact (has_lacks n v A B)
  end.
Ltac one := repeat match goal with
  | A : has l ?n ?v, B : has l ?n ?w |- _ => assert_fails (constr_eq v w); let E := fresh "E" in pose proof (has_one n v w A B) as E; clear B; try subst
  end.

Lemma st_d : good_stage R I_ 1 (parse_d false, d_what).
Proof using HV LV G.
  intros st (T & A & D & E). cbn [fst snd]. unfold parse_d. destruct (tag_find "d" st T) as [[-> L]|(e & -> & H & TV)].
  - right. exists st. split; [reflexivity|]. apply rs_d. exact L.
  - left. rewrite lower_7bit by (apply tag_value_7bit; exact TV). cbn [slift]. eexists. split; [reflexivity|]. split.
    + split; [exact T|]. split; [exact A|]. split; [|intros _; apply E; lia]. intros _. exists (te_value e). split; [exact H|]. cbn. symmetry. apply map_low.
    + clear T A D E. intros m K. inversion K; subst. fin.
Qed.
Lemma inv_S k st : I_ k st -> k <> 1 -> k <> 8 -> k <> 9 -> I_ (S k) st.
Proof using Type. intros (T & A & D & E) N1 N8 N9. split; [exact T|]. split; [exact A|]. split; intros L; [apply D; lia|apply E; lia]. Qed.
Ltac no_reason := let m := fresh "m" in let K := fresh "K" in intros m K; repeat match goal with X : I_ _ _ |- _ => clear X | X : sg_tags _ = _ |- _ => clear X | X : sg_arc _ = _ |- _ => clear X end;
  inversion K; subst; try discriminate; try fin; one; try congruence.
Lemma st_v : good_stage R I_ 2 (parse_v, v_what).
Proof using HV LV G.
  intros st J. pose proof J as (T & A & D & E). cbn [fst snd]. unfold parse_v, v_what.
  assert (J' : I_ 3 st) by (apply inv_S; [exact J|lia|lia|lia]). destruct (sg_arc (fst st)).
  - left. exists st. split; [reflexivity|]. split; [exact J'|]. no_reason.
  - destruct (tag_find "v" st T) as [[-> L]|(e & -> & H & TV)].
    + right. exists st. split; [reflexivity|]. apply rs_v; auto.
    + destruct (beqb_spec (te_value e) (str "1")) as [E1|N1].
      * left. exists st. split; [reflexivity|]. split; [exact J'|]. no_reason.
      * right. exists st. split; [reflexivity|]. unfold format. rewrite (tag_value_c_str _ TV). apply rs_v_other; auto.
Qed.
Lemma inv_upd f k st : I_ k st -> k <> 1 -> k <> 8 -> k <> 9 -> (forall g, sg_tags (f g) = sg_tags g /\ sg_arc (f g) = sg_arc g /\ sg_domain (f g) = sg_domain g) ->
  I_ (S k) (upd f st).
Proof using Type.
  intros J N1 N8 N9 F. destruct (inv_S k st J N1 N8 N9) as (T & A & D & E). destruct (F (fst st)) as (F1 & F2 & F3).
  unfold inv, upd. cbn [fst snd]. rewrite F1, F2, F3. auto.
Qed.
Lemma st_a : good_stage R I_ 3 (parse_a, a_what).
Proof using HV LV G.
  intros st J. pose proof J as (T & A & D & E). cbn [fst snd]. unfold parse_a, a_what.
  assert (J' : forall d k, I_ 4 (upd (set_algs d k) st)) by (intros; apply inv_upd; [exact J|lia|lia|lia|intros []; auto]).
  destruct (tag_find "a" st T) as [[-> L]|(e & -> & H & TV)].
  - right. exists st. split; [reflexivity|]. apply rs_a; auto.
  - assert (OK : forall d k, a_value (te_value e) d k -> forall m, ~ R 3 m).
    { intros d k AV. no_reason. match goal with X : forall d k, ~ a_value _ d k |- _ => eapply X; eauto end. }
    destruct (beqb_spec (te_value e) (str "rsa-sha256")) as [E1|N1];
      [left; eexists; split; [reflexivity|]; split; [apply J'|apply (OK SHA256 RSA); rewrite E1; constructor]|].
    destruct (beqb_spec (te_value e) (str "rsa-sha1")) as [E2|N2];
      [left; eexists; split; [reflexivity|]; split; [apply J'|apply (OK SHA1 RSA); rewrite E2; constructor]|].
    destruct (beqb_spec (te_value e) (str "ed25519-sha256")) as [E3|N3];
      [left; eexists; split; [reflexivity|]; split; [apply J'|apply (OK SHA256 ED25519); rewrite E3; constructor]|].
    right. exists st. split; [reflexivity|]. unfold format. rewrite (tag_value_c_str _ TV). apply rs_a_other; auto.
    intros d k AV. inversion AV as [X|X|X]; symmetry in X; contradiction.
Qed.
Lemma st_b : good_stage R I_ 4 (parse_b C false, b_what).
Proof using HV LV G.
  intros st J. pose proof J as (T & A & D & E). cbn [fst snd]. unfold parse_b, b_what.
  destruct (tag_find "b" st T) as [[-> L]|(e & -> & H & TV)].
  - right. exists st. split; [reflexivity|]. apply rs_b; auto.
  - destruct (te_value e) as [|c v] eqn:EV.
    + right. exists st. split; [reflexivity|]. apply rs_b; auto.
    + left. rewrite strip_7bit by (apply tag_value_7bit; auto). cbn [slift]. eexists. split; [reflexivity|].
      split; [apply inv_upd; [exact J|lia|lia|lia|intros []; auto]|]. no_reason. match goal with X : _ \/ _ |- _ => destruct X; [fin|one; congruence] end.
Qed.
Lemma st_bh : good_stage R I_ 5 (parse_bh C false, bh_what).
Proof using HV LV G.
  intros st J. pose proof J as (T & A & D & E). cbn [fst snd]. unfold parse_bh, bh_what.
  destruct (tag_find "bh" st T) as [[-> L]|(e & -> & H & TV)].
  - right. exists st. split; [reflexivity|]. apply rs_bh; auto.
  - left. rewrite strip_7bit by (apply tag_value_7bit; auto). cbn [slift]. eexists. split; [reflexivity|].
    split; [apply inv_upd; [exact J|lia|lia|lia|intros []; auto]|]. no_reason.
Qed.
Lemma st_c : good_stage R I_ 6 (parse_c, c_what).
Proof using HV LV G.
  intros st J. pose proof J as (T & A & D & E). cbn [fst snd]. unfold parse_c, c_what.
  destruct (tag_find "c" st T) as [[-> L]|(e & -> & H & TV)].
  - left. exists st. split; [reflexivity|]. split; [apply inv_S; [exact J|lia|lia|lia]|]. no_reason.
  - pose proof (halves_of (te_value e)) as HO. destruct (match find_char (chr 47) (te_value e) with None => _ | Some i => _ end) as [h b].
    assert (CS : forall x y, c_halves (te_value e) x y -> x = h /\ y = b) by (intros x y K; exact (halves_fun _ _ _ _ _ K HO)).
    assert (CSTR : c_str h = h /\ c_str b = b).
    { assert (N0 : ~ In (chr 0) (te_value e)) by (intros I0; pose proof (tag_value_byte _ _ TV I0) as X; vm_compute in X; destruct X; congruence).
      split; apply c_str_id; intros I0; inversion HO; subst; apply N0.
      - assumption.
      - rewrite <- H0. apply in_or_app. left. assumption.
      - exfalso. clear - I0. vm_compute in I0. repeat (destruct I0 as [I0|I0]; [discriminate I0|]). exact I0.
      - rewrite <- H0. apply in_or_app. right. right. assumption. }
    destruct CSTR as [C1 C2]. unfold format.
    destruct (mode_of h) as [mh|] eqn:M1.
    + apply mode_of_name in M1. destruct (mode_of b) as [mb|] eqn:M2.
      * apply mode_of_name in M2. left. eexists. split; [reflexivity|]. split.
        -- apply (inv_upd (fun g => set_cbody mb (set_chead mh g)) 6 st J); try lia. intros []; auto.
        -- clear HO; no_reason; match goal with X : c_halves _ _ _ |- _ => apply CS in X as [? ?]; subst end; match goal with X : forall m, _ <> mode_name m |- _ => eapply X; eauto end.
      * right. eexists. split; [reflexivity|]. rewrite C2. eapply rs_c_body; eauto. intros m K. apply mode_of_name in K. congruence.
    + right. eexists. split; [reflexivity|]. rewrite C1. eapply rs_c_header; eauto. intros m K. apply mode_of_name in K. congruence.
Qed.
Lemma st_h : good_stage R I_ 7 (parse_h, h_what).
Proof using HV LV G.
  intros st J. pose proof J as (T & A & D & E). cbn [fst snd]. unfold parse_h, h_what.
  destruct (tag_find "h" st T) as [[-> L]|(e & -> & H & TV)].
  - right. exists st. split; [reflexivity|]. apply rs_h; auto.
  - destruct (list_cases3 (te_value e)) as [(vs & E1 & E2 & W)|(m & E1 & E2 & N & K)]; rewrite E1, E2; cbn [slift].
    + pose proof (is_from_same _ _ TV E1) as F. destruct (existsb is_from vs).
      * left. eexists. split; [reflexivity|]. split; [apply inv_upd; [exact J|lia|lia|lia|intros []; auto]|].
        destruct (proj1 F eq_refl) as (n & I1 & S1). no_reason.
        -- match goal with X : ~ list_ok _ |- _ => apply X; exists vs; exact W end.
        -- match goal with X : list_wide ?a _, Y : forall n, In n ?a -> _ |- _ => rewrite (Y n) in S1; [discriminate S1|]; apply ValueList_wide in X; rewrite E1 in X; injection X as <-; exact I1 end.
      * right. eexists. split; [reflexivity|]. eapply rs_h_from; eauto. intros n I1. destruct (same_name n (str "from")) eqn:S1; auto.
        exfalso. assert (false = true) by (apply F; eauto). discriminate.
    + right. eexists. split; [reflexivity|]. eapply rs_h_list; eauto.
Qed.
Lemma st_i : good_stage R I_ 8 (parse_i false, i_what).
Proof using HV LV G.
  intros st J. pose proof J as (T & A & D & E). cbn [fst snd]. unfold parse_i, i_what. destruct D as (d & Hd & Ed); [lia|]. specialize (E ltac:(lia)).
  assert (J9 : forall f, (forall g, sg_tags (f g) = sg_tags g /\ sg_arc (f g) = sg_arc g /\ sg_domain (f g) = sg_domain g) -> I_ 9 (upd f st)).
  { intros f F. destruct (F (fst st)) as (F1 & F2 & F3). unfold inv, upd. cbn [fst snd]. rewrite F1, F2, F3. split; [exact T|]. split; [exact A|].
    split; [intros _; eauto|intros _; exact E]. }
  destruct (sg_arc (fst st)) eqn:SA.
  - destruct (tag_find "i" st T) as [[-> L]|(e & -> & H & TV)].
    + right. exists st. split; [reflexivity|]. apply rs_instance; auto.
    + pose proof (ul_reads_strtoul _ TV) as U. destruct (strtoul (te_value e)) as [[n r] f] eqn:SU.
      destruct ((n <? 1) || (50 <? n))%N eqn:B.
      * right. eexists. split; [reflexivity|]. eapply rs_instance_range; eauto. apply orb_true_iff in B as [B|B]; apply N.ltb_lt in B; lia.
      * apply orb_false_iff in B as [B1 B2]. apply N.ltb_ge in B1, B2. left. eexists. split; [reflexivity|].
        assert (f = false) as -> by (apply (instance_quiet _ n r f TV); auto). split.
        -- rewrite orb_false_r. specialize (J9 (set_instance n) ltac:(intros []; auto)). unfold upd in J9. exact J9.
        -- no_reason. match goal with X : ul_reads _ _ _ _, Y : ~ (1 <= ?k <= 50)%N, Z : ul_reads _ ?k _ _ |- _ => apply Y; destruct (ul_reads_fun _ _ _ _ _ _ _ U Z) as (<- & _ & _); auto end.
  - destruct (tag_find "i" st T) as [[-> L]|(e & -> & H & TV)].
    + left. eexists. split; [reflexivity|]. split; [apply J9; intros []; auto|]. no_reason.
    + destruct (quoted_cases3 (te_value e)) as [(mail & E1 & E2 & W)|(m & E1 & E2 & N & K)]; rewrite E1, E2; cbn [slift].
      * assert (MU : forall x, qp_text false (te_value e) x -> x = mail) by (intros x X; apply (proj1 (qp_decode_grammar false _)) in X; congruence).
        destruct (find_char AT mail) as [p|] eqn:F.
        -- apply find_char_Some in F as (pre & post & EM & L & NI). subst p. rewrite EM. rewrite firstn_app_exact.
           replace (S (length pre)) with (length (pre ++ [AT])) by (rewrite app_length; cbn; lia).
           replace (pre ++ AT :: post) with ((pre ++ [AT]) ++ post) by (rewrite <- app_assoc; reflexivity). rewrite skipn_app_exact.
           cbv zeta. unfold lower_str. cbn [andb slift]. rewrite EM in W. rewrite Ed.
           assert (LE : lower post = map low post) by (symmetry; apply map_low). rewrite LE.
           destruct (beqb (map low post) (map low d) || sub_domain (map low post) (map low d)) eqn:SD.
           ++ left. eexists. split; [reflexivity|]. split; [apply J9; intros []; auto|]. apply sub_domain_spec in SD. no_reason.
              ** match goal with X : ~ qp_ok _ _ |- _ => apply X; eexists; exact W end.
              ** match goal with X : qp_text _ _ _, Y : ~ In AT _ |- _ => idtac end.
                 match goal with X : qp_text false _ ?x, Y : ~ In AT ?x |- _ => apply MU in X; rewrite X in Y; apply Y; apply in_or_app; right; left; reflexivity end.
              ** match goal with X : qp_text false _ (?a ++ AT :: ?b), Y : ~ in_domain (map low ?b) _ |- _ => apply MU in X; apply Y end.
                 match goal with X : _ ++ AT :: _ = _ ++ AT :: _ |- _ => apply at_unique in X as [? ?]; subst; auto end.
           ++ right. eexists. split; [reflexivity|]. unfold format. rewrite <- !app_assoc. rewrite (c_str_id (map low d)).
              ** eapply rs_i_domain; eauto; [|apply up_to_nul_c_str]. intros K. apply sub_domain_spec in K. congruence.
              ** intros I0. apply in_map_iff in I0 as (c & EC & IC). assert (c = chr 0) by (apply low_nul; exact EC). subst c.
                 apply HV in Hd. pose proof (tag_value_byte _ _ (G _ _ Hd) IC) as X. vm_compute in X. destruct X; congruence.
        -- apply find_char_None in F. right. eexists. split; [reflexivity|]. eapply rs_i_at; eauto.
      * right. eexists. split; [reflexivity|]. cbn [said]. eapply rs_i_quoted; eauto.
Qed.
Lemma st_l : good_stage R I_ 9 (parse_l, l_what).
Proof using HV LV G.
  intros st J. pose proof J as (T & A & D & E). cbn [fst snd]. unfold parse_l, l_what. specialize (E ltac:(lia)). specialize (D ltac:(lia)).
  assert (J9 : forall g x, sg_tags g = sg_tags (fst st) -> sg_arc g = sg_arc (fst st) -> sg_domain g = sg_domain (fst st) -> I_ 10 (g, x)).
  { intros g x F1 F2 F3. unfold inv. cbn [fst snd]. rewrite F1, F2, F3. split; [exact T|]. split; [exact A|].
    split; [intros _; exact D|intros X; lia]. }
  destruct (tag_find "l" st T) as [[-> L]|(e & -> & H & TV)].
  - left. exists st. split; [reflexivity|]. split; [destruct st as [g x]; apply J9; reflexivity|]. clear D. no_reason.
  - clear D. destruct (Nat.ltb_spec 76 (length (te_value e))) as [L|L].
    + right. eexists. split; [reflexivity|]. eapply rs_l_long; eauto.
    + pose proof (ul_reads_strtoul _ TV) as U. destruct (strtoul (te_value e)) as [[n r] f]. cbn [snd]. rewrite E.
      destruct (e0 || f) eqn:EF.
      * right. eexists. split; [reflexivity|]. eapply rs_l_large; eauto. apply orb_true_iff. exact EF.
      * apply orb_false_iff in EF as [E0 ->]. destruct (N.leb_spec 9223372036854775808 n) as [B|B].
        -- right. eexists. split; [reflexivity|]. eapply rs_l_sign; eauto.
        -- destruct r as [|c r].
           ++ left. eexists. split; [reflexivity|]. split; [apply J9; destruct (fst st); reflexivity|].
              intros m K. clear J J9 T A E. inversion K; clear K; try match goal with X : has l "l" _ |- _ => idtac end; try fin;
                repeat match goal with X : has l "l" ?v |- _ => assert_fails (constr_eq v (te_value e)); pose proof (has_one "l" _ _ H X); clear X; subst v end;
                try lia; match goal with X : ul_reads (te_value e) _ _ _ |- _ => assert_fails (constr_eq X U); destruct (ul_reads_fun _ _ _ _ _ _ _ U X) as (? & ? & ?) end; subst; try lia; try congruence.
           ++ right. eexists. split; [reflexivity|]. eapply rs_l_rest; eauto. discriminate.
Qed.
Lemma st_q : good_stage R I_ 10 (parse_q, q_what).
Proof using HV LV G.
  intros st J. pose proof J as (T & A & D & E). cbn [fst snd]. unfold parse_q, q_what.
  assert (J' : I_ 11 st) by (apply inv_S; [exact J|lia|lia|lia]). clear D E.
  destruct (tag_find "q" st T) as [[-> L]|(e & -> & H & TV)].
  - left. exists st. split; [reflexivity|]. split; [exact J'|]. no_reason.
  - destruct (beqb_spec (te_value e) (str "dns/txt")) as [E1|N1].
    + left. exists st. split; [reflexivity|]. split; [exact J'|]. no_reason.
    + right. exists st. split; [reflexivity|]. unfold format. rewrite (tag_value_c_str _ TV). apply rs_q; auto.
Qed.
Lemma st_s : good_stage R I_ 11 (parse_s, s_what).
Proof using HV LV G.
  intros st J. pose proof J as (T & A & D & E). cbn [fst snd]. unfold parse_s, s_what.
  destruct (tag_find "s" st T) as [[-> L]|(e & -> & H & TV)].
  - right. exists st. split; [reflexivity|]. apply rs_s; auto.
  - left. eexists. split; [reflexivity|]. split; [apply inv_upd; [exact J|lia|lia|lia|intros []; auto]|]. clear D E. no_reason.
Qed.
Lemma st_x : good_stage R I_ 12 (parse_x now, x_what).
Proof using HV LV G.
  intros st J. pose proof J as (T & A & D & E). cbn [fst snd]. unfold parse_x, x_what.
  destruct (tag_find "x" st T) as [[-> L]|(e & -> & H & TV)].
  - left. exists st. split; [reflexivity|]. split; [apply inv_S; [exact J|lia|lia|lia]|]. clear D E. no_reason.
  - destruct (strtol (te_value e)) as [t f] eqn:SL. apply (time_exact _ _ _ TV) in SL. destruct (Z.ltb_spec t now) as [B|B].
    + right. eexists. split; [reflexivity|]. eapply rs_x; eauto.
    + left. eexists. split; [reflexivity|]. split.
      * unfold inv. cbn [fst snd]. split; [exact T|]. split; [exact A|]. split; [intros _; apply D; lia|intros X; lia].
      * clear D E. no_reason. match goal with X : time_value _ _ _, Y : time_value _ ?u _, Z : (?u < now)%Z |- _ => destruct (time_fun _ _ _ _ _ SL Y) as [<- _]; lia end.
Qed.
Lemma st_all : all_stages R I_ 1 (sig_checks C now).
Proof using HV LV G.
  cbn [all_stages sig_checks]. repeat (split; [first [exact st_d|exact st_v|exact st_a|exact st_b|exact st_bh|exact st_c|exact st_h|exact st_i|exact st_l|exact st_q|exact st_s|exact st_x]|]).
  intros j m L K. inversion K; subst; lia.
Qed.
End Stages.
