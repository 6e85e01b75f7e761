(** What is known when a signature field or a key record is refused, and how CheckSignature ends (for C101). *)
From Verif Require Import Bytes Outcome Stream Tokenizer QuotedPrintable Base64 TagList MailParser Canonicalization Util
  CStdlib Crypto Signature PublicKey SignatoryOptions Signatory Validatory Tool ToolText ErrorText Reasons BytesFacts SpecText SpecTags SpecMail SpecCanon SpecVerify SpecSig SpecParse SpecKey SpecError SpecReason
  SpecPass SpecStop SpecSignTool SpecEight SpecVerdict QPFacts TagListFacts HeaderFacts HeaderProps SigFacts SigProps SigExact KeyFacts KeyExact VerifyProps VerifyFacts SelectFacts PassFacts ReportFacts
  ResultClass ReasonFacts ReasonSig ReasonKeys ReasonCheck ReasonOne MadeFacts StopFacts EightFacts EightExact EightVerify.
From Verif Require Import Outcome.
Local Open Scope string_scope. Local Open Scope list_scope.

(** ** Signature::Parse *)
(** The stages again, with what holds of the state that a refusal leaves. *)
Fixpoint left_stages {S} (R : nat -> bytes -> Prop) (I F : nat -> S -> Prop) (k : nat) (l : list (stage S)) : Prop :=
  match l with
  | [] => True
  | x :: r => (good_stage R I k x /\ forall s s' o, I k s -> fst x s = (s', o) -> o <> Ok tt -> F k s') /\ left_stages R I F (Datatypes.S k) r
  end.
Lemma stages_left {S} R (I F : nat -> S -> Prop) (l : list (stage S)) : forall k s s', left_stages R I F k l -> I k s -> run_stages (map fst l) s = (s', perm) ->
  exists j m, k <= j /\ R j m /\ (forall i n, k <= i -> R i n -> j <= i) /\ F j s'.
Proof.
  induction l as [|[f what] l IH]; intros k s s' A J; cbn [left_stages map run_stages fst] in *; [discriminate|].
  destruct A as [[G L] A]. destruct (G s J) as [(s1 & E & J1 & N)|(s1 & E & K)]; cbn [fst snd] in *; rewrite E; cbn [sbind].
  - intros X. destruct (IH _ _ _ A J1 X) as (j & m & Lj & Rj & M & Fj). exists j, m. split; [lia|]. split; [exact Rj|]. split; [|exact Fj].
    intros i n Li Ri. destruct (Nat.eq_dec i k) as [->|D]; [destruct (N _ Ri)|]. apply (M i n); [lia|exact Ri].
  - intros X. injection X as <-. exists k, (what s). split; [lia|]. split; [exact K|]. split; [intros i n Li _; exact Li|]. apply (L s s1 _ J E). discriminate.
Qed.

Section Left.
Context (C : crypto) (now : Z) (tags : taglist) (l : list (bytes * bytes)) (e0 arc : bool).
Context (HV : forall n v, V tags n = Some v <-> has l n v) (LV : forall n, V tags n = None <-> lacks l n) (G : good_tags tags).
Notation R := (sig_reason now e0 arc l).
Definition errno_is (k : nat) (e : bool) : Prop := e = true <-> e0 = true \/ too_large arc l k.
Definition mine (k : nat) (st : sig_st) : Prop :=
  inv tags l e0 arc k st /\ known_domain l k (sg_domain (fst st)) /\ known_selector l k (sg_selector (fst st)) /\ errno_is (k - 1) (snd st).
Definition left_as (k : nat) (st : sig_st) : Prop := known_domain l k (sg_domain (fst st)) /\ known_selector l k (sg_selector (fst st)) /\ errno_is k (snd st).

Lemma errno_same k e : k <> 8 -> k <> 9 -> k <> 12 -> 1 <= k -> errno_is (k - 1) e -> errno_is k e.
Proof using. unfold errno_is, too_large. intros A B D L ->. split; intros [X|[(Y & Z)|[(Y & Z)|(Y & Z)]]]; auto; right; [left|right; left|right; right|left|right; left|right; right]; (split; [lia|exact Z]). Qed.
(** A stage that reads no number and sets neither domain nor selector. *)
Lemma plain_stage k (f : sig_st -> sig_st * outcome unit) w : 1 < k -> k <> 8 -> k <> 9 -> k <> 11 -> k <> 12 -> good_stage R (inv tags l e0 arc) k (f, w) ->
  (forall st, let st' := fst (f st) in sg_domain (fst st') = sg_domain (fst st) /\ sg_selector (fst st') = sg_selector (fst st) /\ snd st' = snd st) ->
  good_stage R mine k (f, w) /\ forall s s' o, mine k s -> f s = (s', o) -> o <> Ok tt -> left_as k s'.
Proof using.
  intros K1 K2 K3 K4 K5 GS P.
  assert (Q : forall s, mine k s -> known_domain l k (sg_domain (fst (fst (f s)))) /\ known_domain l (S k) (sg_domain (fst (fst (f s)))) /\
    known_selector l k (sg_selector (fst (fst (f s)))) /\ known_selector l (S k) (sg_selector (fst (fst (f s)))) /\ errno_is k (snd (fst (f s)))).
  { intros s (_ & D & SE & E). destruct (P s) as (-> & -> & ->). split; [exact D|]. split; [destruct D as [[X _]|[X D]]; [lia|right; split; [lia|exact D]]|].
    split; [exact SE|]. split; [destruct SE as [[X D1]|[X D1]]; [left|right]; (split; [lia|exact D1])|]. apply errno_same; auto; lia. }
  split.
  - intros s M. destruct (Q s M) as (Q1 & Q2 & Q3 & Q4 & Q5). destruct (GS s (proj1 M)) as [(s' & E & J & N)|(s' & E & X)]; [left|right; eauto].
    cbn [fst] in *. exists s'. split; [exact E|]. split; [|exact N]. rewrite E in *. cbn [fst] in *. split; [exact J|]. split; [exact Q2|]. split; [exact Q4|]. cbn [Nat.sub]. rewrite Nat.sub_0_r. exact Q5.
  - intros s s' o M E NO. destruct (Q s M) as (Q1 & Q2 & Q3 & Q4 & Q5). rewrite E in *. cbn [fst] in *. split; [exact Q1|]. split; [exact Q3|exact Q5].
Qed.
Lemma any_stage k (f : sig_st -> sig_st * outcome unit) w : 1 <= k -> good_stage R (inv tags l e0 arc) k (f, w) ->
  (forall s, mine k s -> match snd (f s) with
     | Ok _ => known_domain l (S k) (sg_domain (fst (fst (f s)))) /\ known_selector l (S k) (sg_selector (fst (fst (f s)))) /\ errno_is k (snd (fst (f s)))
     | _ => left_as k (fst (f s)) end) ->
  good_stage R mine k (f, w) /\ forall s s' o, mine k s -> f s = (s', o) -> o <> Ok tt -> left_as k s'.
Proof using.
  intros K GS P. split.
  - intros s M. specialize (P s M). destruct (GS s (proj1 M)) as [(s' & E & J & N)|(s' & E & X)]; [left|right; eauto].
    cbn [fst] in *. exists s'. split; [exact E|]. split; [|exact N]. rewrite E in *. cbn [fst snd] in *. split; [exact J|]. cbn [Nat.sub]. rewrite Nat.sub_0_r. exact P.
  - intros s s' o M E NO. specialize (P s M). rewrite E in P. cbn [fst snd] in P. destruct o as [[]| | |]; [congruence|exact P..].
Qed.
Lemma domain_S k d : 1 < k -> known_domain l k d -> known_domain l (S k) d.
Proof using. intros K [[X _]|[X D]]; [lia|]. right. split; [lia|exact D]. Qed.
Lemma selector_S k s : k <> 11 -> known_selector l k s -> known_selector l (S k) s.
Proof using. intros K [[X D]|[X D]]; [left|right]; (split; [lia|exact D]). Qed.
Lemma large_8 e er i : arc = true -> has l "i" i -> (let '(n, r, f) := strtoul i in f = er) -> tag_value i -> errno_is 7 e -> errno_is 8 (e || er).
Proof using HV.
  intros A H U TV E. pose proof (ul_reads_strtoul _ TV) as UR. destruct (strtoul i) as [[n r] f]. subst f. unfold errno_is in *. rewrite orb_true_iff, E. unfold too_large. split.
  - intros [[X|[(Y & _)|[(Y & _)|(Y & _)]]]|X]; auto; try lia. subst er. right. left. split; [lia|]. split; [exact A|]. exists i, n, r. auto.
  - intros [X|[(_ & _ & (i' & n' & r' & H' & U'))|[(Y & _)|(Y & _)]]]; auto; try lia. right. assert (i' = i) by (apply (has_one tags l HV "i"); assumption). subst i'.
    destruct (ul_reads_fun _ _ _ _ _ _ _ UR U') as (_ & _ & <-). reflexivity.
Qed.
Lemma none_8 e : (arc = true -> lacks l "i") -> errno_is 7 e -> errno_is 8 e.
Proof using.
  intros L E. unfold errno_is in *. rewrite E. unfold too_large. split; (intros [X|[(Y & A & (i & n & r & H & U))|[(Y & Z)|(Y & Z)]]]; auto; try lia).
  exfalso. exact (has_not_lacks _ _ _ H (L A)).
Qed.
Lemma large_9 e er v : has l "l" v -> length v <= 76 -> (let '(n, r, f) := strtoul v in f = er) -> tag_value v -> errno_is 8 e -> errno_is 9 (e || er).
Proof using HV.
  intros H LE U TV E. pose proof (ul_reads_strtoul _ TV) as UR. destruct (strtoul v) as [[n r] f]. subst f. unfold errno_is in *. rewrite orb_true_iff, E. unfold too_large. split.
  - intros [[X|[(Y & Z)|[(Y & _)|(Y & _)]]]|X]; auto; try lia; try (right; left; split; [lia|exact Z]). subst er. right. right. left. split; [lia|]. exists v, n, r. auto.
  - intros [X|[(_ & Z)|[(_ & v' & n' & r' & H' & _ & U')|(Y & _)]]]; auto; try lia; try (left; right; left; split; [lia|exact Z]). right. assert (v' = v) by (apply (has_one tags l HV "l"); assumption). subst v'.
    destruct (ul_reads_fun _ _ _ _ _ _ _ UR U') as (_ & _ & <-). reflexivity.
Qed.
Lemma none_9 e : (forall v, has l "l" v -> 76 < length v) -> errno_is 8 e -> errno_is 9 e.
Proof using.
  intros L E. unfold errno_is in *. rewrite E. unfold too_large. split; (intros [X|[(Y & Z)|[(Y & v & n & r & H & LE & U)|(Y & Z)]]]; auto; try lia; try (right; left; split; [lia|exact Z])).
  specialize (L v H). lia.
Qed.
Lemma large_12 e er x : has l "x" x -> snd (strtol x) = er -> tag_value x -> errno_is 11 e -> errno_is 12 (e || er).
Proof using HV.
  intros H U TV E. destruct (strtol x) as [t f] eqn:SL. apply (SigExact.time_exact _ _ _ TV) in SL. cbn [snd] in U. subst f. unfold errno_is in *. rewrite orb_true_iff, E. unfold too_large. split.
  - intros [[X|[(Y & Z)|[(Y & Z)|(Y & _)]]]|X]; auto; try lia; try (right; left; split; [lia|exact Z]); try (right; right; left; split; [lia|exact Z]). subst er. right. right. right. split; [lia|]. exists x, t. auto.
  - intros [X|[(_ & Z)|[(_ & Z)|(_ & x' & t' & H' & U')]]]; auto; try (left; right; left; split; [lia|exact Z]); try (left; right; right; left; split; [lia|exact Z]). right.
    assert (x' = x) by (apply (has_one tags l HV "x"); assumption). subst x'. destruct (time_fun _ _ _ _ _ SL U') as [_ <-]. reflexivity.
Qed.
Lemma none_12 e : lacks l "x" -> errno_is 11 e -> errno_is 12 e.
Proof using.
  intros L E. unfold errno_is in *. rewrite E. unfold too_large. split; (intros [X|[(Y & Z)|[(Y & Z)|(Y & x & t & H & U)]]]; auto; try lia; try (right; left; split; [lia|exact Z]); try (right; right; left; split; [lia|exact Z])).
  exfalso. exact (has_not_lacks _ _ _ H L).
Qed.
Lemma left_all : left_stages R mine left_as 1 (sig_checks C now).
Proof using HV LV G.
  pose proof (st_all C now tags l e0 arc HV LV G) as ALL. cbn [all_stages sig_checks] in ALL.
  destruct ALL as (S1 & S2 & S3 & S4 & S5 & S6 & S7 & S8 & S9 & S10 & S11 & S12 & _).
  cbn [left_stages sig_checks fst].
  assert (TF : forall k n st, mine k st -> (tag n st = None /\ lacks l n) \/ (exists e, tag n st = Some e /\ has l n (te_value e) /\ tag_value (te_value e))).
  { intros k n st M. apply (tag_find tags l HV LV G). apply M. }
  split; [|split; [|split; [|split; [|split; [|split; [|split; [|split; [|split; [|split; [|split; [|split; [|exact I]]]]]]]]]]]].
  - apply any_stage; [lia|exact S1|]. intros s M. pose proof M as (_ & D & SE & E). unfold parse_d. destruct (TF _ "d" s M) as [[-> L]|(x & -> & H & TV)].
    + cbn [fail_perm snd fst]. split; [exact D|]. split; [exact SE|]. apply errno_same; auto; lia.
    + rewrite lower_false. cbn [slift done fst snd upd]. destruct s as [g e]. cbn [fst snd] in *. split; [right; split; [lia|]; exists (te_value x); split; [exact H|]; symmetry; apply map_low|].
      split; [apply selector_S; [lia|exact SE]|]. apply errno_same; auto; lia.
  - apply plain_stage; try lia; [exact S2|]. intros [g e]. unfold parse_v. cbn [fst]. destruct (sg_arc g); [auto|]. destruct (tag "v" (g, e)); [destruct beqb|]; auto.
  - apply plain_stage; try lia; [exact S3|]. intros [g e]. unfold parse_a. cbn [fst]. destruct (tag "a" (g, e)); [repeat match goal with |- context [beqb ?a ?b] => destruct (beqb a b) end|]; auto.
  - apply plain_stage; try lia; [exact S4|]. intros [g e]. unfold parse_b. cbn [fst]. destruct (tag "b" (g, e)) as [x|]; [|auto]. destruct (te_value x); [auto|]. destruct (strip_space _ _); auto.
  - apply plain_stage; try lia; [exact S5|]. intros [g e]. unfold parse_bh. cbn [fst]. destruct (tag "bh" (g, e)) as [x|]; [|auto]. destruct (strip_space _ _); auto.
  - apply plain_stage; try lia; [exact S6|]. intros [g e]. unfold parse_c. cbn [fst]. destruct (tag "c" (g, e)) as [x|]; [|auto].
    destruct (match find_char _ _ with None => _ | Some _ => _ end) as [a b]. destruct (mode_of a); [|auto]. cbv zeta. destruct (mode_of b); auto.
  - apply plain_stage; try lia; [exact S7|]. intros [g e]. unfold parse_h. cbn [fst]. destruct (tag "h" (g, e)) as [x|]; [|auto]. destruct (ValueList _); cbn [slift]; auto. cbv zeta. destruct existsb; auto.
  - apply any_stage; [lia|exact S8|]. intros s M. pose proof M as ((_ & A & _) & D & SE & E). unfold parse_i. rewrite A. cbn [Nat.sub] in E.
    pose proof (domain_S 8 _ ltac:(lia) D) as D9. pose proof (selector_S 8 _ ltac:(lia) SE) as SE9.
    destruct arc eqn:AR.
    + destruct (TF _ "i" s M) as [[-> L]|(x & -> & H & TV)].
      * cbn [fail_perm snd fst]. split; [exact D|]. split; [exact SE|]. apply none_8; auto.
      * pose proof (large_8 (snd s) (snd (strtoul (te_value x))) (te_value x) AR H ltac:(destruct (strtoul _) as [[? ?] ?]; reflexivity) TV E) as E8.
        destruct (strtoul (te_value x)) as [[n r] f]. cbn [snd] in E8. destruct s as [g e]. cbn [fst snd] in *. destruct ((n <? 1) || (50 <? n))%N; cbn [fail_perm done fst snd]; (split; [assumption|]; split; assumption).
    + assert (E8 : errno_is 8 (snd s)) by (apply none_8; [intros X; rewrite AR in X; discriminate X|exact E]).
      destruct s as [g e]. cbn [fst snd] in *. destruct (tag "i" (g, e)) as [x|]; [|cbn [done fst snd upd]; split; [exact D9|]; split; assumption].
      destruct (qp_decode _ _) as [mail| | |]; cbn [slift fst snd]; try (split; [assumption|]; split; assumption).
      destruct (find_char AT mail) as [p|]; cbn [fail_perm fst snd]; [|split; [assumption|]; split; assumption]. rewrite lower_false. cbn [slift]. cbv zeta.
      destruct (_ || _); cbn [fail_perm done fst snd upd]; (split; [assumption|]; split; assumption).
  - apply any_stage; [lia|exact S9|]. intros s M. pose proof M as (_ & D & SE & E). unfold parse_l. cbn [Nat.sub] in E.
    pose proof (domain_S 9 _ ltac:(lia) D) as D9. pose proof (selector_S 9 _ ltac:(lia) SE) as SE9.
    destruct (TF _ "l" s M) as [[-> L]|(x & -> & H & TV)].
    + cbn [done snd fst]. split; [exact D9|]. split; [exact SE9|]. apply none_9; [|exact E]. intros v H. exfalso. exact (has_not_lacks _ _ _ H L).
    + destruct (Nat.ltb_spec 76 (length (te_value x))) as [B|B].
      * cbn [fail_perm snd fst]. split; [exact D|]. split; [exact SE|]. apply none_9; [|exact E]. intros v H'. assert (v = te_value x) as -> by (apply (has_one tags l HV "l"); assumption). exact B.
      * pose proof (large_9 (snd s) (snd (strtoul (te_value x))) (te_value x) H B ltac:(destruct (strtoul _) as [[? ?] ?]; reflexivity) TV E) as E9.
        destruct (strtoul (te_value x)) as [[n r] f]. cbn [snd] in *. destruct s as [g e]. cbn [fst snd] in *.
        destruct (e || f) eqn:EF; [|destruct (_ <=? _)%N; [|destruct r]]; cbn [fail_perm done fst snd upd]; (split; [assumption|]; split; assumption).
  - apply plain_stage; try lia; [exact S10|]. intros [g e]. unfold parse_q. cbn [fst]. destruct (tag "q" (g, e)); [destruct beqb|]; auto.
  - apply any_stage; [lia|exact S11|]. intros s M. pose proof M as (_ & D & SE & E). unfold parse_s. pose proof (errno_same 11 _ ltac:(lia) ltac:(lia) ltac:(lia) ltac:(lia) E) as E11.
    destruct (TF _ "s" s M) as [[-> L]|(x & -> & H & TV)].
    + cbn [fail_perm snd fst]. split; [exact D|]. split; assumption.
    + destruct s as [g e]. cbn [done fst snd upd] in *. split; [apply (domain_S 11); [lia|exact D]|]. split; [|exact E11]. right. split; [lia|exact H].
  - apply any_stage; [lia|exact S12|]. intros s M. pose proof M as (_ & D & SE & E). unfold parse_x. cbn [Nat.sub] in E.
    pose proof (domain_S 12 _ ltac:(lia) D) as D9. pose proof (selector_S 12 _ ltac:(lia) SE) as SE9.
    destruct (TF _ "x" s M) as [[-> L]|(x & -> & H & TV)].
    + cbn [done snd fst]. split; [exact D9|]. split; [exact SE9|]. apply none_12; assumption.
    + pose proof (large_12 (snd s) _ (te_value x) H eq_refl TV E) as E12. destruct (strtol (te_value x)) as [v f]. cbn [snd] in *. destruct s as [g e]. cbn [fst snd] in *.
      destruct (_ <? _)%Z; cbn [fail_perm done fst snd]; (split; [assumption|]; split; assumption).
Qed.
End Left.

Lemma sig_left C now e0 h l st : field_tags h l -> Signature_Parse C false now h (new_signature, e0) = (st, perm) -> let arc := same_name (h_name h) (str "arc-message-signature") in
  exists k m, comes_first (sig_reason now e0 arc l) k m /\ left_as l e0 arc k st.
Proof.
  intros F P. cbv zeta. destruct (field_tags_parse h l F) as (tags & T & HV & LV & G). destruct F as (L & _).
  rewrite sig_texts_run in P. unfold sig_texts in P. cbn [map fst] in P.
  pose proof (tags_step h e0 tags (Ok tt) L T) as T1. rewrite (run_Ok _ _ _ _ T1) in P. clear T1.
  set (arc := same_name (h_name h) (str "arc-message-signature")).
  set (st1 := (if arc then upd (set_arc true) (set_tags tags new_signature, e0) else (set_tags tags new_signature, e0))).
  assert (PA : parse_arc false (h_name h) (set_tags tags new_signature, e0) = (st1, Ok tt)).
  { unfold parse_arc, lower_str. cbn [andb slift]. unfold st1, arc. change (str "arc-message-signature") with arc_name at 2. rewrite same_arc. destruct (beqb _ _); reflexivity. }
  rewrite (run_Ok _ _ _ _ PA) in P. clear PA.
  assert (J : mine tags l e0 arc 1 st1).
  { split; [unfold inv, st1; destruct arc; (split; [reflexivity|]; split; [reflexivity|]; split; [lia|]; reflexivity)|].
    unfold st1. destruct arc; (split; [left; split; [lia|reflexivity]|]; split; [left; split; [lia|reflexivity]|]);
      unfold errno_is, too_large; cbn [snd upd]; (split; [auto|]; intros [X|[(Y & _)|[(Y & _)|(Y & _)]]]; [exact X|lia..]). }
  change (map fst _) with (map fst (sig_checks C now)) in P.
  destruct (stages_left _ _ _ (sig_checks C now) 1 st1 st (left_all C now tags l e0 arc HV LV G) J P) as (k & m & K1 & K2 & K3 & K4).
  exists k, m. split; [|exact K4]. split; [exact K2|]. intros j n Rj. apply (K3 j n); [|exact Rj]. clear -Rj. inversion Rj; lia.
Qed.

(** ** PublicKey::Parse *)
Lemma stages_keep {S A} (get : S -> A) fs : Forall (fun f : S -> S * outcome unit => forall s, get (fst (f s)) = get s) fs -> forall s, get (fst (run_stages fs s)) = get s.
Proof.
  induction 1 as [|f fs Ff _ IH]; intros s; cbn [run_stages]; [reflexivity|]. specialize (Ff s). destruct (f s) as [s1 [[]| | |]]; cbn [sbind fst] in *; [rewrite IH; exact Ff|exact Ff..].
Qed.
Lemma key_flags_left C strict r p o : PublicKey_Parse C strict r new_public_key = (p, o) -> o <> Ok tt -> pk_flags p = [].
Proof.
  rewrite key_texts_run. change (map fst (key_texts C strict r)) with ([key_tags r; key_v; key_h; key_k; key_p C strict; key_s] ++ [key_t]). rewrite run_app.
  assert (K : forall s, pk_flags (fst (run_stages [key_tags r; key_v; key_h; key_k; key_p C strict; key_s] s)) = pk_flags s).
  { apply stages_keep. repeat apply Forall_cons; [..|apply Forall_nil]; intros s.
    - unfold key_tags. destruct TagList_Parse. reflexivity.
    - unfold key_v. destruct (ktag "v" s); [destruct beqb|]; reflexivity.
    - unfold key_h. destruct (ktag "h" s) as [e|]; [|reflexivity]. destruct (te_value e); [reflexivity|]. destruct ValueList; reflexivity.
    - unfold key_k. destruct (ktag "k" s) as [e|]; [|reflexivity]. repeat match goal with |- context [beqb ?a ?b] => destruct (beqb a b) end; reflexivity.
    - unfold key_p. destruct (ktag "p" s) as [e|]; [|reflexivity]. destruct (te_value e); [reflexivity|]. destruct (strip_space _ _); cbn [slift fst]; try reflexivity.
      destruct (pk_alg s); [destruct (c_d2i_pubkey _ _) as [[]|]|destruct Nat.eqb]; reflexivity.
    - unfold key_s. destruct (ktag "s" s) as [e|]; [|reflexivity]. destruct (te_value e); [reflexivity|]. destruct ValueList; reflexivity. }
  specialize (K new_public_key). destruct (run_stages _ new_public_key) as [s [[]| | |]]; cbn [sbind fst] in *; [|intros [= <- <-] _; exact K..].
  cbn [run_stages]. unfold key_t. destruct (ktag "t" s) as [e|]; [|intros [= <- <-]; congruence]. destruct ValueList; cbn [slift sbind]; [intros [= <- <-]; congruence|intros [= <- <-] _; exact K..].
Qed.

(** ** CheckSignature *)
Lemma check_cases C strict now h e0 g e1 pre b post : Signature_Parse C strict now h (new_signature, e0) = ((g, e1), Ok tt) -> small_field h ->
  tag_at (str "b") (skipn (h_voff h) (h_text h)) pre b post ->
  forall st r p0 p v, PublicKey_Parse C st r p0 = (p, Ok tt) ->
  let texts := hashed (m_headers (v_msg v)) h g pre post in
  let ok := exists d, authenticated h g v pre post d /\ accepted C g p (digest C (sg_digest g) d) in
  (exists k m, comes_first (check_reason g p texts ok) k m /\ CheckSignature_what C false h g p v = Some m /\
     (k = 4 + length texts /\ ~ short_data g /\ CheckSignature C false h g p v = perm_fail \/ k < 4 + length texts /\ CheckSignature C false h g p v = perm)) \/
  ((forall k m, ~ check_reason g p texts ok k m) /\ permits p g /\ ok /\ CheckSignature C false h g p v = Ok tt) \/
  (short_data g /\ (forall k m, k < 4 + length texts -> ~ check_reason g p texts ok k m) /\ CheckSignature C false h g p v = UB UB_oob_read).
Proof.
  intros P SF TA st r p0 p v KP. pose proof (PublicKey_has _ _ _ _ _ KP) as HK. cbv zeta.
  pose proof (check_permits _ _ _ _ _ _ _ _ _ _ P SF TA st r p0 p v KP) as CP.
  pose proof (signed_stops _ _ _ _ _ _ _ _ _ _ P SF TA v) as SS. cbv zeta in SS.
  change (map h_text (selection h_name (m_headers (v_msg v)) [] (sg_headers g)) ++ [firstn (h_voff h) (h_text h) ++ pre ++ post]) with (hashed (m_headers (v_msg v)) h g pre post) in SS.
  set (texts := hashed (m_headers (v_msg v)) h g pre post) in *.
  set (ok := exists d, authenticated h g v pre post d /\ accepted C g p (digest C (sg_digest g) d)) in *. clearbody texts.
  assert (ZL : 4 <= 4 + length texts) by lia.
  unfold CheckSignature_what, CheckSignature in *.
  destruct (match pk_digests p with [] => true | l => existsb (digest_eqb (sg_digest g)) l end) eqn:D1; cbn [negb].
  2:{ assert (key_allows g p = false) as -> by (unfold key_allows; rewrite D1; reflexivity). left. exists 1, (str "Algorithm is not allowed"). split; [|split; [reflexivity|right; split; [lia|reflexivity]]]. split.
      - apply rc_digest; destruct (pk_digests p) as [|x l]; try discriminate. intros I. apply digest_In in I. congruence.
      - intros j m R. inversion R; lia. }
  assert (N1 : forall m, ~ check_reason g p texts ok 1 m).
  { intros m R. inversion R; subst. destruct (pk_digests p) as [|x l]; [congruence|]. apply digest_In in D1. contradiction. }
  destruct (sig_alg_eqb (sg_alg g) (pk_alg p)) eqn:D2; cbn [negb].
  2:{ assert (key_allows g p = false) as -> by (unfold key_allows; rewrite D1, D2; reflexivity). left. exists 2, (str "Signature algorithm type mismatch"). split; [|split; [reflexivity|right; split; [lia|reflexivity]]]. split.
      - apply rc_type. intros E. rewrite E in D2. destruct (pk_alg p); discriminate.
      - intros j m R. destruct (Nat.eq_dec j 1) as [->|]; [destruct (N1 _ R)|]. inversion R; lia. }
  assert (N2 : forall m, ~ check_reason g p texts ok 2 m).
  { intros m R. inversion R as [| A | | |]; subst. destruct (sg_alg g), (pk_alg p); try discriminate; congruence. }
  destruct (sg_arc g || negb (memb (str "s") (pk_flags p)) || beqb (sg_domain g) (sg_mdomain g)) eqn:D3; cbn [negb].
  2:{ assert (key_allows g p = false) as -> by (unfold key_allows; rewrite D1, D2, D3; reflexivity). left. exists 3, (str "Domain must match sub-domain (flag s)").
      split; [|split; [reflexivity|right; split; [lia|reflexivity]]].
      apply orb_false_iff in D3 as [D3 D5]. apply orb_false_iff in D3 as [D3 D4]. apply negb_false_iff in D4. split.
      - apply rc_domain; [exact D3|apply memb_In; exact D4|]. intros E. rewrite E, beqb_refl in D5. discriminate.
      - intros j m R. destruct (Nat.eq_dec j 1) as [->|]; [destruct (N1 _ R)|]. destruct (Nat.eq_dec j 2) as [->|]; [destruct (N2 _ R)|]. inversion R; lia. }
  assert (N3 : forall m, ~ check_reason g p texts ok 3 m).
  { intros m R. inversion R as [| | A I E | |]; subst. rewrite A in D3. apply memb_In in I. rewrite I in D3. cbn [negb orb] in D3. apply beqb_eq in D3. congruence. }
  assert (N4 : forall j m, check_reason g p texts ok j m -> 4 <= j).
  { intros j m R. destruct (Nat.eq_dec j 1) as [->|]; [destruct (N1 _ R)|]. destruct (Nat.eq_dec j 2) as [->|]; [destruct (N2 _ R)|].
    destruct (Nat.eq_dec j 3) as [->|]; [destruct (N3 _ R)|]. inversion R; lia. }
  assert (KA : key_allows g p = true) by (unfold key_allows; rewrite D1, D2, D3; reflexivity). rewrite KA in *.
  pose proof (allows_key _ _ KA HK) as MK.
  destruct (signed_what false h g v) as [m|].
  - destruct SS as [E0 (i & t & S1 & ->)]. rewrite E0 in *. cbn [obind perm] in *. left. exists (4 + i), (filter_what false t).
    assert (LT : i < length texts) by (destruct S1 as (A & _); apply nth_error_Some; rewrite A; discriminate).
    split; [|split; [reflexivity|right; split; [lia|reflexivity]]]. split; [apply stops_reason; exact S1|].
    intros j m R. pose proof (N4 _ _ R) as L4. destruct (Nat.lt_ge_cases j (4 + i)) as [LJ|LJ]; [exfalso|lia].
    destruct S1 as (A & _ & D). inversion R; subst; try lia.
    eapply ok_reasonless; [eassumption| |eassumption]. eapply D; [|eassumption]. lia.
  - destruct SS as [(d & E0 & AU) F]. rewrite E0 in *. cbn [obind] in *.
    assert (N5 : forall i m, i < length texts -> ~ check_reason g p texts ok (4 + i) m).
    { intros i m LI R. inversion R as [| | |i' t m' RX NT FR EI|NO EI]; subst; [|lia].
      eapply ok_reasonless; [eassumption| |eassumption]. eapply Forall_nth; eauto. }
    assert (N6 : forall j m, j < 4 + length texts -> ~ check_reason g p texts ok j m).
    { intros j m LJ R. pose proof (N4 _ _ R) as L4. replace j with (4 + (j - 4)) in R by lia. apply (N5 (j - 4) m); [lia|exact R]. }
    destruct (verify_digest_cases C g p (digest C (sg_digest g) d) MK) as [(E & A)|[(E & A & NS)|(E & SH)]]; rewrite E in *; cbn [thrown perm_fail].
    + right. left. split; [|split; [apply CP; reflexivity|split; [apply CP; reflexivity|reflexivity]]]. intros k m R. pose proof (N4 _ _ R) as L4. inversion R as [| | |i t m' RX NT FR|NO]; subst; try lia.
      * apply (N5 i m); [apply nth_error_Some; rewrite NT; discriminate|exact R].
      * apply NO. exists d. auto.
    + left. exists (4 + length texts), (str "Signature did not verify"). split; [|split; [reflexivity|left; split; [reflexivity|split; [exact NS|reflexivity]]]]. split.
      * apply rc_data. intros (d' & AU' & A'). assert (d' = d) as ->; [|contradiction].
        destruct (signed_data_iff _ _ _ _ _ _ _ P SF) as (pre' & b' & post' & TA' & NB & EB & SI). destruct (b_position _ _ _ _ _ _ _ P) as [_ U].
        destruct (U _ _ _ _ _ _ TA' NB TA) as (-> & -> & ->). apply SI in AU, AU'. congruence.
      * intros j m R. destruct (Nat.lt_ge_cases j (4 + length texts)) as [LJ|LJ]; [exfalso|exact LJ]. exact (N6 j m LJ R).
    + right. right. split; [exact SH|]. split; [exact N6|reflexivity].
Qed.
