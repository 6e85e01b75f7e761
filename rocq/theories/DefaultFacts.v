(** Which fields are signed unless told otherwise (for C74). *)
From Verif Require Import Bytes Outcome Stream TagList MailParser Canonicalization Util Crypto SignatoryOptions Signatory BytesFacts SpecText
  SpecTags SpecMail SpecCanon SpecVerify SpecOptions SpecSign SpecSig MailFacts OptionsFacts HeaderFacts SignRound SignProps FieldForm FieldsProps VerifyFacts ToolSign SignExamples FieldsExamples Examples.

Lemma same_name_eq a b : same_name a b = true <-> map low a = map low b.
Proof. unfold same_name. apply beqb_eq. Qed.
Lemma same_sym a b : same_name a b = same_name b a.
Proof. apply eq_true_iff_eq. rewrite !same_name_eq. split; auto. Qed.
Lemma same_right a b c : same_name b c = true -> same_name a b = same_name a c.
Proof. intros E. apply eq_true_iff_eq. apply same_name_eq in E. rewrite !same_name_eq, E. reflexivity. Qed.
Lemma same_left a b c : same_name b c = true -> same_name b a = same_name c a.
Proof. intros E. rewrite (same_sym b), (same_sym c). apply same_right. exact E. Qed.

(** A name listed [k] times selects the last [k] of its fields. *)
Lemma selection_reaches {A} (name : A -> bytes) hs n names : forall before k h, k < occurrences n names ->
  kth_last name hs n (occurrences n before + k) = Some h -> In h (selection name hs before names).
Proof.
  induction names as [|m names IH]; intros before k h L K; [unfold occurrences in L; cbn in L; lia|].
  cbn [selection]. apply in_or_app. assert (OB : occurrences n (before ++ [m]) = occurrences n before + if same_name n m then 1 else 0).
  { unfold occurrences. rewrite filter_app, app_length. cbn [filter]. destruct (same_name n m); reflexivity. }
  unfold occurrences in L. cbn [filter] in L. destruct (same_name n m) eqn:E.
  - destruct k as [|k].
    + left. rewrite Nat.add_0_r in K. unfold kth_last in *.
      rewrite (filter_ext _ (fun x => same_name (name x) n)) by (intros x; symmetry; apply same_right; auto).
      replace (occurrences m before) with (occurrences n before).
      * rewrite K. left. reflexivity.
      * unfold occurrences. f_equal. apply filter_ext. intros x. apply same_left. exact E.
    + right. apply (IH _ k); [cbn [length] in L; unfold occurrences; lia|]. rewrite OB.
      replace (occurrences n before + 1 + k) with (occurrences n before + S k) by lia. exact K.
  - right. apply (IH _ k); [exact L|]. rewrite OB, Nat.add_0_r. exact K.
Qed.
Lemma selection_whole {A} (name : A -> bytes) hs n names h : length (filter (fun x => same_name (name x) n) hs) <= occurrences n names ->
  In h hs -> same_name (name h) n = true -> In h (selection name hs [] names).
Proof.
  intros L I E. assert (IF : In h (rev (filter (fun x => same_name (name x) n) hs))).
  { apply in_rev. rewrite rev_involutive. apply filter_In. auto. }
  apply In_nth_error in IF as (k & K). apply (selection_reaches name hs n names [] k); [|exact K].
  assert (k < length (rev (filter (fun x => same_name (name x) n) hs))) by (apply nth_error_Some; congruence). rewrite rev_length in H. lia.
Qed.

(** All fields with a chosen name are listed. *)
Lemma low_same n : same_name (map low n) n = true.
Proof. apply same_name_eq. apply map_low_idem. Qed.
Lemma listed_often {A} (name : A -> bytes) o (hs : list A) n : choice o n = true -> n <> [] ->
  length (filter (fun x => same_name (name x) n) hs) <= occurrences n (listed_names name o hs).
Proof.
  intros CH NE. unfold listed_names, occurrences. rewrite filter_app, app_length.
  etransitivity; [|apply Nat.le_add_r].
  replace (length (filter (fun x => same_name (name x) n) hs)) with (length (filter (fun x => same_name (name x) n) (rev hs))).
  2: { rewrite <- (rev_length (filter _ hs)). f_equal. induction hs as [|h hs IH]; [reflexivity|]. cbn [rev filter].
       rewrite filter_app, IH. cbn [filter]. destruct (same_name (name h) n); cbn [rev]; [reflexivity|apply app_nil_r]. }
  induction (rev hs) as [|h l IH]; [reflexivity|]. cbn [filter]. destruct (same_name (name h) n) eqn:E.
  - assert (CN : choice o (name h) = true).
    { unfold choice in *. destruct (name h) as [|c r] eqn:EN; [destruct n; [congruence|discriminate E]|]. destruct n as [|c' r']; [congruence|].
      destruct (o_headers o) as [|w ws]; auto. rewrite <- CH. clear - E. induction (w :: ws) as [|a q IH]; [reflexivity|]. cbn [existsb]. rewrite IH. f_equal. apply same_left. exact E. }
    rewrite CN. cbn [map filter]. rewrite (same_right n (map low (name h)) (name h)) by apply low_same. rewrite same_sym, E. cbn [length]. lia.
  - destruct (choice o (name h)); [|exact IH]. cbn [map filter]. destruct (same_name n _); cbn [length]; lia.
Qed.

(** The usual names remain unless removed. *)
Lemma usual_kept C l o : (forall x ns, In x l -> x <> SetHeaders ns /\ x <> DelHeaders ns) -> forall n, In n (o_headers o) -> In n (o_headers (run_ops C l o)).
Proof.
  intros H n. pose proof (headers_run C l o) as K. revert H. induction K as [h|h ns l r K IH|h ns l r K IH|h ns l h' r X Y K IH|h x l r X K IH]; intros H I.
  - exact I.
  - destruct (H (SetHeaders ns) ns (or_introl eq_refl)) as [N _]. congruence.
  - apply IH; [intros x m J; apply H; right; exact J|]. apply in_or_app. auto.
  - destruct (H (DelHeaders ns) ns (or_introl eq_refl)) as [_ N]. congruence.
  - apply IH; auto. intros y m J; apply H; right; exact J.
Qed.


(** ** The names are signable *)
Lemma low_signable c : (c <> COLON /\ (value_byte c \/ WSP c)) /\ (WSP (low c) <-> WSP c) <->
  (low c <> COLON /\ (value_byte (low c) \/ WSP (low c))) /\ (WSP (low c) <-> WSP c).
Proof.
  assert (W : WSP (low c) <-> WSP c) by (rewrite low_tolower; apply tolower_WSP).
  assert (CO : low c = COLON <-> c = COLON). { split; [apply low_colon|intros ->; reflexivity]. }
  assert (V : value_byte (low c) <-> value_byte c).
  { assert (K : forall c, Bool.eqb ((33 <=? code (low c)) && (code (low c) <=? 126) && negb (code (low c) =? 59))%N ((33 <=? code c) && (code c <=? 126) && negb (code c =? 59))%N = true)
      by (apply byte_sweep; vm_compute; reflexivity).
    assert (X : forall c, value_byte c <-> ((33 <=? code c) && (code c <=? 126) && negb (code c =? 59))%N = true).
    { intros d. unfold value_byte, printable, between. rewrite !andb_true_iff, negb_true_iff, N.eqb_neq, !N.leb_le.
      enough (d <> SEMI <-> code d <> 59%N) by tauto. split; intros N E; apply N; [apply code_inj; rewrite E; reflexivity|subst; reflexivity]. }
    rewrite !X. specialize (K c). apply Bool.eqb_prop in K. rewrite K. reflexivity. }
  rewrite V, CO, W. reflexivity.
Qed.
Lemma signable_low n : signable_name (map low n) <-> signable_name n.
Proof.
  assert (W : forall c, WSP (low c) <-> WSP c) by (intros; rewrite low_tolower; apply tolower_WSP).
  assert (F : forall l, first_ok (fun c => ~ WSP c) (map low l) <-> first_ok (fun c => ~ WSP c) l) by (intros [|c l]; cbn; [tauto|rewrite W; tauto]).
  unfold signable_name, trimmed, last_ok. rewrite <- map_rev, !F. assert (N : map low n <> [] <-> n <> []) by (destruct n; cbn; split; congruence).
  rewrite N. enough (Forall (fun c => c <> COLON /\ (value_byte c \/ WSP c)) (map low n) <-> Forall (fun c => c <> COLON /\ (value_byte c \/ WSP c)) n) by tauto.
  rewrite Forall_map. split; apply Forall_impl; intros c; pose proof (low_signable c); specialize (W c); tauto.
Qed.
Lemma signable_same n w : same_name n w = true -> signable_name w -> signable_name n.
Proof. intros E S. apply same_name_eq in E. apply signable_low. rewrite E. apply signable_low. exact S. Qed.
Lemma usual_signable w : In w usual_headers -> signable_name w.
Proof. intros I. apply (default_signable w w); [exact I|]. apply same_name_eq. reflexivity. Qed.
(** the words of the list of names come from the calls *)
Lemma words_run C l : forall o w, In w (o_headers (run_ops C l o)) -> In w (o_headers o) \/ exists ns, (In (AddHeaders ns) l \/ In (SetHeaders ns) l) /\ In w ns.
Proof.
  intros o w. pose proof (headers_run C l o) as K. induction K as [h|h ns l r K IH|h ns l r K IH|h ns l h' r X (p & ->) K IH|h x l r X K IH]; intros I.
  - auto.
  - right. apply IH in I as [I|(ms & [J|J] & I)]; [exists ns|exists ms..]; cbn [In]; auto.
  - apply IH in I as [I|(ms & [J|J] & I)]; [apply in_app_or in I as [I|I]; [auto|right; exists ns]|right; exists ms..]; cbn [In]; auto.
  - apply IH in I as [I|(ms & [J|J] & I)]; [apply filter_In in I as [I _]; auto|right; exists ms..]; cbn [In]; auto.
  - apply IH in I as [I|(ms & [J|J] & I)]; [auto|right; exists ms..]; cbn [In]; auto.
Qed.
Lemma listed_signable C l hs : (forall x ns, In x l -> x <> SetHeaders ns /\ x <> DelHeaders ns) ->
  (forall ns w, In (AddHeaders ns) l \/ In (SetOversignHeaders ns) l -> In w ns -> signable_name w) ->
  Forall signable_name (listed_names h_name (run_ops C l new_options) hs).
Proof.
  intros NS SG. set (o := run_ops C l new_options). unfold listed_names. apply Forall_app. rewrite !Forall_map, !Forall_forall. split.
  - intros h I. apply signable_low. apply filter_In in I as [_ I]. apply choice_chosen in I as [_ [E|(w & IW & E)]].
    + exfalso. assert (K : In (str "from") (o_headers o)) by (apply (usual_kept C l new_options NS); left; reflexivity). rewrite E in K. destruct K.
    + apply (signable_same _ w E). apply words_run in IW as [IW|(ns & [J|J] & IW)]; [apply usual_signable; exact IW|eapply SG; eauto|].
      destruct (NS _ ns J) as [N _]. congruence.
  - intros w I. apply signable_low. pose proof (g_oversign _ _ (options_getters C l)) as G. fold o in G.
    remember (o_oversign o) as ov eqn:EO. destruct G as [l N|l1 x l2 a -> N]; [destruct I|]. apply (SG a); auto. right. apply in_or_app. right. left. reflexivity.
Qed.

Lemma usual_signed C strict clock l t y H m s : signs_something C -> parse_all new_message (open_str t) = Ok (m, s) ->
  (forall x ns, In x l -> x <> SetHeaders ns /\ x <> DelHeaders ns) ->
  (forall ns w, In (AddHeaders ns) l \/ In (SetOversignHeaders ns) l -> In w ns -> signable_name w) ->
  let o := run_ops C l new_options in (o_arc o <> 0%N -> o_identity o = []) ->
  CreateSignature C strict clock o (new_signatory (open_str t)) = (y, Ok H) ->
  exists fields, H = joined fields /\ length fields = length (all_signatures o) /\
  Forall (fun x => exists tags v names, field_tags (header_of x) tags /\ has tags "h" v /\ rendered_list names v /\
    forall h n, In h (m_headers m) -> In n usual_headers -> same_name (h_name h) n = true -> In h (selection h_name (m_headers m) [] names)) fields.
Proof.
  intros SS P NS SG o PI CS. pose proof (plain_history C l PI) as PO. fold o in PO. pose proof (listed_signable C l (m_headers m) NS SG) as SN. fold o in SN.
  destruct (fields_folded C strict clock o t y H m s SS P CS PO SN) as (fields & EH & LN & F). exists fields. split; auto. split; auto.
  eapply Forall_impl; [|exact F]. intros x (_ & tags & v & FT & HS & RL). exists tags, v, (listed_names h_name o (m_headers m)). split; auto. split; auto. split; auto.
  intros h n IH IN E. apply (selection_whole h_name (m_headers m) n); auto. assert (NE : n <> []) by (apply usual_signable; exact IN).
  apply listed_often; auto. apply choice_chosen. split; auto. right. exists n. split; [|apply same_name_eq; reflexivity].
  apply (usual_kept C l new_options NS). exact IN.
Qed.
Lemma recommended_usual n : In n recommended_headers -> In n usual_headers.
Proof. intros I. vm_compute in I |- *. intuition. Qed.
Lemma usual_case : exists y H m s, parse_all new_message (open_str letter) = Ok (m, s) /\
  (forall x ns, In x rsa_calls -> x <> SetHeaders ns /\ x <> DelHeaders ns) /\ o_arc (run_ops toy rsa_calls new_options) = 0%N /\
  CreateSignature toy true (fun _ => 5%Z) (run_ops toy rsa_calls new_options) (new_signatory (open_str letter)) = (y, Ok H) /\
  exists h, In h (m_headers m) /\ In (str "subject") recommended_headers /\ same_name (h_name h) (str "subject") = true.
Proof.
  destruct letter_parsed as (m & s & P & HM). do 2 eexists. exists m, s. split; [exact P|]. split.
  - intros x ns [<-|[<-|[<-|[]]]]; split; discriminate.
  - split; [vm_compute; reflexivity|]. split; [vm_compute; reflexivity|]. rewrite HM, letter_fields_are. eexists. split; [right; left; reflexivity|].
    split; [right; right; left; reflexivity|vm_compute; reflexivity].
Qed.
