(** What a verifier reads from a field with the tags of a produced one: proofs. *)
From Verif Require Import Bytes Outcome Stream Tokenizer QuotedPrintable Base64 TagList MailParser Canonicalization Util CStdlib Crypto
  Signature PublicKey SignatoryOptions Signatory BytesFacts SpecText SpecTags SpecMail SpecCanon SpecVerify SpecSig SpecOptions SpecSign QPFacts
  Base64Facts ListFacts MailFacts HeaderFacts HeaderProps TagListFacts SigFacts SigProps SignNumbers SignText SignFacts AddressClean FieldForm
  BindingFacts BindingList.

Local Open Scope string_scope.
Local Open Scope list_scope.

Lemma a_value_fun a d s d' s' : a_value a d s -> a_value a d' s' -> d = d' /\ s = s'.
Proof. intros [] K; inversion K; auto. Qed.
Lemma mode_slash m : ~ In (chr 47) (mode_name m).
Proof. destruct m; vm_compute; intros X; repeat (destruct X as [X|X]; [discriminate|]); destruct X. Qed.
Lemma mode_name_fun m m' : mode_name m = mode_name m' -> m = m'.
Proof. destruct m, m'; vm_compute; congruence. Qed.
Lemma c_value_both c h b h' b' : c = mode_name h ++ chr 47 :: mode_name b -> c_value c h' b' -> h' = h /\ b' = b.
Proof.
  intros E K. inversion K as [m EM|m n EM]; subst.
  - exfalso. apply (mode_slash h'). rewrite EM. apply in_or_app. right. left. reflexivity.
  - assert (X : forall a x a' x', ~ In (chr 47) a -> ~ In (chr 47) a' -> a ++ chr 47 :: x = a' ++ chr 47 :: x' -> a = a' /\ x = x').
    { clear. induction a as [|c a IH]; intros x [|c' a'] x' N N' E; cbn [app] in E.
      - injection E as ->. auto.
      - injection E as <- _. destruct N'. left. auto.
      - injection E as -> _. destruct N. left. auto.
      - injection E as -> E. destruct (IH x a' x' (fun I => N (or_intror I)) (fun I => N' (or_intror I)) E) as [-> ->]. auto. }
    apply X in EM as [E1 E2]; try apply mode_slash. apply mode_name_fun in E1, E2. auto.
Qed.
Lemma rendered_values l t : rendered_tags l t -> Forall (fun p => tag_value (snd p)) l.
Proof. induction 1; auto. Qed.
Lemma no_space v : Forall value_byte v -> ~ In SP v.
Proof. intros F I. rewrite Forall_forall in F. apply F, value_lwsp in I. discriminate. Qed.
Lemma plain_nrm v : Forall value_byte v -> nrm false v = v.
Proof. intros F. apply nrm_plain. revert F. apply Forall_impl. intros c. apply value_lwsp. Qed.

Section Same.
  Variables (L l : list (bytes * bytes)).
  Hypothesis ST : map nrm_tag (blanked (str "b") L) = map nrm_tag (blanked (str "b") l).
  Hypothesis VL : Forall (fun p => tag_value (snd p)) l.
  Lemma same_has n v : str n <> str "b" -> Forall value_byte v -> has L n v -> has l n v.
  Proof.
    intros NB F I. destruct (tags_has _ _ _ _ ST NB I) as (v' & I' & E). rewrite Forall_forall in VL. pose proof (VL _ I') as TV. cbn [snd] in TV.
    rewrite (plain_nrm v F) in E. apply nrm_exact in E; [subst; exact I'|apply value_ends; auto|apply no_space; auto].
  Qed.
  Lemma same_lacks n : lacks L n -> lacks l n.
  Proof. unfold lacks. rewrite (tags_names _ _ ST). auto. Qed.
End Same.

(** All but b=, and the time. *)
Record agrees (o : options) (s : sig_options) (names : list bytes) (bh : bytes) (now : Z) (g : signature) (vnow : Z) : Prop := {
  ag_read : read_back o s names bh (sg_b g) g;
  ag_time : o_exsign o = true -> (0 <= expiry o now)%Z -> (vnow <= expiry o now)%Z }.

Lemma same_read C strict strict' o s now hv bh B names h l vnow e0 g e1 : sound_options strict o s -> valid_time o now ->
  field_tags h l -> Signature_Parse C strict' vnow h (new_signature, e0) = ((g, e1), Ok tt) ->
  map nrm_tag (blanked (str "b") (sig_tag_list o s now hv bh B)) = map nrm_tag (blanked (str "b") l) ->
  map low (h_name h) = map low (field_name o) ->
  sg_chead g = o_chead o /\
  ((forall v, has l "h" v -> nrm false v = nrm false hv -> ValueList v = Ok names) -> agrees o s names bh now g vnow).
Proof.
  intros SO VT FT P ST NM. pose proof (rendered_values _ _ (proj1 (proj2 FT))) as RV. set (L := sig_tag_list o s now hv bh B) in *.
  apply (Parse_field C strict' vnow h e0 _ l FT) in P as (tags & PT & SOK).
  destruct (field_tags_parse _ _ FT) as (tags' & PT' & HV & LV & GT). rewrite PT in PT'. apply (f_equal fst) in PT'. cbn [fst] in PT'. subst tags'.
  assert (HS : forall n v, str n <> str "b" -> Forall value_byte v -> has L n v -> V tags n = Some v).
  { intros n v NB F I. apply HV. eapply same_has; eauto. }
  assert (LS : forall n, lacks L n -> V tags n = None) by (intros n I; apply LV; eapply same_lacks; eauto).
  assert (FA : same_name (h_name h) arc_name = negb (o_arc o =? 0)%N).
  { rewrite <- field_name_arc. unfold same_name. rewrite NM. reflexivity. }
  inversion SOK as [d a dg al b bhv ch cb hv' hs loc mdom inst ei size lim sel ex E8 Ed Ev Ea Va Eb NB Ebh Ec Eh VLh FR KI KL Eq Es Ex EG].
  assert (Dd : d = so_domain s).
  { rewrite (HS "d" (so_domain s)) in Ed by (discriminate || apply dotted_value, (so_dotted _ _ _ SO) || apply tl_d). congruence. }
  assert (Ds : sel = so_selector s).
  { rewrite (HS "s" (so_selector s)) in Es by (discriminate || apply dotted_value, (ss_dotted _ _ _ SO) || apply tl_s). congruence. }
  assert (Da : dg = o_digest o /\ al = so_alg s).
  { pose proof (Algorithm_value o s strict SO) as AV. set (alg := Algorithm2String (so_alg (o_main o)) (o_digest o)) in *.
    rewrite (HS "a" alg) in Ea; [|discriminate| |apply tl_a].
    - assert (a = alg) by congruence. subst a. destruct (a_value_fun _ _ _ _ _ Va AV). auto.
    - apply plain_bytes. subst alg. destruct (so_alg (o_main o)), (o_digest o); reflexivity. }
  assert (Dc : ch = o_chead o /\ cb = o_cbody o).
  { rewrite (HS "c" (mode_pair o)) in Ec; [|discriminate| |apply tl_c].
    - apply (c_value_both (mode_pair o)); auto.
    - apply plain_bytes. unfold mode_pair. destruct (o_chead o), (o_cbody o); reflexivity. }
  split; [tauto|]. intros HL.
  assert (Dbh : b64d C (unspaced bhv) = bh).
  { assert (I : has L "bh" (Base64_Encode bh)) by apply tl_bh. rewrite (HS "bh" (Base64_Encode bh)) in Ebh by (discriminate || apply b64_bytes || exact I).
    assert (bhv = Base64_Encode bh) by congruence. subst bhv.
    pose proof (folded_lines_unspaced (Base64_Encode bh) []) as U. cbn [map joined concat] in U. rewrite app_nil_r in U.
    rewrite U by apply Base64_letters. apply Base64_round. }
  assert (Dh : hs = names).
  { assert (I : has L "h" hv) by apply tl_h. destruct (tags_has _ _ (str "h") _ ST ltac:(discriminate) I) as (v' & I' & E').
    pose proof (proj2 (HV "h" v') I') as X. rewrite Eh in X. assert (hv' = v') by congruence. subst v'. specialize (HL hv' I' E'). congruence. }
  assert (Dl : lim = o_signlen o /\ (o_signlen o = true -> size = o_bodylen o)).
  { destruct (o_signlen o) eqn:OL.
    - pose proof (so_len _ _ _ SO OL) as B63.
      rewrite (HS "l" (fmt_lu (o_bodylen o))) in KL; [|discriminate|apply digits_bytes, fmt_lu_digits|apply tl_opt_l; rewrite OL; reflexivity].
      destruct KL as (_ & _ & SL & _ & ->). split; auto. intros _. rewrite strtoul_digits in SL; [|apply fmt_lu_digits|]; rewrite fmt_lu_value in *; [congruence|].
      unfold ULONG_MAX. lia.
    - rewrite (LS "l") in KL by (apply tl_no_l; rewrite OL; reflexivity). destruct KL as [_ ->]. split; [auto|discriminate]. }
  assert (Di : (o_arc o <> 0%N -> inst = o_arc o) /\ (o_arc o = 0%N -> match o_identity o with
    | [] => loc = [] /\ mdom = map low (so_domain s)
    | i => exists dom, i = loc ++ AT :: dom /\ ~ In AT loc /\ mdom = map low dom
    end)).
  { rewrite FA in KI. destruct (N.eqb_spec (o_arc o) 0) as [A|A]; cbn [negb] in KI.
    - split; [congruence|]. intros _. destruct KI as (_ & _ & KI). destruct (o_identity o) as [|i0 ir] eqn:OI.
      + rewrite (LS "i") in KI by (apply tl_no_i; [apply negb_false_iff, N.eqb_eq; exact A|rewrite OI; reflexivity]).
        destruct KI as [-> ->]. split; auto. rewrite Dd. reflexivity.
      + rewrite (HS "i" (qp_encode (o_identity o))) in KI; [|discriminate|apply qp_output_safe|apply tl_opt_i; rewrite OI; reflexivity].
        destruct KI as (raw & Q & NI & _ & -> & _). rewrite qp_round_trip in Q. apply Ok_inj in Q. rewrite OI in Q. exists raw. auto.
    - split; [|congruence]. intros _. destruct (so_instance _ _ _ SO A) as [A50 _]. destruct KI as (_ & _ & _ & i & rest & Vi & SU).
      rewrite (HS "i" (fmt_lu (o_arc o))) in Vi; [|discriminate|apply digits_bytes, fmt_lu_digits|].
      + assert (i = fmt_lu (o_arc o)) by congruence. subst i. rewrite strtoul_digits in SU; [|apply fmt_lu_digits|]; rewrite fmt_lu_value in *; [congruence|].
        unfold ULONG_MAX. lia.
      + unfold L, sig_tag_list. destruct (N.eqb_spec (o_arc o) 0) as [Z|Z]; [congruence|]. apply tl_inst. reflexivity. }
  constructor.
  - subst. constructor; cbn; auto; try tauto.
  - intros OX NZ. pose proof (VT OX) as I64. unfold in_int64 in I64. apply andb_true_iff in I64 as [I1 I2]. apply Z.leb_le in I1, I2.
    destruct (time_read (expiry o now) (conj I1 I2)) as (z & er & E & LE & EZ & _).
    rewrite (HS "x" (fmt_lu_time (expiry o now))) in Ex; [|discriminate|apply digits_bytes, fmt_lu_digits|apply tl_opt_x; rewrite OX; reflexivity].
    destruct Ex as (v & SV & LV'). rewrite E in SV. pose proof (f_equal fst SV) as SV'. cbn [fst] in SV'. subst v.
    destruct (Z.ltb_spec (expiry o now) 0); [lia|]. subst z. exact LV'.
Qed.
