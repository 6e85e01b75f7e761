(** The field CreateSignature produces: its tags, its lines, and that Signature::Parse accepts it. *)
From Verif Require Import Bytes Outcome Stream Tokenizer QuotedPrintable Base64 TagList MailParser Canonicalization Util CStdlib Crypto
  Signature PublicKey SignatoryOptions Signatory BytesFacts SpecText SpecTags SpecMail SpecCanon SpecVerify SpecSig SpecOptions SpecSign QPFacts
  Base64Facts ListFacts MailFacts HeaderFacts HeaderProps TagListFacts SigFacts SigProps SignNumbers SignText.

(** ** Values *)
Lemma letter_digit_value c : letter_digit c -> value_byte c.
Proof.
  intros H. split.
  - destruct H as [[A B]|[[A B]|[A B]]]; split; lia.
  - intros ->. destruct H as [[A B]|[[A B]|[A B]]]; vm_compute in A, B; congruence.
Qed.
Lemma dotted_value d : dotted d -> Forall value_byte d.
Proof.
  assert (L : forall l, label l -> Forall value_byte l).
  { intros l (_ & F & _). eapply Forall_impl; [|exact F]. intros c [K| ->]; [apply letter_digit_value; auto|].
    split; [vm_compute; split; discriminate|discriminate]. }
  induction 1 as [l Hl|l r Hl Hr IH]; auto. apply Forall_app. split; auto. constructor; auto.
  split; [vm_compute; split; discriminate|discriminate].
Qed.
Lemma mode_value m : Forall value_byte (mode_name m).
Proof.
  assert (K : forall v, forallb is_valchar v = true -> Forall value_byte v).
  { intros v F. apply (proj1 (forallb_Forall _ _ v value_byte_b)). exact F. }
  destruct m; apply K; vm_compute; reflexivity.
Qed.
Lemma plain_bytes v : forallb is_valchar v = true -> Forall value_byte v.
Proof. intros F. apply (proj1 (forallb_Forall _ _ v value_byte_b)). exact F. Qed.
Lemma name_bytes n : n <> [] -> forallb is_namechar n = true -> tag_name n.
Proof. intros N F. split; auto. apply (proj1 (forallb_Forall _ _ n name_byte_b)). exact F. Qed.
Lemma plain_folded v : Forall value_byte v -> folded_text v.
Proof. intros F. apply folded_plain. eapply Forall_not_In; [exact F|]. intros V. apply value_byte_LF in V. congruence. Qed.
Lemma plain_entry w n v : fold_space w -> tag_name n -> Forall value_byte v -> good_entry (mkE w n [] v).
Proof.
  intros W N F. constructor; cbn [e_w1 e_name e_w3 e_value]; auto; [left; auto|apply plain_value; auto|apply plain_folded; auto].
Qed.
Lemma digits_bytes v : digits v -> Forall value_byte v.
Proof.
  intros [_ F]. eapply Forall_impl; [|exact F]. intros c [A B]. split; [unfold printable, between; lia|]. intros ->. vm_compute in B. congruence.
Qed.
Lemma b64_bytes d : Forall value_byte (Base64_Encode d).
Proof. eapply Forall_impl; [|apply Base64_letters]. intros c. apply b64_value_byte. Qed.

Lemma plain_sound strict o s : sound_options strict o s -> plain_options o s.
Proof. intros H. constructor; [split; right; [apply (so_dotted _ _ _ H)|apply (ss_dotted _ _ _ H)]|intros A; apply (so_instance _ _ _ H A)]. Qed.
Lemma plain_sounds strict o l : Forall (sound_options strict o) l -> Forall (plain_options o) l.
Proof. apply Forall_impl. intros s. apply plain_sound. Qed.
Lemma dotted_or_empty d : d = [] \/ dotted d -> Forall value_byte d.
Proof. intros [->|D]; [constructor|apply dotted_value; auto]. Qed.
Lemma sig_entries_good o s now w hv bh : named_well s -> fold_space w -> tag_value hv -> folded_text hv ->
  Forall good_entry (sig_entries o s now w hv bh).
Proof.
  intros SO W TV FT. unfold sig_entries.
  assert (SPf : fold_space [SP]) by (right; left; auto). assert (NLf : fold_space (CRLF ++ [HT])) by (right; right; left; auto).
  assert (TN : forall n, str n <> [] -> forallb is_namechar (str n) = true -> tag_name (str n)) by (intros n A B; apply name_bytes; auto).
  assert (SE : forall n v, str n <> [] -> forallb is_namechar (str n) = true -> Forall value_byte v -> good_entry (sp_entry n v))
    by (intros n v A B D; apply plain_entry; auto).
  assert (NE : forall n v, str n <> [] -> forallb is_namechar (str n) = true -> Forall value_byte v -> good_entry (nl_entry n v))
    by (intros n v A B D; apply plain_entry; auto).
  assert (E1 : good_entry (mkE [SP] (fst (tag_instance o)) [] (snd (tag_instance o)))).
  { unfold tag_instance. destruct (o_arc o =? 0)%N; apply plain_entry; auto; cbn [fst snd]; try (apply TN; [discriminate|reflexivity]).
    - apply plain_bytes. reflexivity.
    - apply digits_bytes, fmt_lu_digits. }
  assert (E2 : good_entry (sp_entry "a" (Algorithm2String (so_alg (o_main o)) (o_digest o)))).
  { apply SE; [discriminate|reflexivity|]. apply plain_bytes. destruct (so_alg (o_main o)), (o_digest o); reflexivity. }
  assert (E3 : good_entry (sp_entry "c" (mode_pair o))).
  { apply SE; [discriminate|reflexivity|]. apply plain_bytes. unfold mode_pair. destruct (o_chead o), (o_cbody o); reflexivity. }
  assert (E4 : forall z, good_entry (sp_entry "t" (fmt_lu_time z)) /\ good_entry (sp_entry "x" (fmt_lu_time z))).
  { intros z. split; apply SE; try discriminate; try reflexivity; apply digits_bytes, fmt_lu_digits. }
  assert (E5 : good_entry (nl_entry "d" (so_domain s))) by (apply NE; [discriminate|reflexivity|]; apply dotted_or_empty, SO).
  assert (E6 : good_entry (sp_entry "s" (so_selector s))) by (apply SE; [discriminate|reflexivity|]; apply dotted_or_empty, SO).
  assert (E7 : forall i, good_entry (sp_entry "i" (qp_encode i))) by (intros i; apply SE; [discriminate|reflexivity|]; apply qp_output_safe).
  assert (E8 : good_entry (sp_entry "l" (fmt_lu (o_bodylen o)))) by (apply SE; [discriminate|reflexivity|]; apply digits_bytes, fmt_lu_digits).
  assert (E9 : good_entry (mkE (CRLF ++ [HT]) (str "h") w hv)).
  { constructor; cbn [e_w1 e_name e_w3 e_value]; auto. apply TN; [discriminate|reflexivity]. }
  assert (E10 : good_entry (nl_entry "bh" (Base64_Encode bh))) by (apply NE; [discriminate|reflexivity|]; apply b64_bytes).
  repeat (apply Forall_app; split).
  - auto.
  - destruct (o_tssign o); auto. constructor; auto. apply E4.
  - destruct (o_exsign o); auto. constructor; auto. apply E4.
  - auto.
  - destruct (o_identity o); auto.
  - destruct (o_signlen o); auto.
  - auto.
Qed.

(** The tags as a list. *)
Definition opt_b (b : bool) (v : bytes) : option bytes := if b then Some v else None.
Definition sig_tag_list (o : options) (s : sig_options) (now : Z) (hv bh B : bytes) : list (bytes * bytes) :=
  tag_list (negb (o_arc o =? 0)%N) (if (o_arc o =? 0)%N then str "1" else fmt_lu (o_arc o))
    (Algorithm2String (so_alg (o_main o)) (o_digest o)) (mode_pair o)
    (opt_b (o_tssign o) (fmt_lu_time (stamp o now))) (opt_b (o_exsign o) (fmt_lu_time (expiry o now)))
    (so_domain s) (so_selector s)
    (match o_identity o with [] => None | i => Some (qp_encode i) end)
    (opt_b (o_signlen o) (fmt_lu (o_bodylen o))) hv (Base64_Encode bh) B.
Lemma sig_entries_pairs o s now w hv bh B :
  map pair_of (sig_entries o s now w hv bh ++ [nl_entry "b" B]) = sig_tag_list o s now hv bh B.
Proof.
  unfold sig_entries, sig_tag_list, tag_list, tag_instance.
  destruct (o_arc o =? 0)%N, (o_tssign o), (o_exsign o), (o_identity o), (o_signlen o); reflexivity.
Qed.

(** ** The field *)
Record produced (C : crypto) (strict : bool) (o : options) (now : Z) (hashed : bytes) (names : list bytes) (bh : bytes) (s : sig_options)
  (H T B c x hv : bytes) : Prop := {
  pr_split : H = T ++ B;
  pr_canon : FilterHeader strict (o_chead o) T = Ok c;
  pr_sign : make_signature C o s (digest C (o_digest o) (hashed ++ c)) = Ok x;
  pr_b : unspaced B = Base64_Encode x;
  pr_b_value : x <> [] -> B <> [];
  pr_h : rendered_list names hv;
  pr_time : valid_time o now;
  pr_header : header_of H = mkHeader (field_name o) H (S (length (field_name o)));
  pr_tags : x <> [] -> rendered_tags (sig_tag_list o s now hv bh B) (skipn (S (length (field_name o))) H);
  pr_begin : exists v, T = field_name o ++ COLON :: v /\ (x <> [] -> tag_at (str "b") (skipn (S (length (field_name o))) H) v B []);
  pr_fold : folded_text H }.

Lemma header_of_name n v : ~ In COLON n -> trim_wsp n = n -> header_of (n ++ COLON :: v) = mkHeader n (n ++ COLON :: v) (S (length n)).
Proof. intros N T. unfold header_of. rewrite find_char_app by auto. rewrite firstn_app_exact, T. reflexivity. Qed.
Lemma field_name_plain o : ~ In COLON (field_name o) /\ trim_wsp (field_name o) = field_name o /\ ~ In LF (field_name o).
Proof.
  assert (K : forall c n, find_char c n = None -> ~ In c n) by (intros c n; apply find_char_None).
  unfold field_name. destruct (o_arc o =? 0)%N; (split; [apply K; vm_compute; reflexivity|]; split; [vm_compute; reflexivity|apply K; vm_compute; reflexivity]).
Qed.
Lemma skip_name n (v : bytes) : skipn (S (length n)) (n ++ COLON :: v) = v.
Proof. replace (n ++ COLON :: v) with ((n ++ [COLON]) ++ v) by (rewrite <- app_assoc; reflexivity). replace (S (length n)) with (length (n ++ [COLON])) by (rewrite app_length; cbn; lia). apply skipn_app_exact. Qed.

Lemma one_signature_produced C strict o now hashed names bh s H :
  one_signature C strict o now hashed names bh s = Ok H -> named_well s -> Forall signable_name names ->
  exists T B c x hv, produced C strict o now hashed names bh s H T B c x hv.
Proof.
  intros OS SO SN. unfold one_signature in OS.
  destruct (sig_template o s now names bh) as [T| | |] eqn:ET; cbn [obind] in OS; try discriminate.
  destruct (FilterHeader strict (o_chead o) T) as [c| | |] eqn:EF; cbn [obind] in OS; try discriminate.
  destruct (make_signature C o s (digest C (o_digest o) (hashed ++ c))) as [x| | |] eqn:EM; cbn [obind] in OS; try discriminate.
  cbv zeta in OS. apply Ok_inj in OS. set (B := fold_b (S (length (Base64_Encode x))) 3 (Base64_Encode x)) in *.
  destruct (template_text o s now names bh T ET) as (VT & t & HT1 & TT). destruct (h_value names t HT1 SN) as (w & hv & Et & W & TV & FT & RL).
  specialize (TT w hv Et). exists T, B, c, x, hv. subst H.
  set (E := sig_entries o s now w hv bh) in *. destruct (field_name_plain o) as (NC & TW & NLF).
  assert (NE : E <> []) by (subst E; unfold sig_entries; discriminate).
  set (v := entries_text E ++ SEMI :: (CRLF ++ [HT]) ++ str "b" ++ [EQUALS]) in *.
  assert (EB : entries_text (E ++ [nl_entry "b" B]) = v ++ B).
  { destruct (entries_snoc E (CRLF ++ [HT]) (str "b") B NE) as (pre & EE & EP). unfold nl_entry. rewrite EE, EP. reflexivity. }
  assert (EH : T ++ B = field_name o ++ COLON :: v ++ B) by (rewrite TT, <- app_assoc; reflexivity).
  assert (GE : x <> [] -> Forall good_entry (E ++ [nl_entry "b" B])).
  { intros NX. destruct (fold_b_value x NX) as (BV & BF & _). fold B in BV, BF. apply Forall_app. split.
    - eapply sig_entries_good; eauto. destruct W as [->| ->]; [left|right; right; right]; auto.
    - constructor; auto. constructor; cbn [e_w1 e_name e_w3 e_value nl_entry]; auto; [right; right; left; auto| |left; auto].
      apply name_bytes; [discriminate|reflexivity]. }
  assert (SK : skipn (S (length (field_name o))) (T ++ B) = v ++ B) by (rewrite EH; apply skip_name).
  constructor; auto.
  - destruct x as [|x0 x']; [reflexivity|]. apply fold_b_value. discriminate.
  - intros NX. apply fold_b_value. exact NX.
  - rewrite EH. apply header_of_name; auto.
  - intros NX. rewrite SK, <- EB, <- (sig_entries_pairs o s now w hv bh B). apply entries_rendered; auto. destruct E; discriminate.
  - exists v. split; [exact TT|]. intros NX. rewrite SK. split; [rewrite app_nil_r; reflexivity|]. split; [apply fold_b_value; auto|]. split.
    + exists (entries_text E ++ [SEMI]), (CRLF ++ [HT]), [], []. subst v. split; [repeat (rewrite <- ?app_assoc; cbn [app]); reflexivity|].
      split; [right; eauto|]. split; [|auto]. apply fold_space_LWSP. right; right; left; auto.
    + exists [], []. auto.
  - rewrite EH. apply folded_app; [apply folded_plain; auto|]. change (COLON :: v ++ B) with ([COLON] ++ v ++ B).
    apply folded_app; [apply folded_plain; intros [X|[]]; discriminate|]. destruct x as [|x0 x'].
    + subst v. change B with (@nil ascii). rewrite app_nil_r. apply folded_app.
      * apply entries_folded. eapply sig_entries_good; eauto. destruct W as [->| ->]; [left|right; right; right]; auto.
      * change (SEMI :: (CRLF ++ [HT]) ++ str "b" ++ [EQUALS]) with ([SEMI] ++ CRLF ++ HT :: str "b="). apply folded_app.
        { apply folded_plain. intros [X|[]]; discriminate. }
        apply folded_crlf; [reflexivity|]. intros [X|[X|[X|[]]]]; discriminate.
    + rewrite <- EB. apply entries_folded. apply GE. discriminate.
Qed.

Lemma produced_tags C strict o now hashed names bh s H T B c x hv : produced C strict o now hashed names bh s H T B c x hv -> x <> [] ->
  plain_options o s -> field_tags (header_of H) (sig_tag_list o s now hv bh B).
Proof.
  intros P NX SO. rewrite (pr_header _ _ _ _ _ _ _ _ _ _ _ _ _ _ P). split; [|split]; cbn [h_voff h_text].
  - destruct (pr_begin _ _ _ _ _ _ _ _ _ _ _ _ _ _ P) as (v & E & _). rewrite (pr_split _ _ _ _ _ _ _ _ _ _ _ _ _ _ P), E.
    rewrite !app_length. cbn [length]. lia.
  - apply (pr_tags _ _ _ _ _ _ _ _ _ _ _ _ _ _ P NX).
  - apply tl_nodup. intros A. apply negb_true_iff, N.eqb_neq in A. rewrite (po_instance _ _ SO A). reflexivity.
Qed.
Lemma field_name_arc o : same_name (field_name o) arc_name = negb (o_arc o =? 0)%N.
Proof. unfold field_name. destruct (o_arc o =? 0)%N; vm_compute; reflexivity. Qed.
Lemma Algorithm_text d k : Algorithm2String k d = a_text d k.
Proof. destruct k, d; reflexivity. Qed.
Lemma a_text_value v d k : a_value v d k -> v = a_text d k.
Proof. intros H. destruct H; reflexivity. Qed.
Lemma a_text_inj d k k' : a_text d k = a_text d k' -> k = k'.
Proof. destruct d, k, k'; (reflexivity || discriminate). Qed.
Lemma Algorithm_value o s strict : sound_options strict o s -> a_value (Algorithm2String (so_alg (o_main o)) (o_digest o)) (o_digest o) (so_alg s).
Proof.
  intros SO. rewrite <- (so_same _ _ _ SO). pose proof (so_known _ _ _ SO) as K. destruct (so_alg s); [destruct (o_digest o); constructor|].
  rewrite K by auto. constructor.
Qed.
Lemma seven_bit v : Forall (fun c => (code c < 128)%N) v -> existsb is_8bit v = false.
Proof.
  intros F. induction F as [|c v B F IH]; auto. cbn [existsb]. rewrite IH, orb_false_r.
  assert (X : forall c, implb (code c <? 128)%N (negb (is_8bit c)) = true) by (apply byte_sweep; vm_compute; reflexivity).
  specialize (X c). apply N.ltb_lt in B. rewrite B in X. cbn in X. apply negb_true_iff in X. exact X.
Qed.

(** What Signature::Parse makes of it. *)
Record read_back (o : options) (s : sig_options) (names : list bytes) (bh x : bytes) (g : signature) : Prop := {
  rb_digest : sg_digest g = o_digest o;
  rb_alg : sg_alg g = so_alg s;
  rb_b : sg_b g = x;
  rb_bh : sg_bh g = bh;
  rb_chead : sg_chead g = o_chead o;
  rb_cbody : sg_cbody g = o_cbody o;
  rb_domain : sg_domain g = map low (so_domain s);
  rb_selector : sg_selector g = so_selector s;
  rb_headers : sg_headers g = names;
  rb_limit : sg_limit g = o_signlen o;
  rb_size : o_signlen o = true -> sg_size g = o_bodylen o;
  rb_arc : sg_arc g = negb (o_arc o =? 0)%N;
  rb_instance : o_arc o <> 0%N -> sg_instance g = o_arc o;
  rb_mdomain : o_arc o = 0%N -> match o_identity o with
    | [] => sg_local g = [] /\ sg_mdomain g = map low (so_domain s)
    | i => exists dom, i = sg_local g ++ AT :: dom /\ ~ In AT (sg_local g) /\ sg_mdomain g = map low dom
    end }.
Lemma produced_parses C strict o now hashed names bh s H T B c x hv vnow e0 :
  produced C strict o now hashed names bh s H T B c x hv -> x <> [] -> sound_options strict o s ->
  (exists n, In n names /\ same_name n (str "from") = true) ->
  (o_exsign o = true -> (vnow <= expiry o now)%Z) -> (o_signlen o = true -> e0 = false) ->
  exists g e1, Signature_Parse C strict vnow (header_of H) (new_signature, e0) = ((g, e1), Ok tt) /\ read_back o s names bh x g.
Proof.
  intros P NX SO FR VN E0. pose proof (produced_tags _ _ _ _ _ _ _ _ _ _ _ _ _ _ P NX (plain_sound _ _ _ SO)) as FT.
  destruct (field_tags_parse _ _ FT) as (tags & PT & HV & LV & GT). set (L := sig_tag_list o s now hv bh B) in *.
  assert (HN : h_name (header_of H) = field_name o) by (rewrite (pr_header _ _ _ _ _ _ _ _ _ _ _ _ _ _ P); reflexivity).
  assert (N8 : strict && existsb is_8bit (field_name o) = false).
  { unfold field_name. destruct (o_arc o =? 0)%N; rewrite andb_comm; reflexivity. }
  assert (VB : V tags "b" = Some B) by (apply HV; apply tl_b). assert (VBH : V tags "bh" = Some (Base64_Encode bh)) by (apply HV; apply tl_bh).
  assert (BHU : b64d C (unspaced (Base64_Encode bh)) = bh).
  { pose proof (folded_lines_unspaced (Base64_Encode bh) []) as U. cbn [map joined concat] in U. rewrite app_nil_r in U.
    rewrite U by apply Base64_letters. apply Base64_round. }
  assert (BU : b64d C (unspaced B) = x) by (rewrite (pr_b _ _ _ _ _ _ _ _ _ _ _ _ _ _ P); apply Base64_round).
  set (arc := negb (o_arc o =? 0)%N). pose proof (field_name_arc o) as FA. fold arc in FA.
  (* i= *)
  assert (KI : exists loc mdom inst, (if arc then
       loc = [] /\ mdom = [] /\ in_range_N 1 50 inst /\
       exists i rest, V tags "i" = Some i /\ strtoul i = (inst, rest, false)
     else inst = 0%N /\ false = false /\
       match V tags "i" with
       | None => loc = [] /\ mdom = lower (so_domain s)
       | Some i => exists raw, qp_decode i false = Ok (loc ++ AT :: raw) /\ ~ In AT loc /\
                     strict && existsb is_8bit raw = false /\ mdom = lower raw /\ in_domain mdom (lower (so_domain s))
       end) /\ (o_arc o <> 0%N -> inst = o_arc o) /\ (o_arc o = 0%N -> match o_identity o with
    | [] => loc = [] /\ mdom = map low (so_domain s)
    | i => exists dom, i = loc ++ AT :: dom /\ ~ In AT loc /\ mdom = map low dom
    end)).
  { subst arc. destruct (N.eqb_spec (o_arc o) 0) as [A|A]; cbn [negb].
    - destruct (o_identity o) as [|i0 ir] eqn:OI.
      + exists [], (lower (so_domain s)), 0%N. assert (VI : V tags "i" = None).
        { apply LV. apply tl_no_i; [apply negb_false_iff, N.eqb_eq; exact A|rewrite OI; reflexivity]. }
        rewrite VI. split; [repeat split; reflexivity|]. split; [intros X; congruence|]. intros _. split; reflexivity.
      + destruct (so_ident _ _ _ SO) as (loc & dom & EI & NI & ID & S7); [rewrite OI; discriminate|].
        exists loc, (lower dom), 0%N. assert (VI : V tags "i" = Some (qp_encode (o_identity o))).
        { apply HV. apply tl_opt_i. rewrite OI. reflexivity. }
        rewrite VI. split; [|split; [congruence|]].
        * split; auto. split; auto. exists dom. split; [rewrite qp_round_trip, EI; reflexivity|]. split; auto. rewrite !map_low in ID.
          split; auto. destruct strict; auto. cbn [andb]. apply seven_bit. auto.
        * intros _. exists dom. split; [congruence|]. split; auto.
    - destruct (so_instance _ _ _ SO A) as [A50 OI]. exists [], [], (o_arc o). split; [|split; [auto|congruence]].
      split; auto. split; auto. split. { unfold in_range_N. lia. }
      exists (fmt_lu (o_arc o)), []. split.
      + apply HV. unfold L, sig_tag_list. destruct (N.eqb_spec (o_arc o) 0) as [Z|Z]; [congruence|]. apply tl_inst. reflexivity.
      + rewrite strtoul_digits; [|apply fmt_lu_digits|]; rewrite fmt_lu_value; [reflexivity|]. unfold ULONG_MAX. lia. }
  destruct KI as (loc & mdom & inst & KI & KI1 & KI2).
  (* l= *)
  assert (KL : exists size, match V tags "l" with
    | None => size = 0%N /\ o_signlen o = false
    | Some l => length l <= 76 /\ (e0 || false = false) /\ strtoul l = (size, [], false) /\
                (size < 9223372036854775808)%N /\ o_signlen o = true
    end /\ (o_signlen o = true -> size = o_bodylen o)).
  { destruct (o_signlen o) eqn:OL.
    - pose proof (so_len _ _ _ SO OL) as B63. assert (VL : V tags "l" = Some (fmt_lu (o_bodylen o))) by (apply HV; apply tl_opt_l; rewrite OL; reflexivity).
      rewrite VL. exists (o_bodylen o). split; auto. split; [|split; [rewrite E0 by auto; reflexivity|split; [|split; auto]]].
      + assert (length (fmt_lu (o_bodylen o)) <= 20); [|lia]. apply fmt_lu_length; [|lia]. eapply N.lt_trans; [exact B63|]. vm_compute. reflexivity.
      + rewrite strtoul_digits; [|apply fmt_lu_digits|]; rewrite fmt_lu_value; [reflexivity|]. unfold ULONG_MAX. lia.
    - exists 0%N. assert (VL : V tags "l" = None) by (apply LV; apply tl_no_l; rewrite OL; reflexivity). rewrite VL. split; [auto|discriminate]. }
  destruct KL as (size & KL & KL2).
  (* x= *)
  assert (KX : exists ex, match V tags "x" with
    | None => ex = false
    | Some v => exists z, strtol v = (z, ex) /\ (vnow <= z)%Z
    end).
  { destruct (o_exsign o) eqn:OX.
    - pose proof (pr_time _ _ _ _ _ _ _ _ _ _ _ _ _ _ P OX) as I64. unfold in_int64 in I64. apply andb_true_iff in I64 as [I1 I2].
      apply Z.leb_le in I1, I2. destruct (time_read (expiry o now) (conj I1 I2)) as (z & er & E & LE & _). exists er.
      assert (VX : V tags "x" = Some (fmt_lu_time (expiry o now))) by (apply HV; apply tl_opt_x; rewrite OX; reflexivity).
      rewrite VX. exists z. split; auto. specialize (VN eq_refl). lia.
    - exists false. assert (VX : V tags "x" = None) by (apply LV; apply tl_no_x; rewrite OX; reflexivity). rewrite VX. reflexivity. }
  destruct KX as (ex & KX).
  assert (SOK : sig_ok C strict vnow (field_name o) tags e0
    (mkSig tags (o_digest o) (so_alg s) (b64d C (unspaced B)) (b64d C (unspaced (Base64_Encode bh))) (o_chead o) (o_cbody o) (lower (so_domain s)) names
       loc mdom size (o_signlen o) (so_selector s) (same_name (field_name o) arc_name) inst, e0 || false || ex)).
  { apply (sig_ok_intro C strict vnow (field_name o) tags e0 (so_domain s) (Algorithm2String (so_alg (o_main o)) (o_digest o)) (o_digest o) (so_alg s)
      B (Base64_Encode bh) (o_chead o) (o_cbody o) hv names loc mdom inst false size (o_signlen o) (so_selector s) ex); auto.
    - apply HV. apply tl_d.
    - rewrite FA. subst arc. intros A. apply HV. unfold L, sig_tag_list. apply negb_false_iff in A. rewrite A. apply tl_v. reflexivity.
    - apply HV. apply tl_a.
    - eapply Algorithm_value; eauto.
    - apply (pr_b_value _ _ _ _ _ _ _ _ _ _ _ _ _ _ P NX).
    - assert (VC : V tags "c" = Some (mode_pair o)) by (apply HV; apply tl_c). rewrite VC. constructor.
    - apply HV. apply tl_h.
    - apply ValueList_rendered. apply (pr_h _ _ _ _ _ _ _ _ _ _ _ _ _ _ P).
    - rewrite FA. exact KI.
    - left. apply LV. apply tl_no_q.
    - apply HV. apply tl_s. }
  rewrite <- HN in SOK. eexists; eexists; split.
  - apply (Parse_field C strict vnow (header_of H) e0 _ L FT). exists tags. split; [exact PT|exact SOK].
  - constructor; cbn; auto. rewrite HN. exact FA.
Qed.
