(** What the command line program prints when it signs. *)
From Verif Require Import Bytes Outcome Stream TagList MailParser Canonicalization Util CStdlib Crypto Signature PublicKey
  SignatoryOptions Signatory Validatory SpecText SpecTags SpecMail SpecCanon SpecVerify SpecSig SpecKey SpecOptions SpecSign Tool SpecTool
  BytesFacts BodyFacts BodyProps MailFacts SelectFacts SigFacts SigProps VerifyFacts KeyFacts VerifyProps OptionsFacts SignNumbers SignText SignFacts SignMail
  SignRound SignProps ToolFacts SpecPass.

(** ** The options *)
Definition tool_options (a : tool_args) (q : sig_options) : options :=
  mkOpt q [] SHA256 [] default_headers 0 false (a_instance a) RELAXED RELAXED true (-1) true false 1 [].
Lemma chain_main C m r o o' : chain C (OnMain m :: r) o = Ok o' ->
  exists q, run_sig_op C m (o_main o) = (q, Ok tt) /\ chain C r (with_main q o) = Ok o'.
Proof.
  cbn [chain run_op]. destruct (run_sig_op C m (o_main o)) as [q [[]| | |]]; try discriminate. intros H. exists q. auto.
Qed.
Lemma chain_set C x r o o' : chain C (x :: r) o = Ok o' -> snd (run_op C x o) = Ok tt -> chain C r (fst (run_op C x o)) = Ok o'.
Proof. intros H E. cbn [chain] in H. destruct (run_op C x o) as [o1 y]. cbn [fst snd] in *. subst y. exact H. Qed.
Lemma main_with q o : o_main (with_main q o) = q.
Proof. reflexivity. Qed.
Lemma chain_facts C a k o : chain C (tool_ops a k) new_options = Ok o ->
  exists q, o = tool_options a q /\ so_domain q = a_domain a /\ so_selector q = a_selector a /\ dotted (a_domain a) /\ dotted (a_selector a) /\
    so_alg q = (if beqb (a_keytype a) (str "ed25519") then ED25519 else RSA).
Proof.
  unfold tool_ops. set (alg := if beqb _ _ then _ else _). intros H.
  apply chain_main in H as (q1 & E1 & H). apply chain_main in H as (q2 & E2 & H).
  apply chain_main in H as (q3 & E3 & H). apply chain_main in H as (q4 & E4 & H).
  do 5 (apply chain_set in H; [|reflexivity]).
  cbn [chain] in H. apply Ok_inj in H. rewrite !main_with in *. cbn [run_sig_op] in *.
  assert (X1 : q1 = so_setalg alg new_sig_options) by (apply (f_equal fst) in E1; symmetry; exact E1). clear E1.
  assert (A2 : so_alg q2 = alg).
  { unfold so_key in E2. destruct (so_SetPrivateKey C k q1) as [s|x|y|] eqn:P; try (apply (f_equal snd) in E2; discriminate E2).
    apply (f_equal fst) in E2. cbn [fst] in E2. subst s q1. revert P. unfold so_SetPrivateKey, so_setalg. cbn [so_alg so_rsa so_ed so_domain so_selector].
    destruct alg.
    - destruct (beqb _ _); [destruct (c_pem_private C k) as [[|]|]|destruct (c_der_private C _)]; try discriminate; intros P; apply Ok_inj in P; subst q2; reflexivity.
    - cbv zeta. repeat (destruct (Nat.eqb _ _); [intros P; apply Ok_inj in P; subst q2; reflexivity|]). discriminate. }
  destruct (setdomain_spec (a_domain a) q2) as [[D E]|[_ E]]; rewrite E in E3; [|apply (f_equal snd) in E3; discriminate E3].
  apply (f_equal fst) in E3. cbn [fst] in E3. subst q3.
  destruct (setselector_spec (a_selector a) (put_domain (a_domain a) q2)) as [[S E']|[_ E']]; rewrite E' in E4; [|apply (f_equal snd) in E4; discriminate E4].
  apply (f_equal fst) in E4. cbn [fst] in E4. exists q4. split; [subst o; reflexivity|]. subst q4. auto.
Qed.
Lemma tool_sound strict a q : so_domain q = a_domain a -> so_selector q = a_selector a -> dotted (a_domain a) -> dotted (a_selector a) ->
  (a_instance a <= 50)%N -> Forall (sound_options strict (tool_options a q)) (all_signatures (tool_options a q)).
Proof.
  intros ED ES D S I. constructor; [|constructor]. constructor; cbn; try congruence; auto; try (rewrite ED; auto); try (rewrite ES; auto). 
Qed.

(** The names that get into h=. *)
Definition token_byte (c : ascii) : bool := ((97 <=? code c) && (code c <=? 122) || (code c =? 45))%N.
Lemma default_tokens w : In w default_headers -> w <> [] /\ forallb token_byte (map low w) = true.
Proof.
  assert (K : forallb (fun w => negb (beqb w []) && forallb token_byte (map low w)) default_headers = true) by (vm_compute; reflexivity).
  rewrite forallb_forall in K. intros I. apply K in I. apply andb_true_iff in I as [A B]. split; auto. intros ->. discriminate.
Qed.
Lemma token_signable c : token_byte (low c) = true -> c <> COLON /\ (value_byte c /\ ~ WSP c).
Proof.
  intros H. assert (K : forall c, negb (token_byte (low c)) || (negb (c =?c COLON) && negb (c =?c SEMI) && (33 <=? code c)%N && (code c <=? 126)%N) = true).
  { apply byte_sweep. vm_compute. reflexivity. }
  specialize (K c). rewrite H in K. cbn [negb orb] in K. rewrite !andb_true_iff, !negb_true_iff in K. destruct K as (((K1 & K2) & K3) & K4).
  apply ceqb_neq in K1, K2. apply N.leb_le in K3, K4. split; auto. split; [split; auto; split; auto|].
  intros [->| ->]; vm_compute in K3; congruence.
Qed.
Lemma default_signable n w : In w default_headers -> same_name n w = true -> signable_name n.
Proof.
  intros I S. apply default_tokens in I as [NE T]. unfold same_name in S. apply beqb_eq in S. rewrite <- S in T.
  assert (F : Forall (fun c => c <> COLON /\ (value_byte c /\ ~ WSP c)) n).
  { apply Forall_forall. intros c IC. apply token_signable. rewrite forallb_forall in T. apply T. apply in_map. auto. }
  rewrite Forall_forall in F. split; [|split].
  - intros ->. destruct w; [congruence|discriminate].
  - split.
    + destruct n as [|c n]; [exact I|]. cbn. apply (F c). left; auto.
    + unfold last_ok. destruct (rev n) as [|c r] eqn:R; [exact I|]. cbn. apply (F c). apply in_rev. rewrite R. left; auto.
  - apply Forall_forall. intros c IC. apply F in IC as (A & B & _). auto.
Qed.
Lemma tool_fields a q hs : (exists h, In h hs /\ same_name (h_name h) (str "from") = true) -> sound_fields h_name (tool_options a q) hs.
Proof.
  intros (h & IN & S). constructor.
  - intros h0 _ [_ [X|(w & I & SW)]]; [discriminate X|]. eapply default_signable; eauto.
  - intros n [].
  - left. exists h. split; auto. split; auto. split.
    + intros X. rewrite X in S. discriminate.
    + right. exists (str "from"). split; auto. left. reflexivity.
Qed.

(** No NUL in the text, so writing it with %s loses nothing. *)
Lemma nul_LWSP w : Forall LWSP w -> ~ In (chr 0) w.
Proof. rewrite Forall_forall. intros F I. apply F in I as [X|[X|[X|X]]]; discriminate. Qed.
Lemma nul_value v : tag_value v -> ~ In (chr 0) v.
Proof.
  intros (F & _) I. rewrite Forall_forall in F. apply F in I as [[[A _] _]|[X|[X|[X|X]]]]; try discriminate. vm_compute in A. congruence.
Qed.
Lemma nul_name n : tag_name n -> ~ In (chr 0) n.
Proof.
  intros [_ F] I. rewrite Forall_forall in F. apply F in I as [[A _]|[[A _]|[[A _]|A]]]; [vm_compute in A; congruence..|discriminate].
Qed.
Lemma nul_tags l t : rendered_tags l t -> ~ In (chr 0) t.
Proof.
  assert (E : EQUALS <> chr 0) by discriminate. assert (S : SEMI <> chr 0) by discriminate.
  induction 1; intros I; repeat (first [apply in_app_or in I as [I|I]|destruct I as [I|I]; [congruence|]]);
    solve [revert I; solve [apply nul_LWSP; assumption|apply nul_value; assumption|apply nul_name; assumption|assumption]].
Qed.

(** ** Running the program *)
Lemma tool_sign_parts C strict clock a k t txt : tool_sign C strict clock a (Some k) (Some t) = (txt, Exit 0) ->
  exists q y H, chain C (tool_ops a k) new_options = Ok (tool_options a q) /\
    CreateSignature C strict clock (tool_options a q) (new_signatory (open_str t)) = (y, Ok H) /\ txt = c_str H ++ CRLF /\
    so_domain q = a_domain a /\ so_selector q = a_selector a /\ dotted (a_domain a) /\ dotted (a_selector a).
Proof.
  unfold tool_sign. destruct (chain C (tool_ops a k) new_options) as [o|x|x|] eqn:CH; cbn [obind]; [|destruct x; discriminate|discriminate..].
  destruct (chain_facts C a k o CH) as (q & -> & ED & ES & D & S & _). cbn [open_file].
  destruct (CreateSignature C strict clock (tool_options a q) (new_signatory (open_str t))) as [y [H|x|x|]] eqn:CS; cbn [snd]; [|destruct x; discriminate|discriminate..].
  intros E. apply (f_equal fst) in E. cbn [fst] in E. exists q, y, H. auto 10.
Qed.
Lemma tool_one C strict clock a q t y H m s : parse_all new_message (open_str t) = Ok (m, s) ->
  CreateSignature C strict clock (tool_options a q) (new_signatory (open_str t)) = (y, Ok H) ->
  Forall (sound_options strict (tool_options a q)) (all_signatures (tool_options a q)) -> sound_fields h_name (tool_options a q) (m_headers m) ->
  exists hashed bh T B c x hv, produced C strict (tool_options a q) (clock 0) hashed (signed_names (tool_options a q) m) bh q H T B c x hv.
Proof.
  intros PA CS SO SF. destruct (create_spec _ _ _ _ _ _ _ _ _ PA CS) as (b & out & outs & Hs & MB & CB & LIM & FO & PN & PO & EH & F2).
  change (numbered (rev (all_signatures (tool_options a q)))) with [(0, q)] in F2. inversion F2 as [|? ? ? ? OS F3]; subst. inversion F3; subst.
  cbn [fst snd] in OS. cbn [joined]. apply Forall_inv in SO.
  destruct (one_signature_produced _ _ _ _ _ _ _ _ _ OS (po_named _ _ (plain_sound _ _ _ SO)) (signed_names_signable _ _ SF)) as (T & B & c & x & hv & P). do 7 eexists. exact P.
Qed.
Lemma produced_no_nul C strict o now hashed names bh q H T B c x hv : produced C strict o now hashed names bh q H T B c x hv -> x <> [] -> c_str H = H.
Proof.
  intros P NX. apply c_str_id. pose proof (pr_tags _ _ _ _ _ _ _ _ _ _ _ _ _ _ P NX) as RT. apply nul_tags in RT.
  destruct (pr_begin _ _ _ _ _ _ _ _ _ _ _ _ _ _ P) as (v & ET & _). rewrite (pr_split _ _ _ _ _ _ _ _ _ _ _ _ _ _ P), ET, <- app_assoc in RT |- *.
  cbn [app] in RT |- *. rewrite skip_name in RT. intros I. apply in_app_or in I as [I|[I|I]]; [|discriminate|auto].
  unfold field_name in I. destruct (o_arc o =? 0)%N; vm_compute in I; intuition discriminate.
Qed.
(** The first line for a file whose first signature is [h]. *)
Lemma first_line C strict clock resolve fs ty f more n e t v h r : fs f = Some t -> new_validatory strict ty (open_str t) = Ok v -> v_sigs v = h :: r ->
  forall v1 e1 g p o rep, try_one C strict (clock n) resolve h e v = (v1, e1, g, p, o) -> report_of p o = inl rep ->
  exists ls x, tool_files C strict clock resolve fs ty (f :: more) n e = (mkLine f (sg_domain g) (sg_selector g) rep :: ls, x).
Proof.
  intros F N S v1 e1 g p o rep T R. cbn [tool_files]. rewrite F. cbn [open_file]. rewrite N, S. cbn [tool_sigs]. rewrite T, R.
  destruct (tool_sigs C strict clock resolve f r v1 (Datatypes.S n) e1) as [[[ls n'] e'] x]. destruct x as [x|]; eauto.
  destruct (tool_files C strict clock resolve fs ty more n' e') as [ls' e2]. exists (ls ++ ls'), e2. reflexivity.
Qed.
Lemma tool_round_trip C strict clock a k t txt o p r clock2 resolve fs f more :
  tool_sign C strict clock a (Some k) (Some t) = (txt, Exit 0) -> ~ starts_wsp t -> has_from t -> (a_instance a <= 50)%N ->
  chain C (tool_ops a k) new_options = Ok o -> serves C o (o_main o) p -> PublicKey_Parse C strict r new_public_key = (p, Ok tt) ->
  resolve (a_selector a ++ str "._domainkey." ++ map low (a_domain a)) = Ok (true, r) -> r <> [] ->
  fs f = Some (txt ++ t) -> small_fields (txt ++ t) -> (clock2 0%nat <= clock 0%nat + 1)%Z ->
  exists ls x, tool_files C strict clock2 resolve fs (tool_type a) (f :: more) 0 false = (mkLine f (map low (a_domain a)) (a_selector a) R_OK :: ls, x).
Proof.
  intros TS NW (m & s & h0 & PA & IN & FR) AI CH SV KP RS NR FF B CL.
  destruct (tool_sign_parts _ _ _ _ _ _ _ TS) as (q & y & H & CH' & CS & ET & ED & ES & D & S). rewrite CH' in CH. apply Ok_inj in CH. subst o.
  pose proof (tool_sound strict a q ED ES D S AI) as SO. pose proof (tool_fields a q (m_headers m) (ex_intro _ h0 (conj IN FR))) as SF.
  destruct (tool_one _ _ _ _ _ _ _ _ _ _ PA CS SO SF) as (hashed & bh & T & Bv & c & x & hv & P).
  destruct (make_nonempty _ _ _ _ _ _ SV (pr_sign _ _ _ _ _ _ _ _ _ _ _ _ _ _ P)) as [NX _].
  rewrite (produced_no_nul _ _ _ _ _ _ _ _ _ _ _ _ _ _ P NX) in ET. subst txt.
  destruct (round_trip _ _ _ _ _ _ _ _ _ NW PA CS SO SF) as (v & fields & EV & EH & _ & EVS & LF & K).
  destruct (K 0 q eq_refl) as (h & NH & J). rewrite <- app_assoc in FF, B.
  assert (SM : small_field h).
  { pose proof (new_validatory_spec _ _ _ _ EV) as (m2 & s2 & P2 & _ & _ & ES2). apply nth_error_In in NH. rewrite ES2 in NH. apply filter_In in NH as [NH _].
    destruct (small_message _ _ _ _ P2 NH B) as [_ X]. exact X. }
  edestruct (J v p (clock2 0) false) as (v2 & g & e1 & GS & CK & E1 & E2 & E3 & _); auto.
  { apply in_use_fresh. exact EV. }
  assert (XS : exists r0, v_sigs v = h :: r0). { destruct (v_sigs v) as [|h1 r0]; [discriminate NH|]. injection NH as ->. eauto. }
  destruct XS as (r0 & XS). rewrite <- ED, <- ES, <- E1, <- E2.
  apply (first_line C strict clock2 resolve fs (tool_type a) f more 0 false _ v h r0 FF EV XS v2 e1 g p (Ok tt)); [|reflexivity].
  unfold try_one. rewrite GS. cbn [fst snd]. unfold GetPublicKey. rewrite E3, ED, ES, RS. cbn [slift].
  destruct r as [|c0 r]; [congruence|]. rewrite KP, CK. reflexivity.
Qed.
Lemma tool_expired C clock a k t txt clock2 resolve fs f more : signs_something C ->
  tool_sign C false clock a (Some k) (Some t) = (txt, Exit 0) -> ~ starts_wsp t -> has_from t -> (a_instance a <= 50)%N ->
  fs f = Some (txt ++ t) -> (0 <= clock 0%nat)%Z -> (clock 0%nat + 1 < clock2 0%nat <= LONG_MAX)%Z ->
  exists d s ls x, tool_files C false clock2 resolve fs (tool_type a) (f :: more) 0 false = (mkLine f d s (R_PERM AR_PERMERROR) :: ls, x).
Proof.
  intros SG TS NW (m & s & h0 & PA & IN & FR) AI FF C0 CL.
  destruct (tool_sign_parts _ _ _ _ _ _ _ TS) as (q & y & H & CH' & CS & ET & ED & ES & D & S).
  pose proof (tool_sound false a q ED ES D S AI) as SO. pose proof (tool_fields a q (m_headers m) (ex_intro _ h0 (conj IN FR))) as SF.
  destruct (tool_one _ _ _ _ _ _ _ _ _ _ PA CS SO SF) as (hashed & bh & T & Bv & c & x & hv & P).
  pose proof (make_something _ _ _ _ _ SG (pr_sign _ _ _ _ _ _ _ _ _ _ _ _ _ _ P)) as NX.
  rewrite (produced_no_nul _ _ _ _ _ _ _ _ _ _ _ _ _ _ P NX) in ET. subst txt. rewrite <- app_assoc in FF.
  destruct (signed_parts _ _ _ _ _ _ _ _ _ NW PA CS (plain_sounds _ _ _ SO) (signed_names_signable _ _ SF)) as (b & out & outs & Hs & m' & SM).
  destruct (round_trip _ _ _ _ _ _ _ _ _ NW PA CS SO SF) as (v & fields & EV & EH & _ & EVS & LF & K).
  assert (X : fields = [H]). { destruct fields as [|f1 [|f2 fl]]; try discriminate LF. cbn [joined] in EH. congruence. }
  subst fields. cbn [map app] in EVS.
  pose proof (produced_announces _ _ _ _ _ _ _ _ _ _ _ _ _ _ P NX (plain_sound _ _ _ (Forall_inv SO))) as AN.
  assert (PE : snd (Signature_Parse C false (clock2 0) (header_of H) (new_signature, false)) = perm).
  { apply (parse_expired C (clock2 0) (header_of H) false (sig_tag_list (tool_options a q) q (clock 0) hv bh Bv) (fmt_lu_time (clock 0%nat + 1))).
    - exact (an_tags _ _ _ _ _ _ AN).
    - exact (an_x _ _ _ _ _ _ AN eq_refl).
    - unfold LONG_MIN. lia.
    - left. exists false, (dec_value (fmt_lu_time (clock 0%nat + 1))). split; [apply starts_digits, fmt_lu_digits|].
      unfold fmt_lu_time. rewrite fmt_lu_value. unfold ULONG_MAX, LONG_MAX, l_value in *. cbn in *. rewrite Z.mod_small; lia. }
  destruct (Signature_Parse C false (clock2 0) (header_of H) (new_signature, false)) as [[g e1] o] eqn:SP. cbn [snd] in PE. subst o.
  exists (sg_domain g), (sg_selector g). 
  apply (first_line C false clock2 resolve fs (tool_type a) f more 0 false _ v (header_of H) _ FF EV EVS v e1 g new_public_key perm); [|reflexivity].
  unfold try_one, GetSignature. rewrite SP. reflexivity.
Qed.
