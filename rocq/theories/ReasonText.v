(** The output of the verifying tool, byte by byte, is one of those that C80 speaks of (for C80 and C96). *)
From Verif Require Import Bytes Outcome Stream Tokenizer QuotedPrintable Base64 TagList MailParser Canonicalization Util
  CStdlib Crypto Signature PublicKey Validatory Tool ToolText ErrorText Reasons BytesFacts SpecText SpecTags SpecMail SpecCanon SpecVerify SpecSig SpecParse SpecKey SpecError SpecReason SpecReport
  StreamFacts TokenizerFacts ListFacts ListWide MailFacts TagListFacts HeaderFacts HeaderProps LoneFacts SelectFacts SigFacts SigProps KeyFacts VerifyFacts VerifyProps SignMail TransitFacts ErrorFacts ErrorList ErrorQP ErrorTags ErrorCases
  ReportFacts ReasonFacts ReasonSig ReasonKeys ReasonCheck ShownFacts.
Local Open Scope string_scope. Local Open Scope list_scope.

(** ** Texts of fixed words *)
Definition word_byte (c : ascii) : bool := (32 <=? code c)%N && (code c <=? 126)%N.
Definition words (s : bytes) : bool := forallb word_byte s && match rev s with c :: _ => negb (c =?c KC) | [] => true end.
Lemma word_byte_iff c : word_byte c = true <-> printable c \/ c = SP.
Proof.
  unfold word_byte, printable, between. rewrite andb_true_iff, !N.leb_le. split.
  - intros [A B]. destruct (N.eq_dec (code c) 32) as [E|E]; [right|left; lia]. rewrite <- (chr_code c), E. reflexivity.
  - intros [[A B]| ->]; [lia|]. vm_compute. split; discriminate.
Qed.
Lemma words_wording s : words s = true -> wording s.
Proof.
  unfold words, wording, last_ok. rewrite andb_true_iff, forallb_forall. intros [A B]. split.
  - apply Forall_forall. intros c I. apply word_byte_iff. auto.
  - destruct (rev s); cbn; auto. apply negb_true_iff, ceqb_neq in B. exact B.
Qed.
Lemma bytes_of a : forallb word_byte a = true -> Forall (fun c => printable c \/ c = SP) a.
Proof. rewrite forallb_forall. intros A. apply Forall_forall. intros c I. apply word_byte_iff. auto. Qed.
Lemma wording_app a b : Forall (fun c => printable c \/ c = SP) a -> b <> [] -> wording b -> wording (a ++ b).
Proof. intros A NE [B L]. split; [apply Forall_app; auto|]. apply last_ok_app; auto. Qed.
Lemma digits_wording d k : dec_shown d k -> wording d /\ d <> [].
Proof.
  intros ([NE F] & _). split; [|exact NE]. split.
  - eapply Forall_impl; [|exact F]. unfold between, printable, between. cbn. intros c. lia.
  - apply Forall_rev in F. unfold last_ok. destruct (rev d) as [|c r]; cbn; auto. inversion F as [|? ? B ?]; subst. intros ->. vm_compute in B. destruct B as [_ B]. apply B. reflexivity.
Qed.
Lemma low_hex_word c v : low_hex c v -> printable c \/ c = SP.
Proof. intros [[L ->]|[L ->]]; left; unfold printable, between; rewrite code_chr by lia; lia. Qed.
Lemma hex_words h c : hex_shown h c -> Forall (fun c => printable c \/ c = SP) h.
Proof. intros [(_ & d & -> & L)|(_ & d & e & -> & L & M)]; repeat (apply Forall_cons; [eapply low_hex_word; eassumption|]); apply Forall_nil. Qed.
Lemma byte_at_wording a b m c k : forallb word_byte (str a) = true -> forallb word_byte (str b) = true -> byte_at a b m c k -> wording m.
Proof.
  intros A B (h & d & -> & H & D). destruct (digits_wording _ _ D) as [W NE].
  apply wording_app; [apply bytes_of; exact A|intros E; apply app_eq_nil in E as [_ E]; apply app_eq_nil in E as [_ E]; contradiction|].
  apply wording_app; [eapply hex_words; eauto|intros E; apply app_eq_nil in E as [_ E]; contradiction|].
  apply wording_app; [apply bytes_of; exact B|exact NE|exact W].
Qed.
Lemma at_place_wording a m k : forallb word_byte (str a) = true -> at_place a m k -> wording m.
Proof. intros A (d & -> & D). destruct (digits_wording _ _ D) as [W NE]. apply wording_app; [apply bytes_of; exact A|exact NE|exact W]. Qed.
Ltac fixed_words := apply words_wording; vm_compute; reflexivity.
Ltac placed := match goal with
  | H : byte_at _ _ ?m _ _ |- wording ?m => eapply byte_at_wording; [| |exact H]; vm_compute; reflexivity
  | H : at_place _ ?m _ |- wording ?m => eapply at_place_wording; [|exact H]; vm_compute; reflexivity
  end.
Lemma cr_wording ok t m : cr_say ok t m -> wording m.
Proof. intros [? ? ? _ _ _ B|? _ _ ->]; [placed|fixed_words]. Qed.
Lemma list_wording t m : ValueList_says t = Says m -> wording m.
Proof. intros E. apply list_says_spec in E as [? ? _ _ _ B|X]; [placed|eapply cr_wording; eauto]. Qed.
Lemma quoted_wording us t m : qp_decode_says t us = Says m -> wording m.
Proof. intros E. apply qp_says in E as [? ? ? _ _ _ B|? ? ? _ _ _ _ B|X|? ? ? ? _ _ _ _ _ _ _ B|_ _ ->]; [placed|placed|eapply cr_wording; eauto|placed|fixed_words]. Qed.
Lemma tags_wording l t m : TagList_says l t = Says m -> wording m.
Proof.
  intros E. apply tags_tell in E as [? ? ? ? ? _ _ _ _ _ _ B|? ? ? ? ? ? ? _ _ _ _ _ _ _ B|? ? ? ? ? ? ? ? _ _ _ _ _ _ _ _ B|? ? ? n ? _ _ _ N _ _ ->|? ? ? ? ? _ _ _ _ ->]; [placed|placed|placed| |fixed_words].
  apply wording_app; [apply bytes_of; vm_compute; reflexivity|destruct n; discriminate|]. apply wording_app; [|discriminate|fixed_words].
  destruct N as [_ N]. eapply Forall_impl; [|exact N]. unfold name_byte, printable, between. cbn. intros c [?|[?|[?| ->]]]; left; try lia. vm_compute. split; discriminate.
Qed.

(** ** Stages *)
Lemma stages_worded {S} (l : list ((S -> S * outcome unit) * (S -> option bytes) * (S -> bytes))) :
  Forall (fun x => forall s, thrown (snd (fst (fst x) s)) = true -> worded (snd (fst x) s) (snd x s)) l ->
  forall s m, first_what (map (fun x => (fst (fst x), snd x)) l) s = Some m -> worded (first_why (map fst l) s) m.
Proof.
  induction 1 as [|[[f y] w] l K F IH]; intros s m E; [discriminate|]. cbn [map fst snd first_what first_why] in *.
  specialize (K s). destruct (f s) as [s1 o]. cbn [snd] in K. destruct o as [[]|e|k|]; [eauto| | |]; try discriminate.
  destruct (thrown (Throw e)); [|discriminate]. injection E as <-. auto.
Qed.
Lemma stages_thrown {S} (l : list (stage S)) s : thrown (snd (run_stages (map fst l) s)) = true -> exists m, first_what l s = Some m.
Proof.
  revert s. induction l as [|[f w] l IH]; intros s T; [discriminate|]. cbn [map fst run_stages first_what] in *.
  destruct (f s) as [s1 o]. destruct o as [[]|e|k|]; [apply IH; exact T| | |]; try discriminate.
  change (thrown (Throw e) = true) in T. rewrite T. eauto.
Qed.
Lemma Says_value t v m : te_value t = v -> ValueList_says v = Says m -> wording m.
Proof. intros _. apply list_wording. Qed.
Lemma thrown_perm {S A} (s : S) (m : outcome A) k : thrown (snd (slift s m k)) = true -> (exists a, m = Ok a /\ thrown (snd (k a)) = true) \/ exists e, m = Throw e.
Proof. destruct m; cbn [slift snd]; try discriminate; eauto. Qed.
Lemma list_text v : (exists e, ValueList v = Throw e) -> wording (said (ValueList_says v)).
Proof. intros (e & E). pose proof (same_list v) as L. destruct (ValueList_says v) as [vs|m|] eqn:X; [congruence| |destruct L]. cbn [said]. eapply list_wording; eauto. Qed.

Lemma sig_worded C strict now h st m : Signature_what C strict now h st = Some m -> worded (first_why (sig_stages C strict now h) st) m.
Proof.
  intros E. apply (stages_worded
    [(parse_tags h, no_why, tags_what h); (parse_arc strict (h_name h), no_why, no_what); (parse_d strict, no_why, d_what); (parse_v, v_why, v_what); (parse_a, a_why, a_what);
     (parse_b C strict, no_why, b_what); (parse_bh C strict, no_why, bh_what); (parse_c, c_why, c_what); (parse_h, no_why, h_what); (parse_i strict, i_why, i_what);
     (parse_l, no_why, l_what); (parse_q, q_why, q_what); (parse_s, no_why, s_what); (parse_x now, no_why, x_what)]); [|exact E].
  repeat (apply Forall_cons); [..|apply Forall_nil]; cbn [fst snd]; intros s T; try (unfold no_why; cbn [worded]; fixed_words).
  - unfold no_why, tags_what. cbn [worded]. unfold parse_tags in T. apply thrown_perm in T as [(v & -> & T)|(e & ->)]; [|fixed_words].
    pose proof (same_tags (sg_tags (fst s)) v) as L. destruct (TagList_says (sg_tags (fst s)) v) as [l|x|] eqn:X; [|eapply tags_wording; eauto|destruct L].
    rewrite L in T. discriminate.
  - unfold v_why, v_what. destruct (tag "v" s); cbn [worded]; [reflexivity|fixed_words].
  - unfold a_why, a_what. destruct (tag "a" s); cbn [worded]; [reflexivity|fixed_words].
  - unfold c_why, c_what. destruct (tag "c" s) as [c|]; cbn [worded]; [|fixed_words]. destruct (find_char _ _); reflexivity.
  - unfold no_why, h_what. cbn [worded]. destruct (tag "h" s) as [h0|]; [|fixed_words].
    destruct (ValueList_says (te_value h0)) as [vs|x|] eqn:X; [fixed_words|eapply list_wording; eauto|fixed_words].
  - unfold i_why, i_what. destruct (sg_arc (fst s)) eqn:A; [cbn [worded]; destruct (tag "i" s); fixed_words|].
    destruct (tag "i" s) as [i|]; [|fixed_words]. pose proof (same_quoted false (te_value i)) as L.
    destruct (qp_decode_says (te_value i) false) as [d|x|] eqn:X; [| |destruct L]; rewrite L.
    + destruct (find_char AT d); cbn [worded]; [reflexivity|fixed_words].
    + cbn [worded said]. eapply quoted_wording; eauto.
  - unfold no_why, l_what. cbn [worded]. destruct (tag "l" s) as [l|]; [|fixed_words]. destruct (Nat.ltb _ _); [fixed_words|].
    destruct (strtoul (te_value l)) as [[bs rest] er]. destruct (snd s || er); [fixed_words|]. destruct (_ <=? _)%N; fixed_words.
  - unfold q_why, q_what. destruct (tag "q" s); cbn [worded]; [reflexivity|fixed_words].
Qed.
Lemma key_worded C strict r p m : PublicKey_what C strict r p = Some m -> worded (first_why (key_stages C strict r) p) m.
Proof.
  intros E. apply (stages_worded
    [(key_tags r, no_why, key_tags_what r); (key_v, key_v_why, key_v_what); (key_h, no_why, key_h_what); (key_k, key_k_why, key_k_what);
     (key_p C strict, no_why, key_p_what C strict); (key_s, no_why, key_s_what); (key_t, no_why, key_t_what)]); [|exact E].
  repeat (apply Forall_cons); [..|apply Forall_nil]; cbn [fst snd]; intros s T.
  - unfold no_why, key_tags_what. cbn [worded]. unfold key_tags in T.
    pose proof (same_tags (pk_tags s) r) as L. destruct (TagList_says (pk_tags s) r) as [l|x|] eqn:X; [|eapply tags_wording; eauto|destruct L].
    rewrite L in T. discriminate.
  - unfold key_v_why, key_v_what. destruct (ktag "v" s); cbn [worded]; [reflexivity|fixed_words].
  - unfold no_why, key_h_what, list_what. cbn [worded]. unfold key_h in T. destruct (ktag "h" s) as [e|]; [|fixed_words].
    destruct (te_value e) as [|c v]; [fixed_words|]. apply thrown_perm in T as [(vs & _ & T)|X]; [discriminate|apply list_text; exact X].
  - unfold key_k_why, key_k_what. destruct (ktag "k" s); cbn [worded]; [reflexivity|fixed_words].
  - unfold no_why, key_p_what. cbn [worded]. destruct (ktag "p" s) as [e|]; [|fixed_words].
    destruct (te_value e) as [|c v]; [fixed_words|]. destruct (strip_space strict (c :: v)); try fixed_words. destruct (pk_alg s); [|fixed_words].
    destruct (c_d2i_pubkey C _); fixed_words.
  - unfold no_why, key_s_what, list_what. cbn [worded]. unfold key_s in T. destruct (ktag "s" s) as [e|]; [|fixed_words].
    destruct (te_value e) as [|c v]; [fixed_words|]. apply thrown_perm in T as [(vs & _ & T)|X]; [discriminate|apply list_text; exact X].
  - unfold no_why, key_t_what. cbn [worded]. unfold key_t in T. destruct (ktag "t" s) as [e|]; [|fixed_words].
    apply thrown_perm in T as [(vs & _ & T)|X]; [discriminate|apply list_text; exact X].
Qed.

(** ** CheckSignature *)
Lemma filter_worded strict mode t e : FilterHeader strict mode t = Throw e -> worded (filter_why t) (filter_what strict t).
Proof.
  destruct mode; [discriminate|]. unfold filter_why. destruct (find_char COLON t) as [k|] eqn:FC; [|unfold filter_what; rewrite FC; reflexivity].
  intros E. assert (X : FilterHeader false RELAXED t = Throw e /\ filter_what strict t = filter_what false t).
  { unfold FilterHeader, filter_what in *. rewrite FC in *. unfold lower_str in *. cbn [andb] in *. destruct (strict && _); [discriminate|]. auto. }
  destruct X as [X ->]. cbn [worded]. destruct (FilterHeader_exact t) as [[P _]|((out & P) & _)]; [|rewrite X in P; discriminate P].
  assert (IC : In COLON t) by (destruct (in_dec ascii_dec COLON t) as [I|I]; [exact I|apply find_char_None in I; congruence]).
  apply filter_says in P as [? N _|? ? ? ? ? _ _ _ _ _ B|? _ _ _]; [contradiction|placed|fixed_words].
Qed.
Lemma hash_worded strict mode names : forall c,
  match hash_headers strict mode names c with
  | Ok _ => hash_why strict mode names c = None
  | Throw _ => exists m, hash_what strict mode names c = Some m /\ worded (hash_why strict mode names c) m
  | _ => True
  end.
Proof.
  induction names as [|n r IH]; intros c; cbn [hash_headers hash_why hash_what]; [reflexivity|].
  unfold lower_str at 1 2 3. destruct (strict && existsb is_8bit n) eqn:B; cbn [obind]; [exact I|].
  assert (lower_str strict n = Ok (lower n)) as L by (unfold lower_str; rewrite B; reflexivity). rewrite ?L.
  destruct (cache_pop (lower n) c) as [[h c1]|]; [|apply IH]. specialize (IH c1).
  destruct (FilterHeader strict mode (h_text h)) as [x|e| |] eqn:F; cbn [obind]; [|eexists; split; [reflexivity|eapply filter_worded; eauto]|exact I|exact I].
  destruct (hash_headers strict mode r c1); cbn [obind]; exact IH.
Qed.
Lemma check_worded C strict h g p v : In COLON (firstn (h_voff h) (h_text h)) ->
  match CheckSignature C strict h g p v with Ok _ | Throw _ => True | _ => False end ->
  worded (check_why strict g p v) (text_of (CheckSignature_what C strict h g p v)).
Proof.
  intros HC N. unfold check_why, CheckSignature_what, CheckSignature in *. unfold key_allows in N |- *.
  destruct (match pk_digests p with [] => true | l => existsb (digest_eqb (sg_digest g)) l end); cbn [andb negb] in *; [|cbn [text_of worded]; fixed_words].
  destruct (sig_alg_eqb (sg_alg g) (pk_alg p)); cbn [andb negb] in *; [|cbn [text_of worded]; fixed_words].
  destruct (sg_arc g || negb (memb (str "s") (pk_flags p)) || beqb (sg_domain g) (sg_mdomain g)); cbn [andb negb] in *; [|cbn [text_of worded]; fixed_words].
  unfold signed_data, signed_what in *. destruct (build_cache strict (m_headers (v_msg v)) []) as [c|e|k|]; cbn [obind] in *; try destruct N; [|cbn; fixed_words].
  pose proof (hash_worded strict (sg_chead g) (sg_headers g) c) as H.
  destruct (hash_headers strict (sg_chead g) (sg_headers g) c) as [d|e|k|]; cbn [obind] in *; try destruct N;
    [|destruct H as (m & -> & W); exact W]. rewrite H.
  destruct (substr_from (h_text h) (h_voff h)) as [val|e|k|]; cbn [obind] in *; try destruct N; [|cbn; fixed_words].
  destruct (strip_b g val) as [val1|e|k|]; cbn [obind] in *; try destruct N; [|cbn; fixed_words].
  destruct (FilterHeader strict (sg_chead g) (firstn (h_voff h) (h_text h) ++ val1)) as [x|e|k|] eqn:F; cbn [obind] in *; try destruct N.
  - destruct (thrown _); cbn; fixed_words.
  - cbn [text_of]. apply filter_worded in F. unfold filter_why in F. destruct (find_char COLON (firstn (h_voff h) (h_text h) ++ val1)) eqn:FC; [exact F|].
    apply find_char_None in FC. exfalso. apply FC. apply in_or_app. auto.
Qed.

(** ** The try block and the loops *)
Lemma reported p o rep : report_of p o = inl rep -> match o with Ok _ => True | Throw _ => thrown o = true | _ => False end.
Proof. destruct o as [[]|[]| |]; cbn; auto; discriminate. Qed.
Lemma sig_said C strict now h st : thrown (snd (Signature_Parse C strict now h st)) = true -> exists m, Signature_what C strict now h st = Some m.
Proof. intros T. apply stages_thrown. rewrite <- ReasonSig.sig_texts_run. exact T. Qed.
Lemma key_said C strict r p : thrown (snd (PublicKey_Parse C strict r p)) = true -> exists m, PublicKey_what C strict r p = Some m.
Proof. intros T. apply stages_thrown. rewrite <- ReasonKeys.key_texts_run. exact T. Qed.
Lemma public_worded C strict resolve g p o : GetPublicKey C strict resolve g new_public_key = (p, o) -> thrown o = true ->
  worded (public_why C strict resolve g) (text_of (GetPublicKey_what C strict resolve g new_public_key)).
Proof.
  unfold GetPublicKey, public_why, GetPublicKey_what. intros E T. destruct (resolve (key_query g)) as [[[] [|c r]]| | |]; cbn [slift] in E; try reflexivity; try (cbn; fixed_words).
  destruct (key_said C strict (c :: r) new_public_key) as (m & M); [rewrite E; exact T|]. rewrite M. cbn [text_of]. apply key_worded. exact M.
Qed.
Lemma try_worded C strict now resolve h e v v1 e1 g p o rep : In COLON (firstn (h_voff h) (h_text h)) ->
  try_one C strict now resolve h e v = (v1, e1, g, p, o) -> report_of p o = inl rep ->
  worded (try_why C strict now resolve h e v) (text_of (try_what C strict now resolve h e v)).
Proof.
  intros HC E R. apply reported in R. unfold try_one, try_why, try_what, GetSignature_what in *. unfold GetSignature in *.
  destruct (Signature_Parse C strict now h (new_signature, e)) as [[g0 e0] r] eqn:P.
  assert (SW : thrown r = true -> worded (first_why (sig_stages C strict now h) (new_signature, e)) (text_of (Signature_what C strict now h (new_signature, e)))).
  { intros T. destruct (sig_said C strict now h (new_signature, e)) as (m & M); [rewrite P; exact T|]. rewrite M. cbn [text_of]. apply sig_worded. exact M. }
  destruct r as [[]|x|k|]; try (injection E as <- <- <- <- <-; try contradiction; apply SW; exact R). clear SW.
  cbn [fst snd] in *. destruct (CheckBodyHash C g0 v) as [v' o'] eqn:B.
  destruct o' as [[]|x|k|]; try (injection E as <- <- <- <- <-; try contradiction; unfold CheckBodyHash_what; rewrite B; cbn [snd]; rewrite R; cbn; fixed_words).
  cbv beta iota in E |- *. cbn [fst snd] in E |- *. destruct (GetPublicKey C strict resolve g0 new_public_key) as [p' o''] eqn:K.
  destruct o'' as [[]|x|k|]; injection E as <- <- <- <- <-; try contradiction.
  - apply check_worded; [exact HC|]. destruct (CheckSignature C strict h g0 p' v'); auto.
  - eapply public_worded; eauto.
Qed.
Lemma sigs_printing C strict clock resolve name hs : Forall (fun h => In COLON (firstn (h_voff h) (h_text h))) hs -> forall v n e ls n' e' x,
  tool_sigs C strict clock resolve name hs v n e = (ls, n', e', x) ->
  printing ls (sigs_why C strict clock resolve hs v n e) (sigs_text C strict clock resolve name hs v n e).
Proof.
  induction 1 as [|h hs HC F IH]; intros v n e ls n' e' x E; cbn [tool_sigs sigs_why sigs_text] in *; [injection E as <- _ _ _; constructor|].
  destruct (try_one C strict (clock n) resolve h e v) as [[[[v1 e1] g] p] o] eqn:T.
  destruct (report_of p o) as [rep|y] eqn:R; [|injection E as <- _ _ _; constructor].
  destruct (tool_sigs C strict clock resolve name hs v1 (S n) e1) as [[[ls1 n1] e2] x1] eqn:Q. injection E as <- _ _ _. constructor.
  - eapply try_worded; eauto.
  - eapply IH; eauto.
Qed.
Lemma collect_named strict wanted hs l : collect strict wanted hs = Ok l -> Forall (fun h => lower (h_name h) = wanted) l.
Proof.
  revert l. induction hs as [|h r IH]; cbn [collect]; intros l E; [injection E as <-; constructor|].
  destruct (lower_str strict (h_name h)) as [n| | |] eqn:L; try discriminate. cbn [obind] in E. apply lower_str_Ok in L as [-> _].
  destruct (collect strict wanted r) as [l'| | |]; try discriminate. cbn [obind] in E. injection E as <-.
  destruct (beqb _ wanted) eqn:B; [constructor; [apply beqb_eq; exact B|]|]; apply IH; reflexivity.
Qed.
Lemma named_colon_in h : h = header_of (h_text h) -> lower (h_name h) <> [] -> In COLON (firstn (h_voff h) (h_text h)).
Proof.
  unfold header_of. destruct (find_char COLON (h_text h)) as [k|] eqn:FC; intros -> N; cbn [h_name h_voff h_text] in *; [|exfalso; apply N; reflexivity].
  apply find_char_Some in FC as (pre & post & -> & <- & _). rewrite <- (Nat.add_1_r (length pre)), firstn_app_2. apply in_or_app. right. left. reflexivity.
Qed.
Lemma opened_colon strict ty f v : new_validatory strict ty (open_file f) = Ok v -> Forall (fun h => In COLON (firstn (h_voff h) (h_text h))) (v_sigs v).
Proof.
  intros E. unfold new_validatory in E. destruct f as [t|]; cbn [open_file] in E.
  - destruct (parse_all new_message (open_str t)) as [[m s]| | |] eqn:P; try discriminate. cbn [obind] in E.
    pose proof (parsed_header_of _ _ _ P) as F.
    destruct ty; [| |injection E as <-; constructor];
      match type of E with obind ?c _ = _ => destruct c as [l| | |] eqn:K; try discriminate end; cbn [obind] in E; injection E as <-; cbn [v_sigs];
      pose proof (collect_incl _ _ _ _ K) as I; apply collect_named in K; rewrite Forall_forall in *; intros h J; apply named_colon_in; auto; rewrite (K h J); discriminate.
  - match type of E with obind ?c _ = _ => destruct c as [[m s]| | |] eqn:P end; try discriminate.
    vm_compute in P. injection P as <- <-. cbn [obind] in E. destruct ty; cbn in E; injection E as <-; constructor.
Qed.
Lemma printing_app l1 y1 o1 : printing l1 y1 o1 -> forall l2 y2 o2, printing l2 y2 o2 -> printing (l1 ++ l2) (y1 ++ y2) (o1 ++ o2).
Proof. induction 1 as [|l ls y ys w out W P IH]; intros l2 y2 o2 Q; [exact Q|]. cbn [app]. rewrite <- app_assoc. constructor; auto. Qed.
Lemma files_printing C strict clock resolve fs ty names : forall n e ls x,
  tool_files C strict clock resolve fs ty names n e = (ls, x) ->
  printing ls (files_why C strict clock resolve fs ty names n e) (files_text C strict clock resolve fs ty names n e).
Proof.
  induction names as [|f r IH]; intros n e ls x E; cbn [tool_files files_why files_text] in *; [injection E as <- _; constructor|].
  destruct (new_validatory strict ty (open_file (fs f))) as [v| | |] eqn:V; try (injection E as <- _; constructor).
  destruct (tool_sigs C strict clock resolve f (v_sigs v) v n e) as [[[ls1 n1] e1] x1] eqn:S.
  pose proof (sigs_printing _ _ _ _ _ _ (opened_colon _ _ _ _ V) _ _ _ _ _ _ _ S) as P1. destruct x1 as [y|].
  - injection E as <- _. rewrite !app_nil_r. exact P1.
  - destruct (tool_files C strict clock resolve fs ty r n1 e1) as [ls2 x2] eqn:R. injection E as <- _. apply printing_app; [exact P1|]. eapply IH; eauto.
Qed.
Theorem main_printing C strict clock resolve fs args ls x : tool_main C strict clock resolve fs args = (P_lines ls, x) ->
  printing ls (main_why C strict clock resolve fs args) (main_text C strict clock resolve fs args).
Proof.
  unfold tool_main, main_why, main_text. intros E. destruct args as [|a0 args]; [discriminate|].
  destruct (getopt (a0 :: args)) as [es files]. destruct (take_options es new_args) as [a|y]; [|destruct y as [[|?]| | |]; discriminate].
  destruct files as [|f fr]; [discriminate|].
  destruct (a_validate a); [|match type of E with (if ?b then _ else _) = _ => destruct b; [discriminate|] end; destruct (tool_sign _ _ _ _ _ _) as [[|? ?] ?]; discriminate].
  destruct (tool_files C strict clock resolve fs (a_type a) (f :: fr) 0 (a_errno a)) as [ls' e] eqn:T. injection E as <- _. eapply files_printing; eauto.
Qed.
(** ** What C80 says of the output *)
Lemma ok_printed C strict clock resolve fs args ls x f d s : (forall q r, resolve q = Ok (true, r) -> ~ In LF r) -> Forall (fun a => ~ In LF a) args ->
  tool_main C strict clock resolve fs args = (P_lines ls, x) -> line_of (main_text C strict clock resolve fs args) (ok_line f d s) ->
  ~ In "]"%char f -> ~ In "]"%char d -> ~ In "]"%char s -> In (mkLine f d s R_OK) ls.
Proof. intros RS F E L. eapply ok_reported; eauto. eapply main_printing; eauto. Qed.
