(** Which undefined behaviour signing can reach. *)
From Verif Require Import Bytes Outcome Stream Tokenizer MailParser Canonicalization Util Crypto SignatoryOptions Signatory OptionsFacts.

(** The only undefined behaviour [o] can be is of the kinds [P]. *)
Definition only {A} (P : ub_kind -> Prop) (o : outcome A) : Prop := forall k, o = UB k -> P k.
Lemma only_ok {A} P (a : A) : only P (Ok a). Proof. intros k; discriminate. Qed.
Lemma only_throw {A} P e : only P (Throw e : outcome A). Proof. intros k; discriminate. Qed.
Lemma only_perm {A} P : only P (perm : outcome A). Proof. apply only_throw. Qed.
Lemma only_diverge {A} P : only P (Diverge : outcome A). Proof. intros k; discriminate. Qed.
Lemma only_bind {A B} P (m : outcome A) (f : A -> outcome B) : only P m -> (forall a, m = Ok a -> only P (f a)) -> only P (obind m f).
Proof. intros M F k. destruct m; cbn [obind]; try discriminate; [intros E; eapply F; eauto|]. intros [= <-]. apply M. reflexivity. Qed.
Lemma only_weaken {A} (P Q : ub_kind -> Prop) (o : outcome A) : (forall k, P k -> Q k) -> only P o -> only Q o.
Proof. intros W O k E. apply W, O, E. Qed.
Definition never (k : ub_kind) : Prop := False.
Global Hint Resolve only_ok only_throw only_perm only_diverge : only.

Ltac cases := repeat first [apply only_ok | apply only_throw | apply only_perm | apply only_diverge
  | match goal with |- only _ (let '(_, _) := ?x in _) => destruct x
                  | |- only _ (match ?x with _ => _ end) => destruct x end].
Lemma read_crlf_only s : only never (read_crlf s).
Proof. unfold read_crlf. cases. Qed.
Lemma read_wsps_only f : forall s acc, only never (read_wsps f s acc).
Proof. induction f as [|f IH]; intros s acc; cbn [read_wsps]; [apply only_diverge|]. destruct (read_wsp s) as [[|c t] s1]; auto with only. Qed.
Lemma read_fws_only s : only never (read_fws s).
Proof.
  unfold read_fws. apply only_bind; [apply read_wsps_only|]. intros [w s1] _. apply only_bind; [apply read_crlf_only|]. intros [[|c t] s2] _; [apply only_ok|].
  destruct (read_wsp s2) as [[|d t2] s3]; [apply only_ok|apply read_wsps_only].
Qed.
Lemma skip_fws_only f : forall s, only never (skip_fws f s).
Proof. induction f as [|f IH]; intros s; cbn [skip_fws]; [apply only_diverge|]. apply only_bind; [apply read_fws_only|]. intros [[|c w] s1] _; auto with only. Qed.
Lemma fh_loop_only f : forall s x, only never (fh_loop f s x).
Proof.
  induction f as [|f IH]; intros s x; cbn [fh_loop]; [apply only_diverge|]. apply only_bind; [apply read_fws_only|]. intros [w s1] _.
  apply only_bind; [destruct w; [apply only_ok|apply skip_fws_only]|]. intros s2 _. destruct (peek s2) as [[o|] s3]; [|apply only_ok]. destruct (get s3). apply IH.
Qed.
Definition ctype (strict : bool) (k : ub_kind) : Prop := k = UB_ctype /\ strict = true.
Lemma lower_str_only strict s : only (ctype strict) (lower_str strict s).
Proof. unfold lower_str. destruct strict; cbn [andb]; [|apply only_ok]. destruct (existsb is_8bit s); [|apply only_ok]. intros k [= <-]. split; auto. Qed.
Lemma never_any {A} P (o : outcome A) : only never o -> only P o.
Proof. apply only_weaken. intros k []. Qed.
Lemma FilterHeader_only strict m t : only (ctype strict) (FilterHeader strict m t).
Proof.
  unfold FilterHeader. destruct m; [apply only_ok|]. destruct (find_char COLON t); [|apply only_perm]. apply only_bind; [apply lower_str_only|]. intros name _. cbv zeta.
  apply only_bind; [apply never_any, fh_loop_only|]. intros x _. destruct (find_char COLON x); [|apply only_perm]. cases.
Qed.
Lemma parse_loop_only f : forall m s, only never (parse_loop f m s).
Proof. induction f as [|f IH]; intros m s; cbn [parse_loop]; [apply only_diverge|]. destruct (Message_ParseLine m s) as [[ok m1] s1]. destruct (ok && _); auto with only. Qed.
Lemma body_loop_only c m l f : forall s z p n e k, only never (body_loop c m l f s z p n e k).
Proof.
  induction f as [|f IH]; intros s z p n e k; cbn [body_loop]; [apply only_diverge|]. destruct (good s); [|apply only_ok]. destruct (l && _); [apply only_ok|].
  destruct (sread c s). cbv zeta. destruct (emit _ _ _). apply IH.
Qed.
Lemma CanonicalizationBody_only s m off l z : only never (CanonicalizationBody s m off l z).
Proof.
  unfold CanonicalizationBody, CanonicalizationBody_. apply only_bind; [destruct (off =? -1)%Z; [apply only_ok|apply body_loop_only]|].
  intros [[[c z1] e] s2] _. destruct (if negb e || _ then _ else _). apply only_ok.
Qed.
Lemma omap_only {A B} P (f : A -> outcome B) : (forall a, only P (f a)) -> forall l, only P (omap f l).
Proof. intros F. induction l as [|a l IH]; cbn [omap]; [apply only_ok|]. apply only_bind; auto. intros b _. apply only_bind; auto with only. Qed.
Lemma sign_headers_only strict m t : forall hs, only (ctype strict) (sign_headers strict m t hs).
Proof.
  induction hs as [|h hs IH]; cbn [sign_headers]; [apply only_ok|]. apply only_bind; [apply lower_str_only|]. intros name _. cbv zeta. destruct name as [|c name]; auto.
  destruct (negb _ && negb _); auto. apply only_bind; [apply FilterHeader_only|]. intros x _. apply only_bind; auto. intros [d n] _. apply only_ok.
Qed.

(** Kinds that do not concern memory. *)
Definition outside_memory (strict : bool) (o : options) (k : ub_kind) : Prop :=
  k = UB_ctype /\ strict = true \/ k = UB_overflow /\ o_exsign o = true.
Lemma ctype_outside {A} strict o (x : outcome A) : only (ctype strict) x -> only (outside_memory strict o) x.
Proof. apply only_weaken. intros k. left. auto. Qed.
Lemma sig_template_only strict o s now names bh : only (outside_memory strict o) (sig_template o s now names bh).
Proof.
  unfold sig_template. apply only_bind.
  - unfold time_tags. destruct (o_exsign o) eqn:E; [|apply only_ok]. destruct (in_int64 _); [apply only_ok|]. intros k [= <-]. right. auto.
  - intros tx _. destruct (h_list _ _ _ _). apply only_ok.
Qed.
Lemma c_read_64 k : length k = 64 -> c_read 64 k = Ok k.
Proof. intros L. unfold c_read. rewrite L. cbn [Nat.leb]. rewrite firstn_app, L, Nat.sub_diag. rewrite <- L, firstn_all. cbn. rewrite app_nil_r. reflexivity. Qed.
(** The key of an Ed25519 signature is there. *)
Definition has_key (s : sig_options) : Prop := so_alg s = ED25519 -> length (so_ed s) = 64.
Lemma make_signature_only C o s md : has_key s -> only never (make_signature C o s md).
Proof.
  intros K. unfold make_signature. destruct (so_alg s) eqn:E; [cases|]. rewrite c_read_64 by auto. cbn [obind]. cases.
Qed.
Lemma one_signature_only C strict o now hd names bh s : has_key s -> only (outside_memory strict o) (one_signature C strict o now hd names bh s).
Proof.
  intros K. unfold one_signature. apply only_bind; [apply sig_template_only|]. intros t _. apply only_bind; [apply ctype_outside, FilterHeader_only|]. intros c _. cbv zeta.
  apply only_bind; [apply never_any, make_signature_only; auto|]. intros x _. apply only_ok.
Qed.
Lemma all_sigs_only C strict o clock hd names bh l : Forall has_key l -> forall n acc, only (outside_memory strict o) (all_sigs C strict o clock n hd names bh l acc).
Proof.
  induction 1 as [|s l K F IH]; intros n acc; cbn [all_sigs]; [apply only_ok|]. apply only_bind; [apply one_signature_only; auto|]. intros h _. apply IH.
Qed.
Lemma create_only C strict clock o y : Forall has_key (all_signatures o) -> only (outside_memory strict o) (snd (CreateSignature C strict clock o y)).
Proof.
  intros K. unfold CreateSignature, parse_all. pose proof (parse_loop_only (fuel_of (y_file y)) (y_msg y) (y_file y)) as P.
  destruct (parse_loop _ _ _) as [[m s]|e|k|]; cbn [snd]; [|apply only_throw|destruct (P k eq_refl)|apply only_diverge].
  pose proof (CanonicalizationBody_only s (o_cbody o) (m_offset m) (o_signlen o) (o_bodylen o)) as B.
  destruct (CanonicalizationBody _ _ _ _ _) as [[[ch ok] s1]|e|k|]; cbn [snd]; [|apply only_throw|destruct (B k eq_refl)|apply only_diverge].
  destruct ok; [|apply only_perm]. cbv zeta. apply only_bind; [apply ctype_outside, omap_only, lower_str_only|]. intros ts _.
  apply only_bind; [apply ctype_outside, sign_headers_only|]. intros [hd names] _. apply only_bind; [apply ctype_outside, omap_only, lower_str_only|]. intros ov _.
  apply all_sigs_only. apply Forall_rev. exact K.
Qed.

(** A key is of 64 bytes or was never loaded. *)
Definition whole_key (s : sig_options) : Prop := so_ed s = [] \/ length (so_ed s) = 64.
Lemma sig_op_key C m s : (forall x, length x = 32 -> length (c_seed_keypair C x) = 64) -> whole_key s -> whole_key (fst (run_sig_op C m s)).
Proof.
  intros SK W. destruct m as [key|k|d|d|a]; cbn [run_sig_op]; auto.
  - unfold so_key, so_SetPrivateKey, so_after_failed_key. destruct (so_alg s).
    + destruct (beqb (firstn 5 key) (str "-----")).
      * destruct (c_pem_private C key) as [[k|]|]; cbn [fst]; auto.
      * destruct (c_der_private C (b64d C key)); cbn [fst]; auto.
    + destruct (Nat.eqb (length key) 64) eqn:E1; cbn [fst]; [right; apply Nat.eqb_eq; auto|].
      destruct (Nat.eqb (length key) 32) eqn:E2; cbn [fst]; [right; apply SK, Nat.eqb_eq; auto|]. cbv zeta.
      destruct (Nat.eqb (length (b64d C key)) 64) eqn:E3; cbn [fst]; [right; apply Nat.eqb_eq; auto|].
      destruct (Nat.eqb (length (b64d C key)) 32) eqn:E4; cbn [fst]; [right; apply SK, Nat.eqb_eq; auto|]. auto.
  - unfold so_setdomain, slift. destruct (ValidateDomain d) as [[]| | |]; cbn [fst]; auto.
  - unfold so_setselector, slift. destruct (ValidateDomain d) as [[]| | |]; cbn [fst]; auto.
Qed.
Lemma op_key C x o : (forall x, length x = 32 -> length (c_seed_keypair C x) = 64) -> Forall whole_key (all_signatures o) -> Forall whole_key (all_signatures (fst (run_op C x o))).
Proof.
  intros SK F. unfold all_signatures in *. pose proof (Forall_inv F) as F1. pose proof (Forall_inv_tail F) as F2.
  destruct x as [m|n m| | | | | | | | | | | | |]; cbn [run_op]; try exact F.
  - destruct (run_sig_op C m (o_main o)) as [s r] eqn:E. cbn [fst with_main o_main o_more]. constructor; auto. pose proof (sig_op_key C m (o_main o) SK F1) as Q. rewrite E in Q. exact Q.
  - destruct (nth_error (o_more o) n) as [s0|] eqn:N; [|exact F]. destruct (run_sig_op C m s0) as [s r] eqn:E. cbn [fst with_more o_main o_more]. constructor; auto.
    pose proof (sig_op_key C m s0 SK) as Q. rewrite E in Q. cbn [fst] in Q. assert (W : whole_key s). { apply Q. rewrite Forall_forall in F2. apply F2. eapply nth_error_In; eauto. }
    unfold update_nth. apply Forall_app. rewrite <- (firstn_skipn n (o_more o)) in F2. apply Forall_app in F2 as [G1 G2]. split; auto. destruct (skipn n (o_more o)); auto.
    constructor; auto. eapply Forall_inv_tail; eauto.
  - cbn [fst with_more o_main o_more]. constructor; auto. apply Forall_app. split; auto. apply Forall_cons; [|apply Forall_nil]. left. reflexivity.
Qed.
Lemma ops_key C l : (forall x, length x = 32 -> length (c_seed_keypair C x) = 64) -> forall o, Forall whole_key (all_signatures o) -> Forall whole_key (all_signatures (run_ops C l o)).
Proof. intros SK. induction l as [|x l IH]; intros o F; cbn [run_ops]; auto. apply IH, op_key; auto. Qed.
Lemma signing_safe C strict clock l y : (forall x, length x = 32 -> length (c_seed_keypair C x) = 64) ->
  (forall s, In s (all_signatures (run_ops C l new_options)) -> so_alg s = ED25519 -> so_ed s <> []) ->
  forall k, snd (CreateSignature C strict clock (run_ops C l new_options) y) = UB k ->
  k = UB_ctype /\ strict = true \/ k = UB_overflow /\ o_exsign (run_ops C l new_options) = true.
Proof.
  intros SK K. apply create_only. assert (W : Forall whole_key (all_signatures (run_ops C l new_options))).
  { apply ops_key; auto. apply Forall_cons; [|apply Forall_nil]. left. reflexivity. }
  rewrite Forall_forall in W |- *. intros s I A. destruct (W s I) as [E|E]; auto. destruct (K s I A E).
Qed.
