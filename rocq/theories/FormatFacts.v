(** StringFormat (C105). *)
From Verif Require Import Bytes Outcome Stream Tokenizer QuotedPrintable TagList MailParser Canonicalization Util CStdlib Crypto Signature PublicKey
  SignatoryOptions Signatory Validatory Tool ToolText ErrorText Reasons SignReasons Format
  SpecText SpecTags SpecVerify SpecParse SpecSig SpecKey SpecError SpecReason SpecMade SpecFormat BytesFacts SignNumbers ErrorFacts ShownFacts ReasonFacts ReasonSig ReasonKeys ReasonCheck ReasonOne ReasonText ErrorCases MadeFacts Examples VerifyExamples FarExamples.
Local Open Scope list_scope.

Lemma signed_exact z d : signed_text z d <-> d = fmt_ld z.
Proof.
  unfold signed_text, fmt_ld. split.
  - intros [(n & -> & NT)|(n & d' & P & -> & NT & ->)]; apply number_exact in NT; subst.
    + destruct (Z.ltb_spec (Z.of_N n) 0) as [L|L]; [lia|]. rewrite N2Z.id. reflexivity.
    + destruct (Z.ltb_spec (- Z.of_N n) 0) as [L|L]; [|lia]. rewrite Z.opp_involutive, N2Z.id. reflexivity.
  - intros ->. destruct (Z.ltb_spec z 0) as [L|L].
    + right. exists (Z.to_N (- z)), (fmt_lu (Z.to_N (- z))). split; [lia|]. split; [lia|]. split; [apply number_exact; reflexivity|reflexivity].
    + left. exists (Z.to_N z). split; [lia|]. apply number_exact. reflexivity.
Qed.
Lemma hex_exact h c : hex_shown h c <-> h = fmt_x (Some c).
Proof. split; [intros H; exact (hex_shown_fun _ _ _ H (x_shown c))|intros ->; apply x_shown]. Qed.
Lemma nul_exact x y : up_to_nul x y <-> y = c_str x.
Proof. split; [intros U; exact (up_to_nul_fun _ _ _ U (up_to_nul_c_str x))|intros ->; apply up_to_nul_c_str]. Qed.

Lemma filled_vformat f args t : filled f args t -> vformat f args = Some t.
Proof.
  induction 1 as [args|c f args t N F IH|f x y args t U F IH|f n d args t U F IH|f c h args t U F IH|f z d args t U F IH|f z d args t U F IH]; [reflexivity| | | | | |].
  - cbn [vformat]. rewrite ceqb_false by exact N. rewrite IH. reflexivity.
  - apply nul_exact in U. subst. change (str "%s" ++ f) with ("%"%char :: "s"%char :: f). cbn [vformat]. rewrite !ceqb_refl, IH. reflexivity.
  - apply number_exact in U. subst. change (str "%lu" ++ f) with ("%"%char :: "l"%char :: "u"%char :: f). cbn [vformat].
    rewrite !ceqb_refl. change ("l" =?c "s")%char with false. change ("l" =?c "x")%char with false. change ("l" =?c "d")%char with false. cbv iota. rewrite IH. reflexivity.
  - apply hex_exact in U. subst. change (str "%x" ++ f) with ("%"%char :: "x"%char :: f). cbn [vformat].
    rewrite !ceqb_refl. change ("x" =?c "s")%char with false. cbv iota. rewrite IH. reflexivity.
  - apply signed_exact in U. subst. change (str "%ld" ++ f) with ("%"%char :: "l"%char :: "d"%char :: f). cbn [vformat].
    rewrite !ceqb_refl. change ("l" =?c "s")%char with false. change ("l" =?c "x")%char with false. change ("l" =?c "d")%char with false. change ("d" =?c "u")%char with false. cbv iota. rewrite IH. reflexivity.
  - apply signed_exact in U. subst. change (str "%d" ++ f) with ("%"%char :: "d"%char :: f). cbn [vformat].
    rewrite !ceqb_refl. change ("d" =?c "s")%char with false. change ("d" =?c "x")%char with false. cbv iota. rewrite IH. reflexivity.
Qed.
Lemma mapped {A B} (g : A -> B) o y : option_map g o = Some y -> exists x, o = Some x /\ y = g x.
Proof. destruct o as [x|]; [|discriminate]. intros [= <-]. eauto. Qed.
Lemma vformat_filled k : forall f args t, length f < k -> vformat f args = Some t -> filled f args t.
Proof.
  induction k as [|k IH]; intros f args t L; [lia|]. destruct f as [|c f]; cbn [vformat]; [intros [= <-]; constructor|]. cbn [length] in L.
  destruct (c =?c "%")%char eqn:C.
  - apply ceqb_eq in C. subst c. destruct f as [|a f]; [discriminate|]. cbn [length] in L.
    destruct (a =?c "s")%char eqn:A1; [apply ceqb_eq in A1; subst a|destruct (a =?c "x")%char eqn:A2; [apply ceqb_eq in A2; subst a|destruct (a =?c "d")%char eqn:A3; [apply ceqb_eq in A3; subst a|destruct (a =?c "l")%char eqn:A4; [apply ceqb_eq in A4; subst a|discriminate]]]].
    + destruct args as [|[x|n|x|z|z] args]; try discriminate. intros M. apply mapped in M as (r & M & ->). apply (f_s f x); [apply nul_exact; reflexivity|apply IH; [lia|exact M]].
    + destruct args as [|[x|n|x|z|z] args]; try discriminate. intros M. apply mapped in M as (r & M & ->). apply (f_x f x); [apply hex_exact; reflexivity|apply IH; [lia|exact M]].
    + destruct args as [|[x|n|x|z|z] args]; try discriminate. intros M. apply mapped in M as (r & M & ->). apply (f_d f z); [apply signed_exact; reflexivity|apply IH; [lia|exact M]].
    + destruct f as [|b f]; [discriminate|]. cbn [length] in L. destruct (b =?c "u")%char eqn:B1; [apply ceqb_eq in B1; subst b|destruct (b =?c "d")%char eqn:B2; [apply ceqb_eq in B2; subst b|discriminate]].
      * destruct args as [|[x|n|x|z|z] args]; try discriminate. intros M. apply mapped in M as (r & M & ->). apply (f_lu f n); [apply number_exact; reflexivity|apply IH; [lia|exact M]].
      * destruct args as [|[x|n|x|z|z] args]; try discriminate. intros M. apply mapped in M as (r & M & ->). apply (f_ld f z); [apply signed_exact; reflexivity|apply IH; [lia|exact M]].
  - apply ceqb_neq in C. intros M. apply mapped in M as (r & M & ->). apply f_char; [exact C|apply IH; [lia|exact M]].
Qed.
Lemma vformat_exact f args t : vformat f args = Some t <-> filled f args t.
Proof. split; [apply (vformat_filled (S (length f))); lia|apply filled_vformat]. Qed.
(** StringFormat. *)
Lemma format_exact f args :
  (forall t, StringFormat f args = F_text t <-> filled f args t /\ (N.of_nat (length t) < 2147483648)%N) /\
  (StringFormat f args = F_bad_alloc <-> exists t, filled f args t /\ (2147483648 <= N.of_nat (length t))%N) /\
  (StringFormat f args = F_undefined <-> forall t, ~ filled f args t).
Proof.
  unfold StringFormat. destruct (vformat f args) as [x|] eqn:V.
  - assert (FX : filled f args x) by (apply vformat_exact; exact V).
    assert (ONE : forall t, filled f args t -> t = x). { intros t F. apply vformat_exact in F. congruence. }
    destruct (N.leb_spec (N.of_nat (length x)) 2147483647) as [L|L].
    + split; [|split].
      * intros t. split; [intros [= <-]; split; [exact FX|lia]|intros [F _]; rewrite (ONE t F); reflexivity].
      * split; [discriminate|]. intros (t & F & G). rewrite (ONE t F) in G. lia.
      * split; [discriminate|]. intros N. destruct (N x FX).
    + split; [|split].
      * intros t. split; [discriminate|]. intros [F G]. rewrite (ONE t F) in G. lia.
      * split; [|reflexivity]. intros _. exists x. split; [exact FX|lia].
      * split; [discriminate|]. intros N. destruct (N x FX).
  - assert (NO : forall t, ~ filled f args t). { intros t F. apply vformat_exact in F. congruence. }
    split; [|split].
    + intros t. split; [discriminate|]. intros [F _]. destruct (NO t F).
    + split; [discriminate|]. intros (t & F & _). destruct (NO t F).
    + split; auto.
Qed.

(** The calls of the library, and the texts of the model. *)
Lemma x_of o : fmt_x (Some (as_char o)) = fmt_x o.
Proof. destruct o; reflexivity. Qed.
Definition no_percent (p : bytes) : bool := forallb (fun c => negb (c =?c "%"%char)) p.
Lemma f_plain p f args t : no_percent p = true -> filled f args t -> filled (p ++ f) args (p ++ t).
Proof.
  induction p as [|c p IH]; cbn [app]; [tauto|]. unfold no_percent. cbn [forallb]. intros N F. apply andb_true_iff in N as [N1 N2].
  apply f_char; [apply negb_true_iff in N1; apply ceqb_neq; exact N1|exact (IH N2 F)].
Qed.
Lemma f_last p args : no_percent p = true -> filled p args p.
Proof. intros N. rewrite <- (app_nil_r p). apply f_plain; [exact N|constructor]. Qed.
Ltac no_p := vm_compute; reflexivity.
Lemma one_s f a b x args : f = str a ++ str "%s" ++ str b -> no_percent (str a) = true -> no_percent (str b) = true -> filled f (A_s x :: args) (format a x b).
Proof. intros -> N1 N2. unfold format. apply f_plain; [exact N1|]. apply f_s; [apply nul_exact; reflexivity|apply f_last; exact N2]. Qed.
Lemma two_s f a b c x y : f = str a ++ str "%s" ++ str b ++ str "%s" ++ str c -> no_percent (str a) = true -> no_percent (str b) = true -> no_percent (str c) = true ->
  filled f [A_s x; A_s y] (str a ++ c_str x ++ str b ++ c_str y ++ str c).
Proof.
  intros -> N1 N2 N3. apply f_plain; [exact N1|]. apply f_s; [apply nul_exact; reflexivity|]. apply f_plain; [exact N2|]. apply f_s; [apply nul_exact; reflexivity|].
  apply f_last; exact N3.
Qed.
Lemma x_ld f a b s : f = str a ++ str "%x" ++ str b ++ str "%ld" -> no_percent (str a) = true -> no_percent (str b) = true ->
  filled f [A_x (as_char (fst (peek s))); A_ld (fst (tellg s))] (byte_place a s b).
Proof.
  intros -> N1 N2. unfold byte_place. apply f_plain; [exact N1|]. apply f_x; [apply hex_exact; symmetry; apply x_of|]. apply f_plain; [exact N2|].
  rewrite <- (app_nil_r (fmt_ld _)), <- (app_nil_r (str "%ld")). apply f_ld; [apply signed_exact; reflexivity|constructor].
Qed.
Lemma one_ld f a s : f = str a ++ str "%ld" -> no_percent (str a) = true -> filled f [A_ld (fst (tellg s))] (place a s).
Proof.
  intros -> N1. unfold place. apply f_plain; [exact N1|]. rewrite <- (app_nil_r (fmt_ld _)), <- (app_nil_r (str "%ld")).
  apply f_ld; [apply signed_exact; reflexivity|constructor].
Qed.
Lemma one_lu f a n : f = str a ++ str "%lu" -> no_percent (str a) = true -> filled f [A_lu n] (str a ++ fmt_lu n).
Proof.
  intros -> N1. apply f_plain; [exact N1|]. rewrite <- (app_nil_r (fmt_lu _)), <- (app_nil_r (str "%lu")).
  apply f_lu; [apply number_exact; reflexivity|constructor].
Qed.
Lemma calls :
  (forall x, filled (str "Header field %s is missing the colon separator") [A_s x] (colon_text x)) /\
  (forall p v, ktag "v" p = Some v -> filled (str "Unsupported version %s (v supports DKIM1)") [A_s (te_value v)] (key_v_what p)) /\
  (forall p k, ktag "k" p = Some k -> filled (str "Unsupported key type %s (k supports rsa and ed25519)") [A_s (te_value k)] (key_k_what p)) /\
  (forall s, filled (str "Quoted-printable decoding failed; unexpected 0x%x, expecting HEX at position %ld")
    [A_x (as_char (fst (peek s))); A_ld (fst (tellg s))] (expecting_hex s)) /\
  (forall s, filled (str "Quoted-printable decoding failed; unsafe character 0x%x at position %ld")
    [A_x (as_char (fst (peek s))); A_ld (fst (tellg s))] (byte_place "Quoted-printable decoding failed; unsafe character 0x" s " at position ")) /\
  (forall st v, tag "v" st = Some v -> filled (str "Unsupported version %s (v supports 1)") [A_s (te_value v)] (v_what st)) /\
  (forall st a, tag "a" st = Some a ->
    filled (str "Unsupported signature algorithm %s (a supports rsa-sha1, rsa-sha256 and ed25519-sha256)") [A_s (te_value a)] (a_what st)) /\
  (forall x, filled (str "Unsupported canonicalization type %s (c supports simple, relaxed)") [A_s x]
    (format "Unsupported canonicalization type " x " (c supports simple, relaxed)")) /\
  (forall x y, filled (str "Domain %s is not a (sub)domain of %s (i does not match d)") [A_s x; A_s y]
    (format "Domain " x " is not a (sub)domain of " ++ c_str y ++ str " (i does not match d)")) /\
  (forall st q, tag "q" st = Some q -> filled (str "Unsupported query method %s (q supports dns/txt)") [A_s (te_value q)] (q_what st)) /\
  (forall s, filled (str "Invalid tag name (empty), expecting name at position %ld") [A_ld (fst (tellg s))]
    (place "Invalid tag name (empty), expecting name at position " s)) /\
  (forall n, filled (str "Duplicate tag name (%s)") [A_s n] (str "Duplicate tag name (" ++ c_str n ++ str ")")) /\
  (forall s, filled (str "Invalid tag list; unexpected 0x%x, expecting = at position %ld")
    [A_x (as_char (fst (peek s))); A_ld (fst (tellg s))] (byte_place "Invalid tag list; unexpected 0x" s ", expecting = at position ")) /\
  (forall s, filled (str "Invalid tag value (invalid data), unexpected 0x%x at position %ld")
    [A_x (as_char (fst (peek s))); A_ld (fst (tellg s))] (byte_place "Invalid tag value (invalid data), unexpected 0x" s " at position ")) /\
  (forall s, filled (str "CR without matching LF, 0x%x at position %ld")
    [A_x (as_char (fst (peek s))); A_ld (fst (tellg s))] (byte_place "CR without matching LF, 0x" s " at position ")) /\
  (forall s, filled (str "Invalid list value (empty), expecting value at position %ld") [A_ld (fst (tellg s))]
    (place "Invalid list value (empty), expecting value at position " s)) /\
  (forall x y, filled (str "No key for signature %s._domainkey.%s") [A_s x; A_s y] (str "No key for signature " ++ c_str x ++ str "._domainkey." ++ c_str y)) /\
  (forall x y, filled (str "DNS query failed for %s._domainkey.%s") [A_s x; A_s y] (str "DNS query failed for " ++ c_str x ++ str "._domainkey." ++ c_str y)) /\
  (forall n, filled (str "%lu") [A_lu n] (fmt_lu n)) /\
  (forall z, filled (str "%lu") [A_lu (Z.to_N (z mod 18446744073709551616))] (fmt_lu_time z)) /\
  (forall n, filled (str "; l=%lu") [A_lu n] (str "; l=" ++ fmt_lu n)) /\
  (forall x, filled (str "; i=%s") [A_s (qp_encode x)] (str "; i=" ++ c_str (qp_encode x))).
Proof.
  split; [intros x; apply one_s; no_p|].
  split; [intros p v E; unfold key_v_what; rewrite E; apply one_s; no_p|].
  split; [intros p v E; unfold key_k_what; rewrite E; apply one_s; no_p|].
  split; [intros s; apply x_ld; no_p|].
  split; [intros s; apply x_ld; no_p|].
  split; [intros p v E; unfold v_what; rewrite E; apply one_s; no_p|].
  split; [intros p v E; unfold a_what; rewrite E; apply one_s; no_p|].
  split; [intros x; apply one_s; no_p|].
  split; [intros x y; unfold format; rewrite <- !app_assoc; apply two_s; no_p|].
  split; [intros p v E; unfold q_what; rewrite E; apply one_s; no_p|].
  split; [intros s; apply one_ld; no_p|].
  split; [intros x; apply one_s; no_p|].
  split; [intros s; apply x_ld; no_p|].
  split; [intros s; apply x_ld; no_p|].
  split; [intros s; apply x_ld; no_p|].
  split; [intros s; apply one_ld; no_p|].
  split; [intros x y; rewrite <- (app_nil_r (c_str y)); apply (two_s _ _ _ ""); no_p|].
  split; [intros x y; rewrite <- (app_nil_r (c_str y)); apply (two_s _ _ _ ""); no_p|].
  split; [intros n; apply (one_lu _ ""); no_p|].
  split; [intros z; apply (one_lu _ ""); no_p|].
  split; [intros n; apply one_lu; no_p|].
  intros x. rewrite <- (app_nil_r (c_str _)). apply (one_s _ "; i=" ""); no_p.
Qed.

(** How long the texts are. *)
Ltac lens := repeat (rewrite ?app_length in *; cbn [length] in *);
  repeat match goal with |- context [length (str ?s)] => let v := eval vm_compute in (length (str s)) in change (length (str s)) with v end.
Lemma dec_len d k : dec_shown d k -> length d <= S k.
Proof.
  intros D. assert (N : number_text (N.of_nat k) d) by (unfold number_text; unfold dec_shown in D; exact D). apply number_exact in N. subst.
  apply fmt_lu_length; [|lia]. rewrite Nat2N.inj_succ, N.pow_succ_r'. pose proof (N.pow_gt_lin_r 10 (N.of_nat k) ltac:(lia)). lia.
Qed.
Lemma hex_len h c : hex_shown h c -> length h <= 2.
Proof. intros [(_ & d & -> & _)|(_ & d & e & -> & _)]; cbn; lia. Qed.
Lemma byte_len a b m c k : byte_at a b m c k -> length m <= length (str a) + length (str b) + k + 3.
Proof. intros (h & d & -> & H & D). apply hex_len in H. apply dec_len in D. rewrite !app_length. lia. Qed.
Lemma place_len a m k : at_place a m k -> length m <= length (str a) + k + 1.
Proof. intros (d & -> & D). apply dec_len in D. rewrite app_length. lia. Qed.
Ltac said B := first [apply byte_len in B|apply place_len in B];
  repeat match type of B with context [length (str ?s)] => let v := eval vm_compute in (length (str s)) in change (length (str s)) with v in B end.
Lemma cr_len ok t m : cr_say ok t m -> length m <= length t + 100.
Proof. intros [p c u -> _ _ B|p -> _ ->]; [said B|]; lens; lia. Qed.
Lemma list_len t m : list_say t m -> length m <= length t + 100.
Proof. intros [p u -> _ _ B|B]; [said B; lens; lia|exact (cr_len _ _ _ B)]. Qed.
Lemma qp_len us t m : qp_say us t m -> length m <= length t + 100.
Proof.
  intros [p c u -> _ _ B|p c u -> _ _ _ B|B|p w z c -> _ _ _ _ _ _ B|_ _ ->]; try (said B; lens; lia); [exact (cr_len _ _ _ B)|lens; lia].
Qed.
Lemma tags_len names t m : tags_say names t m -> length m <= length t + 100.
Proof.
  intros [l q w c u -> _ _ _ _ _ B|l q w n w2 c u -> _ _ _ _ _ _ B|l q w n w2 b c u -> _ _ _ _ _ _ _ B|l q w n u -> _ _ _ _ _ ->|l q w n w2 _ _ _ _ ->]; try (said B; lens; lia); lens; lia.
Qed.
Lemma value_len l t : rendered_tags l t -> forall n v, has l n v -> length v <= length t.
Proof.
  unfold has. induction 1 as [w W|w1 n w2 w3 v w4 W1 N W2 W3 V W4|w1 n w2 w3 v w4 l t W1 N W2 W3 V W4 R IH]; intros k x I.
  - destruct I.
  - destruct I as [[= _ <-]|[]]. lens; lia.
  - destruct I as [[= _ <-]|I]; [lens; lia|]. specialize (IH k x I). lens; lia.
Qed.
Lemma qp_shorter us t d : qp_text us t d -> length d <= length t.
Proof. induction 1; lens; lia. Qed.
Lemma nul_len x y : up_to_nul x y -> length y <= length x.
Proof. intros [z _|z r _]; lens; lia. Qed.
Lemma halves_len c h b : c_halves c h b -> length h <= length c /\ length b <= length c + 6.
Proof. intros [v _|h0 b0 _]; [split; [lia|change (length (str "simple")) with 6; lia]|lens; lia]. Qed.
Lemma sig_reason_len now e0 arc l t k m : rendered_tags l t -> sig_reason now e0 arc l k m -> length m <= 2 * length t + 200.
Proof.
  intros R S. pose proof (value_len l t R) as V.
  destruct S as [L|A L|v A H N|L|a H N|B|L|c h b H CH N|c h b m0 H CH N N2|L|h m H N S|h vs H LW N|A L|i n r f A H U N|i m A H N S|i mail A H Q N|i local raw d x A H Q N D ND U|v H G|v n r f H G U E|v n r H G U E X|v n r H G U E X Y|q H N|L|x tt f H T X]; try (lens; lia).
  - specialize (V _ _ H). lens; lia.
  - specialize (V _ _ H). lens; lia.
  - specialize (V _ _ H). apply halves_len in CH. lens; lia.
  - specialize (V _ _ H). apply halves_len in CH. lens; lia.
  - specialize (V _ _ H). apply list_len in S. lia.
  - specialize (V _ _ H). apply qp_len in S. lia.
  - pose proof (V _ _ H) as V1. pose proof (V _ _ D) as V2. apply qp_shorter in Q. apply nul_len in U. lens. rewrite !map_length in *. lia.
  - specialize (V _ _ H). lens; lia.
Qed.
Lemma key_reason_len C l t k m : rendered_tags l t -> key_reason C l k m -> length m <= length t + 200.
Proof.
  intros R S. pose proof (value_len l t R) as V.
  destruct S as [v H N|H|h m H N1 N2 S|v H N|L|H|p H N K D|p H N K D|p H N K D|H|s m H N1 N2 S|s m H N S]; try (lens; lia).
  - specialize (V _ _ H). lens; lia.
  - specialize (V _ _ H). apply list_len in S. lia.
  - specialize (V _ _ H). lens; lia.
  - specialize (V _ _ H). apply list_len in S. lia.
  - specialize (V _ _ H). apply list_len in S. lia.
Qed.
Lemma field_reason_len t m : field_reason t m -> length m <= length t + 200.
Proof. intros [x N U|p c u d m0 I -> N P D B|p I -> P]; [apply nul_len in U; lens; lia|said B; lens; lia|lens; lia]. Qed.

Lemma signature_small C now e0 h m : h_voff h <= length (h_text h) -> Signature_what C false now h (new_signature, e0) = Some m -> length m <= 2 * length (h_text h) + 200.
Proof.
  intros V S. destruct (Nat.le_gt_cases (length m) (2 * length (h_text h) + 200)) as [L|L]; [exact L|exfalso].
  assert (NO : forall l, ~ field_tags h l).
  { intros l F. pose proof F as (_ & R & _). apply (sig_exact C now e0 h l F) in S as (k & S & _). pose proof (sig_reason_len _ _ _ _ _ _ _ R S) as B. rewrite skipn_length in B. lia. }
  apply (sig_tags_exact C now e0 h V NO) in S. apply tags_len in S. rewrite skipn_length in S. lia.
Qed.
Lemma record_small C strict r m : PublicKey_what C strict r new_public_key = Some m -> length m <= length r + 200.
Proof.
  intros S. destruct (Nat.le_gt_cases (length m) (length r + 200)) as [L|L]; [exact L|exfalso].
  assert (NO : forall l, ~ record_tags r l).
  { intros l F. pose proof F as (R & _). apply (key_exact C strict r l F) in S as (k & S & _). pose proof (key_reason_len _ _ _ _ _ R S). lia. }
  apply (key_tags_exact C strict r NO) in S. apply tags_len in S. lia.
Qed.
Lemma field_small t : FilterHeader false RELAXED t = perm -> length (filter_what false t) <= length t + 200.
Proof. intros P. apply field_reason_len. apply filter_exact. auto. Qed.

(** A long value of a=. *)
Definition long_tags : list (bytes * bytes) := [(str "v", str "1"); (str "d", str "x")].
Definition long_field (z : bytes) : header := mkHeader (str "DKIM-Signature") (str "DKIM-Signature:" ++ written long_tags (str "a") z) 15.
Lemma long_list z : forallb plain_byte z = true -> field_tags (long_field z) (long_tags ++ [(str "a", z)]).
Proof.
  intros P. split; [cbn [h_voff h_text long_field]; rewrite app_length; change (length (str "DKIM-Signature:")) with 15; lia|]. split.
  - cbn [h_voff h_text long_field]. change (skipn 15 (str "DKIM-Signature:" ++ written long_tags (str "a") z)) with (written long_tags (str "a") z). apply written_tags.
    + unfold long_tags. repeat (apply Forall_cons; [split; cbn [fst snd]; [apply plain_name|apply plain_value]; vm_compute; reflexivity|]). constructor.
    + split; cbn [fst snd]; [apply plain_name; vm_compute; reflexivity|apply plain_value; exact P].
  - cbn [app map fst long_tags]. repeat (constructor; [intros I; cbn in I; decompose [or] I; try discriminate; contradiction|]). constructor.
Qed.
Lemma long_says C now e0 z : forallb plain_byte z = true -> (20 < N.of_nat (length z))%N -> Signature_what C false now (long_field z) (new_signature, e0) =
  Some (str "Unsupported signature algorithm " ++ z ++ str " (a supports rsa-sha1, rsa-sha256 and ed25519-sha256)").
Proof.
  intros P L. apply (sig_exact C now e0 _ _ (long_list z P)). replace (same_name (h_name (long_field z)) (str "arc-message-signature")) with false by (vm_compute; reflexivity).
  exists 3. split.
  - apply rs_a_other; [right; right; left; reflexivity|]. intros d k A. destruct A; vm_compute in L; discriminate.
  - intros j m S. destruct S as [X|X1 X|v X1 H N|X|a H N|B|X|c h b H CH N|c h b m0 H CH N N2|X|h m H N S|h vs H LW N|A X|i n r f A H U N|i m A H N S|i mail A H Q N|i local raw d x A H Q N D ND U|v H G|v n r f H G U E|v n r H G U E X|v n r H G U E X Y|q H N|X|x tt f H T X]; try lia.
    + exfalso. apply X. right. left. reflexivity.
    + exfalso. apply X. left. reflexivity.
    + exfalso. apply N. destruct H as [H|[H|[H|[]]]]; [injection H as H; symmetry; exact H|discriminate H|discriminate H].
Qed.
Lemma plain_nul z : forallb plain_byte z = true -> c_str z = z.
Proof.
  intros P. symmetry. apply nul_exact. apply sh_all. intros I. rewrite forallb_forall in P. specialize (P _ I). discriminate P.
Qed.
Definition a_format : bytes := str "Unsupported signature algorithm %s (a supports rsa-sha1, rsa-sha256 and ed25519-sha256)".
Lemma long_filled z : forallb plain_byte z = true ->
  filled a_format [A_s z] (str "Unsupported signature algorithm " ++ z ++ str " (a supports rsa-sha1, rsa-sha256 and ed25519-sha256)").
Proof. intros P. rewrite <- (plain_nul z P) at 2. apply one_s; vm_compute; reflexivity. Qed.
Lemma long_alloc : exists h l a m, field_tags h l /\ has l "a" a /\
  (forall C now e0, Signature_what C false now h (new_signature, e0) = Some m) /\
  filled (str "Unsupported signature algorithm %s (a supports rsa-sha1, rsa-sha256 and ed25519-sha256)") [A_s a] m /\
  StringFormat (str "Unsupported signature algorithm %s (a supports rsa-sha1, rsa-sha256 and ed25519-sha256)") [A_s a] = F_bad_alloc.
Proof.
  assert (Z : exists z, forallb plain_byte z = true /\ (2147483648 <= N.of_nat (length z))%N).
  { exists (repeat (chr 97) (N.to_nat 2147483648)). split; [apply forallb_forall; intros c I; apply repeat_spec in I; subst c; reflexivity|rewrite repeat_length, N2Nat.id; lia]. }
  destruct Z as (z & P & L). exists (long_field z), (long_tags ++ [(str "a", z)]), z. eexists. split; [exact (long_list z P)|]. split; [right; right; left; reflexivity|].
  split; [intros C now e0; apply long_says; [exact P|lia]|]. split; [exact (long_filled z P)|].
  apply (proj1 (proj2 (format_exact a_format [A_s z]))). eexists. split; [exact (long_filled z P)|]. rewrite !app_length, !Nat2N.inj_add. lia.
Qed.
Lemma formats_cases :
  StringFormat (str "; l=%lu") [A_lu 18446744073709551615] = F_text (str "; l=18446744073709551615") /\
  StringFormat (str "0x%x at position %ld") [A_x (chr 255); A_ld (-1)] = F_text (str "0xff at position -1") /\
  StringFormat (str "No key for signature %s._domainkey.%s") [A_s (str "s1" ++ [chr 0; chr 97]); A_s (str "ex.org")] = F_text (str "No key for signature s1._domainkey.ex.org") /\
  StringFormat (str "%s") [A_lu 1] = F_undefined /\ StringFormat (str "%s") [] = F_undefined.
Proof. vm_compute. repeat split. Qed.
