(** How long the lines of a generated field are: proofs. *)
From Verif Require Import VerifyProps Bytes Outcome Stream Tokenizer QuotedPrintable Base64 MailParser Canonicalization Util CStdlib Crypto PublicKey
  SignatoryOptions Signatory BytesFacts StreamFacts TokenizerFacts SpecText SpecTags SpecMail SpecCanon SpecVerify SpecSig SpecBase64 SpecPass SpecOptions SpecSign
  SpecError SpecOutcome SpecRelaxed SpecMade SpecLines PassFacts MailFacts BodyFacts BodyProps HeaderFacts HeaderProps SelectFacts VerifyFacts SignNumbers SignText SignFacts
  SignMail SignRound LoneFacts SafetyFacts OutcomeFacts QPFacts Base64Bits ErrorFacts ShownFacts RelaxedFacts BindingProps FieldsProps MadeFacts.

(** ** Lines *)
Lemma lw_app n a b : lines_within n a -> lines_within n b -> lines_within n (a ++ CRLF ++ b).
Proof.
  intros A B. induction A as [l L|l t L A IH].
  - apply lw_next; auto.
  - rewrite <- !app_assoc. apply lw_next; auto.
Qed.
Lemma lw_run n t : lines_within n t -> forall a l b, t = a ++ l ++ b -> unbroken l -> length l <= n.
Proof.
  induction 1 as [k K|k t K A IH]; intros a l b E U.
  - subst k. rewrite !app_length in K. lia.
  - destruct (le_lt_dec (length (a ++ l)) (length k)) as [LE|GT]; [rewrite app_length in LE; lia|].
    destruct (le_lt_dec (length k + 2) (length a)) as [GE|LT].
    + apply (IH (skipn (length k + 2) a) l b); auto.
      apply (f_equal (skipn (length k + 2))) in E. rewrite (skipn_app _ a), (proj2 (Nat.sub_0_le _ _) GE) in E. rewrite skipn_O in E. rewrite <- E.
      rewrite app_assoc, skipn_app, app_length. change (length CRLF) with 2. rewrite Nat.sub_diag, skipn_O.
      rewrite skipn_all2; [reflexivity|]. rewrite app_length. change (length CRLF) with 2. lia.
    + destruct l as [|x l]; [cbn [length]; lia|]. exfalso. rewrite app_length in GT.
      assert (N0 : forall i, length k <= i < length k + 2 -> exists c, nth_error (a ++ (x :: l) ++ b) i = Some c /\ (c = CR \/ c = LF)).
      { intros i I. rewrite <- E. rewrite nth_error_app2 by lia. destruct (i - length k) as [|[|j]] eqn:D; [exists CR|exists LF|lia]; cbn; auto. }
      assert (I : exists i, length k <= i < length k + 2 /\ length a <= i < length a + length (x :: l)).
      { destruct (le_lt_dec (length a) (length k)); [exists (length k)|exists (length a)]; cbn [length] in *; lia. }
      destruct I as (i & I1 & I2). destruct (N0 i I1) as (c & C1 & C2). rewrite nth_error_app2, nth_error_app1 in C1 by lia.
      apply nth_error_In in C1. unfold unbroken in U. rewrite Forall_forall in U. destruct (U c C1) as [V W]. destruct C2; contradiction.
Qed.

(** ** h= *)
Lemma h_short n p gs t : 81 <= n -> h_lines p gs t -> Forall (fun x => length x + 3 <= n) (concat gs) -> lines_within n (t ++ [SEMI]).
Proof.
  intros N0. induction 1 as [p g L|p g m g2 r t L GT HL IH]; cbn [concat]; intros F.
  - apply lw_last. rewrite !app_length. cbn [length]. destruct L as [L|(-> & m & ->)]; [rewrite app_length in L; lia|]. cbn [colons next_starts length].
    cbn [app] in F. inversion F. lia.
  - rewrite <- !app_assoc. rewrite (app_assoc (colons g)), (app_assoc p). apply Forall_app in F as [F1 F2]. apply lw_next; [|apply IH; exact F2].
    rewrite !app_length. assert (B : length (behind g) <= 1) by (destruct g; cbn; lia).
    destruct L as [L|(-> & k & ->)]; [rewrite app_length in L; lia|]. cbn [colons next_starts length]. inversion F1. lia.
Qed.
Lemma colons_in g x : In x g -> length x <= length (colons g).
Proof.
  induction g as [|y g IH]; [easy|]. intros [->|I].
  - destruct g; cbn [colons]; rewrite ?app_length; lia.
  - specialize (IH I). destruct g as [|z g]; [easy|]. cbn [colons] in *. rewrite app_length. cbn [length]. lia.
Qed.
Lemma h_seen p gs t : h_lines p gs t -> 2 <= length p -> forall x, In x (concat gs) ->
  length x + 3 <= 81 \/ exists a c b, t ++ [SEMI] = a ++ (next_starts ++ x ++ [c]) ++ b /\ (c = COLON \/ c = SEMI).
Proof.
  induction 1 as [p g L|p g m g2 r t L GT HL IH]; intros P x; cbn [concat]; rewrite ?app_nil_r.
  - intros I. destruct L as [L|(-> & k & ->)].
    + left. apply colons_in in I. rewrite app_length in L. lia.
    + destruct I as [->|[]]. right. exists [], SEMI, []. split; [|auto]. cbn [colons app]. rewrite app_nil_r. reflexivity.
  - intros I. apply in_app_or in I as [I|I].
    + destruct L as [L|(-> & k & ->)].
      * left. apply colons_in in I. rewrite app_length in L. lia.
      * destruct I as [->|[]]. right. exists [], COLON, (CRLF ++ t ++ [SEMI]). split; [|auto]. cbn [colons behind]. rewrite <- !app_assoc. reflexivity.
    + destruct (IH ltac:(cbn; lia) x I) as [K|(a & c & b & E & K)]; [auto|]. right. exists (p ++ colons g ++ behind g ++ CRLF ++ a), c, b. split; [|auto].
      rewrite <- !app_assoc. do 4 f_equal. rewrite E. rewrite <- !app_assoc. reflexivity.
Qed.

(** ** b=, bh= and the first line *)
Lemma b_short n k e b : 80 <= n -> b_lines k e b -> forall p, length p + k <= 80 -> lines_within n (p ++ b).
Proof.
  intros N0. induction 1 as [k e L|k l e t L NE B IH]; intros p P.
  - apply lw_last. rewrite app_length. lia.
  - rewrite app_assoc. apply lw_next; [rewrite app_length; lia|]. apply IH. cbn. lia.
Qed.
Lemma encode_length k : forall d, length d <= k -> 3 * length (Base64_Encode d) <= 4 * (length d + 2).
Proof.
  induction k as [|k IH]; intros d L.
  - destruct d; [cbn; lia|cbn [length] in L; lia].
  - destruct d as [|a [|b [|c r]]]; try (cbn; lia). cbn [Base64_Encode length] in *. specialize (IH r ltac:(lia)). lia.
Qed.
Lemma fmt_64 n : (n < 18446744073709551616)%N -> length (fmt_lu n) <= 20.
Proof. intros L. apply fmt_lu_length; [|lia]. eapply N.lt_trans; [exact L|]. reflexivity. Qed.
Lemma time_64 z d : time_text z d -> length d <= 20.
Proof.
  intros T. apply number_exact in T. subst d. apply fmt_64.
  assert (B := Z.mod_pos_bound z 18446744073709551616 eq_refl). lia.
Qed.
Lemma number_64 n d : number_text n d -> (n < 18446744073709551616)%N -> length d <= 20.
Proof. intros T L. apply number_exact in T. subst d. apply fmt_64. exact L. Qed.

Definition first_line (o : options) (v t x : bytes) : bytes :=
  v ++ str "; a=" ++ a_text (o_digest o) (so_alg (o_main o)) ++ str "; c=" ++ mode_name (o_chead o) ++ str "/" ++ mode_name (o_cbody o) ++ [SEMI] ++ t ++ x.
Lemma first_short o now v t x : (o_arc o < 18446744073709551616)%N -> begins o v -> if_set (o_tssign o) (t_tag o now) t -> if_set (o_exsign o) (x_tag o now) x ->
  length (first_line o v t x) <= 131.
Proof.
  intros A V T X. assert (V1 : length v <= 45).
  { unfold begins in V. destruct (o_arc o =? 0)%N; [subst v; vm_compute; lia|]. destruct V as (d & -> & D). apply number_64 in D; [|exact A]. rewrite app_length. cbn [str list_ascii_of_string length]. lia. }
  assert (T1 : length t <= 24).
  { unfold if_set in T. destruct (o_tssign o); [|subst; cbn; lia]. destruct T as (d & -> & D). apply time_64 in D. rewrite !app_length. cbn [str list_ascii_of_string length]. lia. }
  assert (X1 : length x <= 24).
  { unfold if_set in X. destruct (o_exsign o); [|subst; cbn; lia]. destruct X as (d & -> & D). apply time_64 in D. rewrite !app_length. cbn [str list_ascii_of_string length]. lia. }
  assert (A1 : length (a_text (o_digest o) (so_alg (o_main o))) <= 14) by (destruct (o_digest o), (so_alg (o_main o)); vm_compute; lia).
  assert (M : forall m, length (mode_name m) <= 7) by (intros []; vm_compute; lia). assert (M1 := M (o_chead o)). assert (M2 := M (o_cbody o)).
  unfold first_line. rewrite !app_length. cbn [str list_ascii_of_string length]. lia.
Qed.

(** ** One field *)
Lemma field_parts o q now names bh T : field_up_to_b o q now names bh T -> exists v t x D gs h e, begins o v /\ if_set (o_tssign o) (t_tag o now) t /\
  if_set (o_exsign o) (x_tag o now) x /\ d_line o q D /\ concat gs = names /\ h_lines (HT :: str "h=") gs h /\ e = Base64_Encode bh /\
  forall b, T ++ b = first_line o v t x ++ CRLF ++ D ++ CRLF ++ (h ++ [SEMI]) ++ CRLF ++ (HT :: str "bh=" ++ e ++ [SEMI]) ++ CRLF ++ (HT :: str "b=") ++ b.
Proof.
  intros (v & t & x & i & l & h & e & V & Ts & X & I & L & (gs & G & Hl) & E & ->).
  exists v, t, x, (HT :: str "d=" ++ so_domain q ++ str "; s=" ++ so_selector q ++ i ++ l ++ [SEMI]), gs, h, e.
  repeat (split; [assumption|]). split; [exists i, l; auto|]. repeat (split; [assumption|]). split; [apply b64_exact; exact E|].
  intros b. unfold first_line, line_end. repeat (rewrite <- app_assoc || rewrite <- app_comm_cons). reflexivity.
Qed.
Lemma d_line_once o q t t' : d_line o q t -> d_line o q t' -> t = t'.
Proof.
  intros (i & l & I & L & ->) (i' & l' & I' & L' & ->). apply i_exact in I, I'. subst.
  apply (if_exact _ _ _ _ (l_exact o)) in L, L'. subst. reflexivity.
Qed.
Lemma made_short C o now names data bh q H n : made C o now names data bh q H -> 131 <= n -> (o_arc o < 18446744073709551616)%N -> length bh <= 64 ->
  Forall (fun x => length x + 3 <= n) names -> (forall t, d_line o q t -> length t <= n) -> lines_within n H.
Proof.
  intros [_ (T & c & x & e & b & UB & _ & _ & _ & B & ->)] N0 A LB F DL.
  destruct (field_parts _ _ _ _ _ _ UB) as (v & ts & xs & D & gs & h & e2 & V & Ts & X & Dl & G & Hl & -> & ->).
  apply lw_next; [pose proof (first_short o now v ts xs A V Ts X); lia|]. apply lw_next; [apply DL; exact Dl|].
  apply lw_app; [eapply h_short; [|exact Hl|rewrite G; exact F]; lia|]. apply lw_next.
  - cbn [length]. rewrite !app_length. pose proof (encode_length _ bh (Nat.le_refl _)). cbn [str list_ascii_of_string length]. lia.
  - eapply b_short; [|exact B|cbn; lia]. lia.
Qed.
Lemma str_unbroken s : forallb (fun c => negb (c =?c CR) && negb (c =?c LF)) (str s) = true -> unbroken (str s).
Proof.
  intros E. apply Forall_forall. intros c I. rewrite forallb_forall in E. apply E in I. apply andb_true_iff in I as [P Q]. apply negb_true_iff in P, Q.
  apply ceqb_neq in P, Q. auto.
Qed.
Lemma printable_unbroken t : Forall (fun c => (33 <= code c)%N) t -> unbroken t.
Proof. apply Forall_impl. intros c L. split; intros ->; vm_compute in L; apply L; reflexivity. Qed.
Lemma fmt_unbroken n : unbroken (fmt_lu n).
Proof.
  destruct (proj2 (number_exact n (fmt_lu n)) eq_refl) as ((_ & D) & _). apply printable_unbroken. eapply Forall_impl; [|exact D].
  intros c K. unfold between in K. lia.
Qed.
Lemma qp_unbroken d e : qp_written d e -> unbroken e.
Proof.
  assert (P : forall c, (33 <= code c)%N -> c <> CR /\ c <> LF) by (intros c L; split; intros ->; vm_compute in L; apply L; reflexivity).
  induction 1 as [|c d e A _ _ _ IH|c h1 h2 a b d e _ H1 H2 _ _ IH]; [constructor|constructor; [|exact IH]|].
  - apply P. unfold printable, between in A. lia.
  - assert (K : forall h v, hex_digit h v -> h <> CR /\ h <> LF) by (intros h v []; unfold between in *; apply P; lia).
    constructor; [split; discriminate|]. constructor; [eapply K; eauto|]. constructor; [eapply K; eauto|exact IH].
Qed.
Lemma d_unbroken o q t : d_line o q t -> unbroken (so_domain q) -> unbroken (so_selector q) -> unbroken t.
Proof.
  intros (i & l & I & L & ->) D S. assert (UI : unbroken i).
  { destruct I as [(_ & ->)|(_ & e & -> & Q)]; [constructor|]. apply Forall_app. split; [apply str_unbroken; reflexivity|]. eapply qp_unbroken; eauto. }
  assert (UL : unbroken l).
  { apply (if_exact _ _ _ _ (l_exact o)) in L. subst l. destruct (o_signlen o); [|constructor]. apply Forall_app. split; [apply str_unbroken; reflexivity|apply fmt_unbroken]. }
  constructor; [split; discriminate|]. apply Forall_app. split; [apply str_unbroken; reflexivity|]. apply Forall_app. split; [exact D|].
  apply Forall_app. split; [apply str_unbroken; reflexivity|]. apply Forall_app. split; [exact S|]. apply Forall_app. split; [exact UI|]. apply Forall_app. split; [exact UL|].
  constructor; [split; discriminate|constructor].
Qed.
Lemma made_long C o now names data bh q H n a z : made C o now names data bh q H -> 131 <= n -> lines_within n (a ++ H ++ z) ->
  Forall unbroken names -> unbroken (so_domain q) -> unbroken (so_selector q) ->
  Forall (fun x => length x + 3 <= n) names /\ forall t, d_line o q t -> length t <= n.
Proof.
  intros [_ (T & c & x & e & b & UB & _ & _ & _ & B & ->)] N0 LW UN UD US.
  destruct (field_parts _ _ _ _ _ _ UB) as (v & ts & xs & D & gs & h & e2 & V & Ts & X & Dl & G & Hl & -> & E). rewrite E in LW. split.
  - apply Forall_forall. intros y I. assert (Y := I). rewrite <- G in I. destruct (h_seen _ _ _ Hl ltac:(cbn; lia) y I) as [K|(a' & c' & b' & E' & K)]; [lia|].
    assert (LE : length (next_starts ++ y ++ [c']) <= n).
    { rewrite E' in LW. eapply (lw_run n _ LW (a ++ first_line o v ts xs ++ CRLF ++ D ++ CRLF ++ a')).
      - repeat (rewrite <- app_assoc || rewrite <- app_comm_cons). reflexivity.
      - apply Forall_app. split; [repeat constructor; discriminate|]. apply Forall_app. split; [rewrite Forall_forall in UN; apply UN; exact Y|].
        constructor; [destruct K as [->| ->]; split; discriminate|constructor]. }
    rewrite !app_length in LE. cbn [next_starts length] in LE. lia.
  - intros t DT. rewrite (d_line_once _ _ _ _ DT Dl). eapply (lw_run n _ LW (a ++ first_line o v ts xs ++ CRLF)).
    + repeat (rewrite <- app_assoc || rewrite <- app_comm_cons). reflexivity.
    + eapply d_unbroken; eauto.
Qed.

(** ** All of them *)
Lemma joined_short n Hs : Hs <> [] -> Forall (lines_within n) Hs -> lines_within n (joined Hs).
Proof.
  intros NE F. induction F as [|h Hs A F IH]; [easy|]. destruct Hs as [|k Hs]; [exact A|]. change (joined (h :: k :: Hs)) with (h ++ CRLF ++ joined (k :: Hs)).
  apply lw_app; [exact A|]. apply IH. discriminate.
Qed.
Lemma joined_in h Hs : In h Hs -> exists a b, joined Hs = a ++ h ++ b.
Proof.
  induction Hs as [|k Hs IH]; [easy|]. destruct Hs as [|m Hs].
  - intros [->|[]]. exists [], []. cbn [joined app]. rewrite app_nil_r. reflexivity.
  - change (joined (k :: m :: Hs)) with (k ++ CRLF ++ joined (m :: Hs)). intros [->|I].
    + exists [], (CRLF ++ joined (m :: Hs)). reflexivity.
    + destruct (IH I) as (a & b & ->). exists (k ++ CRLF ++ a), b. rewrite <- !app_assoc. reflexivity.
Qed.
Lemma lines_short C strict clock o t fs n H : has_fields t fs -> snd (CreateSignature C strict clock o (new_signatory (open_str t))) = Ok H ->
  131 <= n -> (o_arc o < 18446744073709551616)%N -> (forall d, length (digest C (o_digest o) d) <= 64) ->
  has_room n o (listed_names h_name o fs) -> lines_within n H.
Proof.
  intros HF CS N0 A DG [F DL]. destruct (message_body_exists t) as (b & MB). destruct (canonical_exists (is_relaxed (o_cbody o)) b) as (out & CB).
  apply (create_exactly _ _ _ _ _ _ _ _ _ HF MB CB) in CS as [(_ & outs & Hs & _ & LH & M & ->) _].
  apply joined_short.
  - intros ->. cbn [length] in LH. unfold all_signatures in LH. discriminate.
  - apply Forall_forall. intros h I. apply In_nth_error in I as (k & K).
    destruct (nth_error (rev (all_signatures o)) k) as [q|] eqn:Q.
    2: { apply nth_error_None in Q. rewrite rev_length, <- LH in Q. apply nth_error_None in Q. congruence. }
    eapply made_short; [eapply M; eauto|exact N0|exact A|apply DG|exact F|]. intros u U. apply (DL q); [|exact U]. apply in_rev. eapply nth_error_In; eauto.
Qed.
Lemma lines_exact C strict clock o t fs n H : has_fields t fs -> snd (CreateSignature C strict clock o (new_signatory (open_str t))) = Ok H ->
  131 <= n -> (o_arc o < 18446744073709551616)%N -> (forall d, length (digest C (o_digest o) d) <= 64) ->
  Forall unbroken (listed_names h_name o fs) -> Forall (fun q => unbroken (so_domain q) /\ unbroken (so_selector q)) (all_signatures o) ->
  lines_within n H <-> has_room n o (listed_names h_name o fs).
Proof.
  intros HF CS N0 A DG UN UD. split; [|eapply lines_short; eauto]. intros LW.
  destruct (message_body_exists t) as (b & MB). destruct (canonical_exists (is_relaxed (o_cbody o)) b) as (out & CB).
  apply (create_exactly _ _ _ _ _ _ _ _ _ HF MB CB) in CS as [(_ & outs & Hs & _ & LH & M & ->) _].
  assert (K : forall q, In q (all_signatures o) -> Forall (fun x => length x + 3 <= n) (listed_names h_name o fs) /\ forall t, d_line o q t -> length t <= n).
  { intros q I. assert (I2 := I). apply in_rev in I. apply In_nth_error in I as (k & Q). destruct (nth_error Hs k) as [h|] eqn:K.
    2: { apply nth_error_None in K. rewrite LH, <- rev_length in K. apply nth_error_None in K. congruence. }
    destruct (joined_in h Hs (nth_error_In _ _ K)) as (a & z & E). rewrite E in LW. rewrite Forall_forall in UD. destruct (UD q I2).
    eapply made_long; eauto. }
  split; [|intros q u I; apply K; exact I]. apply (K (o_main o)). left. reflexivity.
Qed.
Lemma value_unbroken v : Forall value_byte v -> unbroken v.
Proof. intros F. apply printable_unbroken. eapply Forall_impl; [|exact F]. intros c [A _]. unfold printable, between in A. lia. Qed.
Lemma built_exact C strict clock l t fs n H : let o := run_ops C l new_options in
  has_fields t fs -> snd (CreateSignature C strict clock o (new_signatory (open_str t))) = Ok H ->
  131 <= n -> (o_arc o < 18446744073709551616)%N -> (forall d, length (digest C (o_digest o) d) <= 64) ->
  Forall unbroken (listed_names h_name o fs) -> lines_within n H <-> has_room n o (listed_names h_name o fs).
Proof.
  intros o HF CS N0 A DG UN. eapply lines_exact; eauto. eapply Forall_impl; [|apply (history_well C l)].
  intros q [P Q]. split; apply value_unbroken, dotted_or_empty; auto.
Qed.
(** Without i=, host names are short enough. *)
Lemma usual_short C strict clock o t fs H : has_fields t fs -> snd (CreateSignature C strict clock o (new_signatory (open_str t))) = Ok H ->
  (o_arc o < 18446744073709551616)%N -> (o_bodylen o < 18446744073709551616)%N -> (forall d, length (digest C (o_digest o) d) <= 64) ->
  3 * length (o_identity o) <= 700 -> Forall (fun q => length (so_domain q) + length (so_selector q) <= 254) (all_signatures o) ->
  Forall (fun x => length x <= 995) (listed_names h_name o fs) -> lines_within 998 H.
Proof.
  intros HF CS A B DG I D F. eapply lines_short; [exact HF|exact CS|lia|exact A|exact DG|]. split.
  - eapply Forall_impl; [|exact F]. intros x. cbn beta. lia.
  - intros q u Q (i & l & Hi & Hl & ->). rewrite Forall_forall in D. specialize (D q Q). cbn beta in D.
    assert (LI : length i <= 704).
    { destruct Hi as [(_ & ->)|(_ & e & -> & W)]; [cbn; lia|]. assert (K : length e <= 3 * length (o_identity o)) by (induction W; cbn [length] in *; lia).
      rewrite app_length. cbn [str list_ascii_of_string length]. lia. }
    assert (LL : length l <= 24).
    { unfold if_set in Hl. destruct (o_signlen o); [|subst; cbn; lia]. destruct Hl as (d & -> & X). apply number_64 in X; [|exact B].
      rewrite app_length. cbn [str list_ascii_of_string length]. lia. }
    cbn [length]. rewrite !app_length. cbn [str list_ascii_of_string length]. lia.
Qed.
