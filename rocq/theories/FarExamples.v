(** A signature field of 2 GiB (for C103). *)
From Verif Require Import Bytes Outcome Stream Tokenizer Base64 TagList MailParser Canonicalization Util Crypto Signature
  PublicKey Validatory BytesFacts StreamFacts SpecText SpecMail SpecCanon SpecTags SpecVerify SpecSig SpecKey SpecParse SpecTool SpecDns SpecPass
  QPFacts ListFacts ListExact ListWide MailFacts BodyFacts BodyProps HeaderFacts HeaderProps SelectFacts TagListFacts SigFacts SigProps
  KeyFacts VerifyFacts TagPosition VerifyProps KeyExact ResultClass SigExact Tool ToolFacts ToolMain PassFacts SpecFar FarFacts Examples VerifyExamples Program.
Local Open Scope string_scope. Local Open Scope list_scope.

Fixpoint written (l : list (bytes * bytes)) (n v : bytes) : bytes :=
  match l with
  | [] => SP :: n ++ EQUALS :: v
  | (m, w) :: r => SP :: m ++ EQUALS :: w ++ SEMI :: written r n v
  end.
Definition fair (x : bytes * bytes) : Prop := tag_name (fst x) /\ tag_value (snd x).
Lemma sp_lwsp : Forall LWSP [SP].
Proof. constructor; [|constructor]. unfold LWSP, WSP. auto. Qed.
Lemma written_tags l n v : Forall fair l -> fair (n, v) -> rendered_tags (l ++ [(n, v)]) (written l n v).
Proof.
  intros F [N V]. induction F as [|[m w] l [M W] F IH]; cbn [app written].
  - pose proof (rt_last [SP] n [] [] v [] sp_lwsp N (Forall_nil _) (Forall_nil _) V (Forall_nil _)) as R. cbn [app] in R. rewrite app_nil_r in R. exact R.
  - exact (rt_more [SP] m [] [] w [] _ _ sp_lwsp M (Forall_nil _) (Forall_nil _) W (Forall_nil _) IH).
Qed.
Fixpoint before (l : list (bytes * bytes)) : bytes :=
  match l with
  | [] => []
  | (m, w) :: r => (SP :: m ++ EQUALS :: w ++ [SEMI]) ++ before r
  end.
Lemma written_before l n v : written l n v = before l ++ SP :: n ++ EQUALS :: v.
Proof.
  induction l as [|[m w] l IH]; cbn [written before]; [reflexivity|]. rewrite IH. repeat (cbn [app]; rewrite <- ?app_assoc). reflexivity.
Qed.
Lemma before_end l : before l = [] \/ exists u, before l = u ++ [SEMI].
Proof.
  induction l as [|[m w] l IH]; [left; reflexivity|]. right. cbn [before]. destruct IH as [->|(u & ->)].
  - exists (SP :: m ++ EQUALS :: w). repeat (cbn [app]; rewrite <- ?app_assoc). reflexivity.
  - exists ((SP :: m ++ EQUALS :: w ++ [SEMI]) ++ u). rewrite <- app_assoc. reflexivity.
Qed.
Lemma written_at l n v : fair (n, v) -> tag_at n (written l n v) (before l ++ SP :: n ++ [EQUALS]) v [].
Proof.
  intros [_ V]. cbn [snd] in V. split; [rewrite written_before, app_nil_r; repeat (cbn [app]; rewrite <- ?app_assoc); reflexivity|]. split; [exact V|]. split.
  - exists (before l), [SP], [], []. split; [cbn [app]; reflexivity|]. split; [apply before_end|]. split; [exact sp_lwsp|auto].
  - exists [], []. auto.
Qed.

(** The tags, with any printable text as z=. *)
Definition far_tags (z : bytes) : list (bytes * bytes) :=
  [(str "v", str "1"); (str "a", str "rsa-sha256"); (str "d", str "ex.org"); (str "s", str "s1"); (str "h", str "From");
   (str "bh", Base64_Encode (toy_hash 32 CRLF)); (str "z", z)].
Definition far_value (z : bytes) : bytes := written (far_tags z) (str "b") (str "QUJD").
Definition far_field (z : bytes) : bytes := str "DKIM-Signature" ++ COLON :: far_value z.
Definition far_header (z : bytes) : header := mkHeader (str "DKIM-Signature") (far_field z) 15.
Definition far_mail (z : bytes) : bytes := far_field z ++ CRLF ++ CRLF.
Definition plain_byte (c : ascii) : bool := ((33 <=? code c) && (code c <=? 126) && negb (code c =? 59))%N.
Lemma plain_value z : forallb plain_byte z = true -> tag_value z.
Proof.
  intros F. rewrite forallb_forall in F. assert (V : forall c, In c z -> value_byte c).
  { intros c I. specialize (F c I). unfold plain_byte in F. apply andb_true_iff in F as [F N]. apply andb_true_iff in F as [A B].
    apply N.leb_le in A, B. split; [split; assumption|]. intros ->. discriminate N. }
  split; [apply Forall_forall; auto|]. unfold last_ok, first_ok. split.
  - destruct z; [exact I|]. apply V. left. reflexivity.
  - destruct (rev z) as [|c r] eqn:E; [exact I|]. apply V. apply in_rev. rewrite E. left. reflexivity.
Qed.
Definition name_ok (c : ascii) : bool := ((97 <=? code c) && (code c <=? 122))%N.
Lemma plain_name n : negb (match n with [] => true | _ => false end) && forallb name_ok n = true -> tag_name n.
Proof.
  intros F. apply andb_true_iff in F as [NE F]. split; [intros ->; discriminate|]. apply Forall_forall. intros c I. rewrite forallb_forall in F. specialize (F c I).
  apply andb_true_iff in F as [A B]. apply N.leb_le in A, B. right. left. split; assumption.
Qed.
Section Z.
Context (z : bytes) (PZ : forallb plain_byte z = true).
Lemma far_fair : Forall fair (far_tags z) /\ fair (str "b", str "QUJD").
Proof using PZ.
  split; [|split; [apply plain_name|apply plain_value]; vm_compute; reflexivity].
  unfold far_tags. repeat (apply Forall_cons; [split; cbn [fst snd]; [apply plain_name; vm_compute; reflexivity|apply plain_value; first [exact PZ|vm_compute; reflexivity]]|]). constructor.
Qed.
Lemma far_skip : skipn 15 (far_field z) = far_value z.
Proof using. reflexivity. Qed.
Lemma far_list : field_tags (far_header z) (far_tags z ++ [(str "b", str "QUJD")]).
Proof using PZ.
  split; [cbn [h_voff far_header h_text]; unfold far_field; rewrite app_length; cbn; lia|]. split.
  - cbn [h_voff h_text far_header]. rewrite far_skip. apply written_tags; apply far_fair.
  - assert (E : map fst (far_tags z ++ [(str "b", str "QUJD")]) = map str ["v"; "a"; "d"; "s"; "h"; "bh"; "z"; "b"]) by reflexivity. rewrite E.
    repeat (constructor; [intros I; cbn in I; decompose [or] I; try discriminate; contradiction|]). constructor.
Qed.
Lemma far_at : tag_at (str "b") (skipn 15 (far_field z)) (before (far_tags z) ++ SP :: str "b" ++ [EQUALS]) (str "QUJD") [].
Proof using PZ. rewrite far_skip. apply written_at. apply far_fair. Qed.
Lemma far_length : length (before (far_tags z) ++ SP :: str "b" ++ [EQUALS]) = length (before (far_tags []) ++ SP :: str "b" ++ [EQUALS]) + length z.
Proof using. unfold far_tags. cbn [before]. repeat (rewrite ?app_length; cbn [length app]). lia. Qed.
End Z.
Lemma other_tags y z n v : n <> "z" -> has (far_tags y ++ [(str "b", str "QUJD")]) n v -> has (far_tags z ++ [(str "b", str "QUJD")]) n v.
Proof.
  unfold has, far_tags. intros NZ I. cbn [app In] in *. decompose [or] I; clear I; try tauto. exfalso. apply NZ.
  match goal with H : (str "z", y) = _ |- _ => injection H as H _ end. destruct n as [|c [|d n]]; try discriminate. cbn in H. congruence.
Qed.
Lemma same_names y z n : lacks (far_tags y ++ [(str "b", str "QUJD")]) n -> lacks (far_tags z ++ [(str "b", str "QUJD")]) n.
Proof. unfold lacks, far_tags. cbn [map app fst]. auto. Qed.
Lemma far_taken z : exists g, taken toy 1 (far_header z) (far_tags z ++ [(str "b", str "QUJD")]) false g false /\ sg_selector g = str "s1" /\ sg_domain g = str "ex.org" /\
  sg_alg g = RSA /\ sg_digest g = SHA256 /\ sg_bh g = toy_hash 32 CRLF /\ sg_limit g = false /\ sg_cbody g = SIMPLE /\ sg_chead g = SIMPLE /\ sg_mdomain g = str "ex.org" /\ sg_headers g = [str "From"].
Proof.
  assert (X : exists g, Signature_Parse toy false 1 (far_header []) (new_signature, false) = ((g, false), Ok tt) /\ sg_selector g = str "s1" /\ sg_domain g = str "ex.org" /\
    sg_alg g = RSA /\ sg_digest g = SHA256 /\ sg_bh g = toy_hash 32 CRLF /\ sg_limit g = false /\ sg_cbody g = SIMPLE /\ sg_chead g = SIMPLE /\ sg_mdomain g = str "ex.org" /\ sg_headers g = [str "From"])
    by (eexists; split; [vm_compute; reflexivity|vm_compute; repeat split]).
  destruct X as (g & P & X).
  exists g. destruct (retag g) as (tags & TG). rewrite <- TG in P.
  pose proof (proj1 (parse_exact toy 1 (far_header []) false _ (far_list [] eq_refl) g false) (ex_intro _ tags P)) as T.
  split.
  - unfold taken in *. cbn [h_name far_header] in *.
    pose proof (fun n v (N : n <> "z") => other_tags [] z n v N) as O. pose proof (same_names [] z) as S.
    destruct T as ((d & D1 & D2) & T2 & (a & A1 & A2) & (b & B1 & B2) & (bh & B3 & B4) & (hv & HH1 & HH2) & TC & TQ & TA & TI & TL & TX).
    split; [|split; [|split; [|split; [|split; [|split; [|split; [|split; [|split; [exact TA|split; [|split]]]]]]]]]].
    + exists d. split; [apply O; [discriminate|exact D1]|exact D2].
    + apply O; [discriminate|exact T2].
    + exists a. split; [apply O; [discriminate|exact A1]|exact A2].
    + exists b. split; [apply O; [discriminate|exact B1]|exact B2].
    + exists bh. split; [apply O; [discriminate|exact B3]|exact B4].
    + exists hv. split; [apply O; [discriminate|exact HH1]|exact HH2].
    + destruct TC as [[L TC]|(c & H & TC)]; [left; split; [apply S; exact L|exact TC]|right; exists c; split; [apply O; [discriminate|exact H]|exact TC]].
    + destruct TQ as [L|H]; [left; apply S; exact L|right; apply O; [discriminate|exact H]].
    + destruct TI as [(I1 & _)|(I1 & I2 & I3 & I4)]; [exfalso; rewrite TA in I1; vm_compute in I1; discriminate|]. right. split; [exact I1|]. split; [apply O; [discriminate|exact I2]|]. split; [exact I3|].
      destruct I4 as [(L & I4)|(i & raw & H & I4)]; [left; split; [apply S; exact L|exact I4]|right; exists i, raw; split; [apply O; [discriminate|exact H]|exact I4]].
    + destruct TL as [(L & TL)|(v & H & TL)]; [left; split; [apply S; exact L|exact TL]|right; exists v; split; [apply O; [discriminate|exact H]|exact TL]].
    + destruct TX as [(L & TX)|(x & t & er & H & TX)]; [left; split; [apply S; exact L|exact TX]|right; exists x, t, er; split; [apply O; [discriminate|exact H]|exact TX]].
  - exact X.
Qed.
Lemma no_lf z : forallb plain_byte z = true -> ~ In LF (far_field z) /\ ~ In CR (far_field z).
Proof.
  intros F. assert (K : forall c, In c (far_field z) -> In c (far_field []) \/ In c z).
  { intros c. unfold far_field, far_value. rewrite !written_before. unfold far_tags. cbn [before]. intros I. repeat (rewrite ?in_app_iff in *; cbn [app In] in * ). tauto. }
  rewrite forallb_forall in F. split; intros I; destruct (K _ I) as [J|J]; try (apply F in J; discriminate J);
    (assert (Y : existsb (fun c => (c =?c LF) || (c =?c CR)) (far_field []) = true) by (apply existsb_exists; eexists; split; [exact J|reflexivity]); vm_compute in Y; discriminate Y).
Qed.
Lemma far_fields z : forallb plain_byte z = true -> has_fields (far_mail z) [far_header z].
Proof.
  intros PZ. destruct (no_lf z PZ) as [NL NC]. exists [far_field z], (far_field z ++ CRLF ++ []), CRLF, [[far_field z]]. split; [apply hb_cons; [discriminate|exact NL|apply le_crlf|apply hb_nil]|].
  split; [unfold far_mail; rewrite app_nil_r, <- app_assoc; reflexivity|]. split; [left; split; [exists CRLF, []; split; [apply le_crlf|reflexivity]|reflexivity]|].
  split; [constructor; [constructor|constructor]|]. split; [constructor|]. constructor; [|constructor]. split; [reflexivity|].
  cbn [joined h_name h_voff far_header]. apply (named_colon [] (str "DKIM-Signature") [] (far_value z)); auto.
  - cbn. intros I. decompose [or] I; try discriminate; contradiction.
  - split; intros [E|E]; vm_compute in E; discriminate E.
Qed.
Lemma far_body z : forallb plain_byte z = true -> message_body (far_mail z) [] /\ canonical_body false [] CRLF.
Proof.
  intros PZ. destruct (no_lf z PZ) as [NL NC]. assert (NE : far_field z <> []) by discriminate. split.
  - pose proof (mb_blank [far_field z] (far_field z ++ CRLF ++ []) CRLF [] (hb_cons _ _ _ _ NE NL (le_crlf _) hb_nil) (le_crlf _)) as M.
    rewrite !app_nil_r, <- app_assoc in M. exact M.
  - apply (cb_empty false [] [[]] 1); [|reflexivity]. split; [discriminate|]. split; [|reflexivity]. constructor; [intros []|constructor].
Qed.
Lemma far_run z : forallb plain_byte z = true -> (2147483648 <= int_place (before (far_tags z) ++ SP :: str "b" ++ [EQUALS]))%Z ->
  tool_main toy false (fun _ => 1%Z) (fun _ => Ok (true, rsa_record)) (fun _ => Some (far_mail z)) [str "-v"; str "file"] = (P_lines [], Uncaught StdOutOfRange).
Proof.
  intros PZ FAR. set (res := fun _ : bytes => Ok (true, rsa_record)). unfold tool_main.
  assert (G : exists a, getopt [str "-v"; str "file"] = ([Opt (chr 118) None], [str "file"]) /\ take_options [Opt (chr 118) None] new_args = inl a /\ a_validate a = true /\ a_type a = V_DKIM /\ a_errno a = false) by (eexists; vm_compute; repeat split).
  destruct G as (a & -> & -> & -> & -> & ->). cbv beta iota. cbn [tool_files open_file].
  destruct (new_validatory_total false V_DKIM (far_mail z)) as (v & NV); [discriminate|]. rewrite NV. pose proof (in_use_fresh _ _ _ _ NV) as U.
  destruct (listed _ _ _ _ NV) as (m & s & P & VM & _ & VS). pose proof (has_fields_unique _ _ _ (parse_fields _ _ _ P) (far_fields z PZ)) as MH.
  rewrite MH in VS. assert (VS' : v_sigs v = [far_header z]) by (rewrite VS; reflexivity). rewrite VS'. cbn [tool_sigs].
  destruct (far_taken z) as (g & TK & SEL & DOM & ALG & DIG & BH & LIM & CB & CH & MD & HS).
  destruct (proj2 (parse_exact toy 1 (far_header z) false _ (far_list z PZ) g false) TK) as (tags & SP).
  assert (T : exists v' p, try_one toy false 1 res (far_header z) false v = (v', false, set_tags tags g, p, Throw StdOutOfRange)).
  { unfold try_one. destruct (GetSignature_spec toy false V_DKIM (far_mail z) v 1 (far_header z) (new_signature, false) U) as (v' & U' & E). rewrite SP in E. cbn [fst] in E.
    destruct (far_body z PZ) as [MB CBO].
    assert (BHO : snd (CheckBodyHash toy (set_tags tags g) v) = Ok tt).
    { apply (CheckBodyHash_iff toy false V_DKIM (far_mail z) v (set_tags tags g) [] CRLF U MB).
      - change (sg_cbody (set_tags tags g)) with (sg_cbody g). rewrite CB. exact CBO.
      - change (sg_bh (set_tags tags g)) with (sg_bh g). change (sg_limit (set_tags tags g)) with (sg_limit g). change (sg_digest (set_tags tags g)) with (sg_digest g). rewrite BH, LIM, DIG. reflexivity. }
    rewrite BHO in E. rewrite E. cbn [fst snd].
    assert (K : exists p, PublicKey_Parse toy false rsa_record new_public_key = (p, Ok tt) /\ pk_alg p = RSA /\ pk_digests p = [] /\ pk_flags p = []) by (eexists; split; [vm_compute; reflexivity|vm_compute; auto]).
    destruct K as (p & KP & KA & KD & KF).
    assert (GP : GetPublicKey toy false res (set_tags tags g) new_public_key = (p, Ok tt)) by (unfold GetPublicKey, res; cbn [slift]; exact KP).
    rewrite GP. exists v', p. f_equal.
    rewrite (CheckSignature_use toy false V_DKIM (far_mail z) v' v) by auto.
    apply (proj2 (far_check toy false 1 (far_header z) false (set_tags tags g) false _ _ _ SP (far_at z PZ) false rsa_record new_public_key p v KP)).
    - exact FAR.
    - apply allows_permits. unfold key_allows. rewrite KD, KA, KF. change (sg_alg (set_tags tags g)) with (sg_alg g). rewrite ALG. cbn. rewrite orb_true_r. reflexivity.
    - rewrite VM, MH. change (sg_headers (set_tags tags g)) with (sg_headers g). rewrite HS. exists []. 
      assert (E0 : selection h_name [far_header z] [] [str "From"] = []) by reflexivity. rewrite E0. constructor. }
  destruct T as (v' & p & ->). cbn [report_of]. reflexivity.
Qed.
Lemma far_exists : exists z, forallb plain_byte z = true /\ (2147483648 <= int_place (before (far_tags z) ++ SP :: str "b" ++ [EQUALS]))%Z.
Proof.
  exists (repeat (chr 97) (Z.to_nat 2147483648)). split.
  - apply forallb_forall. intros c I. apply repeat_spec in I. subst c. reflexivity.
  - unfold int_place. rewrite far_length, repeat_length, Nat2Z.inj_add, Z2Nat.id by lia.
    replace (Z.of_nat (length (before (far_tags []) ++ SP :: str "b" ++ [EQUALS]))) with 99%Z by (vm_compute; reflexivity). rewrite Z.mod_small by lia. lia.
Qed.
Lemma far_ends : exists t, tool_main toy false (fun _ => 1%Z) (fun _ => Ok (true, rsa_record)) (fun _ => Some t) [str "-v"; str "file"] = (P_lines [], Uncaught StdOutOfRange).
Proof. destruct far_exists as (z & PZ & F). exists (far_mail z). exact (far_run z PZ F). Qed.
Lemma wrap_other : exists pre b post, (int_place pre < 2147483648)%Z /\ without (pre ++ b ++ post) (Z.to_nat (int_place pre)) (length b) <> pre ++ post.
Proof.
  destruct (Z.to_nat 4294967296) as [|n] eqn:E; [lia|]. assert (L : Z.of_nat (S n) = 4294967296%Z) by lia. clear E. exists (repeat (chr 97) (S n)), [chr 98], [].
  assert (I : int_place (repeat (chr 97) (S n)) = 0%Z) by (unfold int_place; rewrite repeat_length, L; reflexivity). rewrite I. split; [lia|].
  change (Z.to_nat 0) with 0. unfold without. cbn [firstn length plus skipn repeat app]. rewrite app_nil_r. intros E.
  assert (K : In (chr 98) (chr 97 :: repeat (chr 97) n)) by (rewrite <- E; apply in_or_app; right; left; reflexivity).
  change (In (chr 98) (repeat (chr 97) (S n))) in K. apply repeat_spec in K. discriminate K.
Qed.
(** A place below 2 GiB: the small message of C26. *)
Lemma near_case : exists pre b post, tag_at (str "b") (skipn 15 (far_field (str "a"))) pre b post /\ int_place pre = 100%Z.
Proof. do 3 eexists. split; [apply (far_at (str "a") eq_refl)|vm_compute; reflexivity]. Qed.
