(** Signatures that follow the RFC and are refused or misread. *)
From Verif Require Import Bytes Outcome Canonicalization Util MailParser Crypto Base64 Signature
  SpecText SpecTags SpecCanon SpecAddress SpecVerify SpecSig SpecRfc BytesFacts RfcFacts Examples.

Fixpoint flat (l : list (bytes * bytes)) : bytes :=
  match l with
  | [] => []
  | [(n, v)] => n ++ EQUALS :: v
  | (n, v) :: r => n ++ EQUALS :: v ++ SEMI :: SP :: flat r
  end.
Lemma flat_specs l : l <> [] -> Forall (fun x => rfc_name (fst x) /\ (snd x = [] \/ rfc_tvals (snd x))) l -> rfc_specs l (flat l).
Proof.
  intros N F. assert (X : forall w, opt_FWS w -> rfc_specs l (w ++ flat l)).
  { induction l as [|[n v] l IH]; [contradiction|]. inversion F as [|? ? [A B] F']. subst. cbn [fst snd] in *. intros w W. destruct l as [|y l].
    - apply rs_last. cbn [flat]. replace (w ++ n ++ EQUALS :: v) with (w ++ n ++ [] ++ EQUALS :: [] ++ v ++ []) by (cbn [app]; rewrite app_nil_r; reflexivity).
      constructor; auto; try (left; reflexivity).
    - change (flat ((n, v) :: y :: l)) with (n ++ EQUALS :: v ++ SEMI :: SP :: flat (y :: l)).
      replace (w ++ n ++ EQUALS :: v ++ SEMI :: SP :: flat (y :: l)) with ((w ++ n ++ [] ++ EQUALS :: [] ++ v ++ []) ++ SEMI :: [SP] ++ flat (y :: l)).
      + apply rs_more; [constructor; auto; left; reflexivity|]. apply IH; [discriminate|exact F'|]. right. apply FWS_plain; [repeat constructor|discriminate].
      + rewrite <- !app_assoc. cbn [app]. rewrite app_nil_r. reflexivity. }
  exact (X [] (or_introl eq_refl)).
Qed.

Ltac byte := first [split; vm_compute; discriminate | vm_compute; reflexivity | left; byte | right; byte].
Ltac bytes_ok := repeat (apply Forall_cons; [byte|]); apply Forall_nil.

Definition sample_tags (more : list (bytes * bytes)) : list (bytes * bytes) :=
  [(str "v", str "1"); (str "a", str "rsa-sha256"); (str "d", str "ex.org"); (str "s", str "s1"); (str "h", str "From"); (str "bh", str "YWJj"); (str "b", str "YWJj")] ++ more.
Definition tags_field (l : list (bytes * bytes)) : header := mkHeader (str "DKIM-Signature") (str "DKIM-Signature:" ++ flat l) 15.

Lemma ex_domain : domain_name (str "ex.org").
Proof.
  split; [|right; right; left; reflexivity]. change (str "ex.org") with (str "ex" ++ DOT :: str "org"). apply do_dot; [|apply do_one].
  - split; [discriminate|]. split; [bytes_ok|]. split; byte.
  - split; [discriminate|]. split; [bytes_ok|]. split; byte.
Qed.
Lemma sub_ex_domain : domain_name (str "x.ex.org").
Proof.
  split; [|right; left; reflexivity]. change (str "x.ex.org") with (str "x" ++ DOT :: str "ex.org"). apply do_dot; [|apply ex_domain].
  split; [discriminate|]. split; [bytes_ok|]. split; byte.
Qed.
Lemma abc64 : base64string (str "YWJj").
Proof.
  constructor; [byte|]. apply (bm_char []); [left; reflexivity|byte|]. apply (bm_char []); [left; reflexivity|byte|]. apply (bm_char []); [left; reflexivity|byte|]. constructor.
Qed.
(** The tags [more] are among i=, l= and q=. *)
Lemma sample_rfc n v now : rfc_name (str n) -> rfc_tvals v -> In n ["i"; "l"; "q"]%string ->
  (n = "i"%string -> exists lp dom, qp_text false v (lp ++ AT :: dom) /\ (lp = [] \/ local_part lp) /\ domain_name dom /\ in_domain (map low dom) (str "ex.org")) ->
  (n = "l"%string -> number 76 v) -> (n = "q"%string -> exists ms, rfc_list query_method ms v /\ In (str "dns/txt") ms) ->
  rfc_field now (tags_field (sample_tags [(str n, v)])) (sample_tags [(str n, v)]) SHA256 RSA (str "ex.org") (str "s1") (str "YWJj") (str "YWJj") [str "From"].
Proof.
  intros RN RV IN HI HL HQ. assert (NN : In (str n) [str "i"; str "l"; str "q"]).
  { destruct IN as [<-|[<-|[<-|[]]]]; [left|right; left|right; right; left]; reflexivity. }
  assert (OT : forall m (P : bytes -> Prop), (m = n -> P v) -> ~ In (str m) (map fst (sample_tags [])) -> opt_tag (sample_tags [(str n, v)]) m P).
  { intros m P HP NI x I. unfold tag, sample_tags in I. apply in_app_or in I as [I|[I|[]]].
    - destruct NI. apply (in_map fst) in I. exact I.
    - injection I as I1 <-. apply HP. symmetry. apply (f_equal string_of_list_ascii) in I1. unfold str in I1. rewrite !string_of_list_ascii_of_string in I1. exact I1. }
  assert (NM : forall m, In m ["c"; "t"; "x"; "i"; "l"; "q"]%string -> ~ In (str m) (map fst (sample_tags []))).
  { intros m I J. cbn [map sample_tags fst app] in J. repeat (destruct I as [<-|I]; [repeat (destruct J as [J|J]; [discriminate J|]); destruct J|]). destruct I. }
  split; [cbn; lia|]. split; [split|split; [reflexivity|split]].
  - apply flat_specs; [discriminate|]. unfold sample_tags. cbn [app].
    repeat (apply Forall_cons; [cbn [fst snd]; split; [constructor; [byte|bytes_ok]|right; apply rt_tval; [discriminate|bytes_ok]]|]).
    apply Forall_cons; [|constructor]. cbn [fst snd]. auto.
  - unfold sample_tags. cbn [app map fst].
    repeat (apply NoDup_cons; [intros K; repeat (destruct K as [K|K]; [first [discriminate K|rewrite K in NN; repeat (destruct NN as [NN|NN]; [discriminate NN|]); destruct NN]|]); destruct K|]).
    apply NoDup_nil.
  - apply (rfc_signature_intro _ _ _ _ _ _ _ _ (str "rsa-sha256") (str "From")).
    1,2,4,6,9,11,17: (unfold tag, sample_tags; cbn; tauto).
    1: constructor. 1,2: apply abc64. 2: apply ex_domain.
    + apply OT; [intros E; subst n|apply NM; cbn; tauto]. repeat (destruct IN as [IN|IN]; [discriminate IN|]). destruct IN.
    + apply rfl_one. split; [discriminate|bytes_ok].
    + exists (str "From"). split; [left; reflexivity|reflexivity].
    + apply OT; [intros E; exact (HI (eq_sym E))|apply NM; cbn; tauto].
    + apply OT; [intros E; exact (HL (eq_sym E))|apply NM; cbn; tauto].
    + apply OT; [intros E; exact (HQ (eq_sym E))|apply NM; cbn; tauto].
    + apply do_one. split; [discriminate|]. split; [bytes_ok|]. split; byte.
    + apply OT; [intros E; subst n|apply NM; cbn; tauto]. repeat (destruct IN as [IN|IN]; [discriminate IN|]). destruct IN.
    + apply OT; [intros E; subst n|apply NM; cbn; tauto]. repeat (destruct IN as [IN|IN]; [discriminate IN|]). destruct IN.
  - apply OT; [intros E; subst n|apply NM; cbn; tauto]. repeat (destruct IN as [IN|IN]; [discriminate IN|]). destruct IN.
Qed.

Definition query_tags : list (bytes * bytes) := sample_tags [(str "q", str "dns/txt:x-other")].
Lemma query_refused now : rfc_field now (tags_field query_tags) query_tags SHA256 RSA (str "ex.org") (str "s1") (str "YWJj") (str "YWJj") [str "From"] /\
  forall C, snd (Signature_Parse C false now (tags_field query_tags) (new_signature, false)) = perm.
Proof.
  split; [|intros C; reflexivity]. apply sample_rfc; try (intros E; discriminate E).
  - constructor; [byte|constructor].
  - apply rt_tval; [discriminate|bytes_ok].
  - cbn; tauto.
  - intros _. exists [str "dns/txt"; str "x-other"]. split; [|left; reflexivity].
    apply (rfl_more query_method (str "dns/txt") [] [] [str "x-other"] (str "x-other")); [left; reflexivity|left; reflexivity|left; reflexivity|].
    apply rfl_one. right. left. split; [discriminate|]. split; [bytes_ok|]. split; byte.
Qed.
Definition length_tags : list (bytes * bytes) := sample_tags [(str "l", str "9223372036854775808")].
Lemma length_refused now : rfc_field now (tags_field length_tags) length_tags SHA256 RSA (str "ex.org") (str "s1") (str "YWJj") (str "YWJj") [str "From"] /\
  forall C, snd (Signature_Parse C false now (tags_field length_tags) (new_signature, false)) = perm.
Proof.
  split; [|intros C; reflexivity]. apply sample_rfc; try (intros E; discriminate E).
  - constructor; [byte|constructor].
  - apply rt_tval; [discriminate|bytes_ok].
  - cbn; tauto.
  - intros _. split; [discriminate|]. split; [bytes_ok|]. cbn. lia.
Qed.
Definition DQS : bytes := [DQ].
Definition odd_identity (d : string) : bytes := DQS ++ str "a@b" ++ DQS ++ str "@" ++ str d.
Definition identity_tags (d : string) : list (bytes * bytes) := sample_tags [(str "i", odd_identity d)].
Lemma quoted_local : local_part (DQS ++ str "a@b" ++ DQS).
Proof. right. exists (str "a@b"). split; [reflexivity|]. repeat (apply qc_text; [byte|]). constructor. Qed.
Lemma identity_refused now : rfc_field now (tags_field (identity_tags "ex.org")) (identity_tags "ex.org") SHA256 RSA (str "ex.org") (str "s1") (str "YWJj") (str "YWJj") [str "From"] /\
  forall C, snd (Signature_Parse C false now (tags_field (identity_tags "ex.org")) (new_signature, false)) = perm.
Proof.
  split; [|intros C; reflexivity]. apply sample_rfc; try (intros E; discriminate E).
  - constructor; [byte|constructor].
  - apply rt_tval; [discriminate|unfold odd_identity; bytes_ok].
  - cbn; tauto.
  - intros _. exists (DQS ++ str "a@b" ++ DQS), (str "ex.org"). split; [apply (proj1 (QPFacts.qp_decode_grammar false _)); vm_compute; reflexivity|].
    split; [right; apply quoted_local|]. split; [apply ex_domain|left; reflexivity].
Qed.
Lemma identity_misread now : rfc_field now (tags_field (identity_tags "x.ex.org")) (identity_tags "x.ex.org") SHA256 RSA (str "ex.org") (str "s1") (str "YWJj") (str "YWJj") [str "From"] /\
  qp_text false (odd_identity "x.ex.org") ((DQS ++ str "a@b" ++ DQS) ++ AT :: str "x.ex.org") /\ local_part (DQS ++ str "a@b" ++ DQS) /\
  exists g, Signature_Parse toy false now (tags_field (identity_tags "x.ex.org")) (new_signature, false) = ((g, false), Ok tt) /\
    sg_local g = DQS ++ str "a" /\ sg_mdomain g = str "b" ++ DQS ++ str "@x.ex.org".
Proof.
  assert (Q : qp_text false (odd_identity "x.ex.org") ((DQS ++ str "a@b" ++ DQS) ++ AT :: str "x.ex.org")) by (apply (proj1 (QPFacts.qp_decode_grammar false _)); vm_compute; reflexivity).
  split; [|split; [exact Q|split; [apply quoted_local|]]].
  - apply sample_rfc; try (intros E; discriminate E).
    + constructor; [byte|constructor].
    + apply rt_tval; [discriminate|unfold odd_identity; bytes_ok].
    + cbn; tauto.
    + intros _. exists (DQS ++ str "a@b" ++ DQS), (str "x.ex.org"). split; [exact Q|].
      split; [right; apply quoted_local|]. split; [apply sub_ex_domain|right; exists (str "x"); reflexivity].
  - eexists. split; [vm_compute; reflexivity|]. split; reflexivity.
Qed.
Lemma query_case now : exists h l d s b names, rfc_field now h l SHA256 RSA d s b b names /\
  tag l "q" (str "dns/txt:x-other") /\ forall C, snd (Signature_Parse C false now h (new_signature, false)) = perm.
Proof. destruct (query_refused now) as [A B]. do 6 eexists. split; [exact A|]. split; [|exact B]. cbn; tauto. Qed.
Lemma length_case now : exists h l d s b names, rfc_field now h l SHA256 RSA d s b b names /\
  tag l "l" (str "9223372036854775808") /\ forall C, snd (Signature_Parse C false now h (new_signature, false)) = perm.
Proof. destruct (length_refused now) as [A B]. do 6 eexists. split; [exact A|]. split; [|exact B]. cbn; tauto. Qed.
Lemma local_case now : exists h l d s b names i, rfc_field now h l SHA256 RSA d s b b names /\
  tag l "i" i /\ forall C, snd (Signature_Parse C false now h (new_signature, false)) = perm.
Proof. destruct (identity_refused now) as [A B]. do 6 eexists. exists (odd_identity "ex.org"). split; [exact A|]. split; [|exact B]. cbn; tauto. Qed.
Lemma identity_case now : exists h l d s b names i lp dom g, rfc_field now h l SHA256 RSA d s b b names /\ tag l "i" i /\
  qp_text false i (lp ++ AT :: dom) /\ local_part lp /\ Signature_Parse toy false now h (new_signature, false) = ((g, false), Ok tt) /\
  sg_local g <> lp /\ sg_mdomain g <> map low dom.
Proof.
  destruct (identity_misread now) as (R & Q & L & g & P & E1 & E2). do 6 eexists. exists (odd_identity "x.ex.org"). do 2 eexists. exists g.
  split; [exact R|]. split; [cbn; tauto|]. split; [exact Q|]. split; [exact L|]. split; [exact P|]. rewrite E1, E2. split; discriminate.
Qed.
Definition good_tags : list (bytes * bytes) := sample_tags [(str "q", str "dns/txt")].
Lemma good_case now : rfc_field now (tags_field good_tags) good_tags SHA256 RSA (str "ex.org") (str "s1") (str "YWJj") (str "YWJj") [str "From"] /\ readable good_tags (str "ex.org").
Proof.
  split.
  - apply sample_rfc; try (intros E; discriminate E).
    + constructor; [byte|constructor].
    + apply rt_tval; [discriminate|bytes_ok].
    + cbn; tauto.
    + intros _. exists [str "dns/txt"]. split; [apply rfl_one; left; reflexivity|left; reflexivity].
  - split; [|split]; intros v I; unfold tag, good_tags, sample_tags in I; cbn [app In] in I;
      repeat (destruct I as [I|I]; [try discriminate I; try (injection I as <-; reflexivity)|]); destruct I.
Qed.
