(** Key records that follow the RFC. *)
From Verif Require Import Bytes Outcome Canonicalization Util MailParser Crypto Base64 Signature PublicKey Tokenizer
  SpecText SpecTags SpecCanon SpecVerify SpecSig SpecParse SpecKey SpecRfc BytesFacts TagListFacts ListFacts ListWide RfcFacts KeyExact.

Lemma ldh_plain c : ldh c -> plain_byte c.
Proof.
  unfold ldh, let_dig, ALPHA, DIGIT, plain_byte, between, WSP. intros H.
  repeat split; [intros [->| ->]|intros ->|intros ->]; destruct H as [H|H]; try discriminate H; cbv [SP HT CR COLON] in H; rewrite ?code_chr in H; lia.
Qed.
Lemma word_plain v : hyphenated_word v -> v <> [] /\ Forall plain_byte v.
Proof. intros (N & F & _). split; auto. eapply Forall_impl; [|exact F]. apply ldh_plain. Qed.
Lemma service_plain v : service_name v -> v <> [] /\ Forall plain_byte v.
Proof.
  intros [->|W]; [|apply word_plain; auto]. split; [discriminate|]. constructor; [|constructor]. unfold plain_byte, WSP. repeat split; [intros [E|E]|..]; discriminate.
Qed.
Lemma list_read (P : bytes -> Prop) vs t : (forall v, P v -> v <> [] /\ Forall plain_byte v) -> rfc_list P vs t -> t <> [] /\ forall vs', list_wide vs' t <-> vs' = vs.
Proof.
  intros H L. pose proof (ValueList_rendered _ _ (rfc_list_rendered P vs t H L)) as E. split.
  - destruct L as [v PV|v w1 w2 vs r PV _ _ _]; destruct (H v PV) as [N _]; [exact N|]. destruct v; [contradiction|discriminate].
  - intros vs'. rewrite <- ValueList_wide, E. split; [intros [= ->]; reflexivity|intros ->; reflexivity].
Qed.
Lemma digests_exist vs : exists ds, digests_of vs ds.
Proof.
  induction vs as [|v vs (ds & D)]; [exists []; constructor|].
  destruct (list_eq_dec ascii_dec v (digest_name SHA1)) as [->|N1]; [eexists; apply do_known; eauto|].
  destruct (list_eq_dec ascii_dec v (digest_name SHA256)) as [->|N2]; [eexists; apply do_known; eauto|].
  exists ds. apply do_other; auto. intros []; auto.
Qed.
Lemma services_exist vs : exists ss, services_of vs ss.
Proof.
  destruct (in_dec (list_eq_dec ascii_dec) (str "*") vs) as [I|N]; [exists []; apply so_all; auto|].
  exists (repeat S_EMAIL (count_occ (list_eq_dec ascii_dec) vs (str "email"))). apply so_some; auto. apply repeat_length.
Qed.

(** The data of p= are a key of the type. *)
Definition loads (C : crypto) (al : sig_alg) (pv : bytes) : Prop :=
  match al with
  | RSA => exists k, c_d2i_pubkey C (b64d C (unspaced pv)) = Some (Some k)
  | ED25519 => length (b64d C (unspaced pv)) = 32
  end.
Lemma key_type_unique l a b : NoDup (map fst l) -> key_type l a -> key_type l b -> a = b.
Proof.
  intros ND [(N & ->)|H] [(N' & ->)|H']; auto.
  - destruct N. apply (in_map fst) in H'. exact H'.
  - destruct N'. apply (in_map fst) in H. exact H.
  - pose proof (tag_unique _ _ _ _ ND H H') as E. destruct a, b; auto; discriminate.
Qed.
Lemma rfc_key_exact C strict r l al pv hs ts : rfc_tags l r -> rfc_key l al pv hs ts ->
  ((exists p, PublicKey_Parse C strict r new_public_key = (p, Ok tt)) <-> loads C al pv) /\
  forall p, PublicKey_Parse C strict r new_public_key = (p, Ok tt) -> pk_alg p = al /\ digests_of hs (pk_digests p) /\ pk_flags p = ts /\
    match al with
    | RSA => exists k, c_d2i_pubkey C (b64d C (unspaced pv)) = Some (Some k) /\ pk_rsa p = Some k
    | ED25519 => pk_ed p = b64d C (unspaced pv)
    end.
Proof.
  intros (RS & ND) [ss Ov Oh Ok_ Tp Bp Os Ot]. assert (RT : record_tags r l) by (split; [apply specs_rendered; exact RS|exact ND]).
  assert (NB : forall n v, has l n v -> lacks l n -> False) by (intros n v H N; apply N; apply (in_map fst) in H; exact H).
  assert (KT : key_type l al) by (destruct Ok_ as [X|X]; [left; exact X|right; destruct al; exact X]).
  assert (UP : forall p, PublicKey_Parse C strict r new_public_key = (p, Ok tt) -> key_says C l (kset_tags [] p)).
  { intros p E. apply (key_record_says C strict r l RT (kset_tags [] p)). exists (pk_tags p). destruct p. exact E. }
  assert (G : forall p, key_says C l (kset_tags [] p) -> pk_alg p = al /\ digests_of hs (pk_digests p) /\ pk_flags p = ts /\
    match al with
    | RSA => exists k, c_d2i_pubkey C (b64d C (unspaced pv)) = Some (Some k) /\ pk_rsa p = Some k
    | ED25519 => pk_ed p = b64d C (unspaced pv) /\ length (pk_ed p) = 32
    end).
  { intros p (_ & H & K & (pv' & Ip & _ & M) & _ & T). cbn [kset_tags pk_alg pk_digests pk_flags pk_rsa pk_ed] in *.
    pose proof (key_type_unique _ _ _ ND K KT) as EA. rewrite EA in M. rewrite (tag_unique _ _ _ _ ND Ip Tp) in M. split; [exact EA|]. split; [|split].
    - destruct Oh as [N|hv vs Ih L].
      + destruct H as [(_ & ->)|(hv & vs & Ih & _)]; [constructor|destruct (NB _ _ Ih N)].
      + destruct H as [(N & _)|(hv' & vs' & Ih' & _ & LW & D)]; [destruct (NB _ _ Ih N)|]. rewrite (tag_unique _ _ _ _ ND Ih' Ih) in LW.
        apply (proj2 (list_read _ _ _ word_plain L)) in LW. subst vs'. exact D.
    - destruct Ot as [N|tv vs It L].
      + destruct T as [(_ & ->)|(tv & It & _)]; [reflexivity|destruct (NB _ _ It N)].
      + destruct T as [(N & _)|(tv' & It' & LW)]; [destruct (NB _ _ It N)|]. rewrite (tag_unique _ _ _ _ ND It' It) in LW.
        apply (proj2 (list_read _ _ _ word_plain L)) in LW. exact LW.
    - destruct al; [destruct M as (_ & k & E1 & E2); eauto|destruct M as (_ & E1 & E2); auto]. }
  split; [split|].
  - intros (p & E). apply UP, G in E as (_ & _ & _ & M). destruct al; cbn [loads]; [destruct M as (k & M & _); eauto|destruct M as [E L]; rewrite <- E; exact L].
  - intros LD. destruct (digests_exist hs) as (ds & DS). destruct (services_exist ss) as (sv & SV).
    assert (X : exists rsa ed, match al with RSA => ed = [] /\ exists k, c_d2i_pubkey C (b64d C (unspaced pv)) = Some (Some k) /\ rsa = Some k
      | ED25519 => rsa = None /\ ed = b64d C (unspaced pv) /\ length ed = 32 end).
    { destruct al; [destruct LD as (k & LD); exists (Some k), []; split; [reflexivity|eauto]|exists None, (b64d C (unspaced pv)); auto]. }
    destruct X as (rsa & ed & X).
    destruct (proj2 (key_record_says C strict r l RT (mkPub [] ds rsa ed al sv ts))) as (tags & E); [|eauto].
    unfold key_says. cbn [pk_alg pk_digests pk_flags pk_rsa pk_ed pk_service].
    split. { destruct (tag_or l "v") as [(v & I)|N]; [right; rewrite (Ov v I); exact I|left; exact N]. }
    split. { destruct Oh as [N|hv vs Ih L]; [left; split; [exact N|inversion DS; reflexivity]|]. right. destruct (list_read _ _ _ word_plain L) as [NE LW].
      exists hv, vs. split; [exact Ih|]. split; [exact NE|]. split; [apply LW; reflexivity|exact DS]. }
    split; [exact KT|]. split. { exists pv. split; [exact Tp|]. split; [apply base64_ne; exact Bp|exact X]. }
    split. { destruct Os as [N|sv' vs Is L].
      - left. split; [exact N|]. inversion SV as [I|z _ Z]; [destruct I|]. destruct sv; [reflexivity|discriminate Z].
      - right. destruct (list_read _ _ _ service_plain L) as [NE LW]. exists sv', vs. split; [exact Is|]. split; [exact NE|]. split; [apply LW; reflexivity|exact SV]. }
    destruct Ot as [N|tv vs It L]; [left; auto|]. right. exists tv. split; [exact It|]. apply (proj2 (list_read _ _ _ word_plain L)). reflexivity.
  - intros p E. apply UP, G in E as (A & D & T & M). repeat split; auto. destruct al; [exact M|exact (proj1 M)].
Qed.
From Verif Require Import Examples VerifyExamples RfcExamples.
Definition late_tags : list (bytes * bytes) := [(str "p", str "S0VZ"); (str "v", str "DKIM1")].
Lemma late_version : rfc_tags late_tags (flat late_tags) /\ ~ version_first late_tags /\ verify toy true (sample_message "rsa-sha256" rsa_b) (flat late_tags) = Ok tt.
Proof.
  split; [split|split].
  - apply flat_specs; [discriminate|]. unfold late_tags. repeat (apply Forall_cons; [cbn [fst snd]; split; [constructor; [byte|bytes_ok]|right; apply rt_tval; [discriminate|bytes_ok]]|]). constructor.
  - cbn. repeat constructor; cbn; intuition discriminate.
  - intros [N|(v & r & E)]; [|discriminate]. apply N. cbn. auto.
  - vm_compute. reflexivity.
Qed.
Definition key_tags : list (bytes * bytes) := [(str "v", str "DKIM1"); (str "h", str "sha1:x-new"); (str "p", str "S0VZ"); (str "t", str "y:s")].
Lemma key_case : rfc_tags key_tags (flat key_tags) /\ rfc_key key_tags RSA (str "S0VZ") [str "sha1"; str "x-new"] [str "y"; str "s"] /\ loads toy RSA (str "S0VZ").
Proof.
  assert (NT : forall n, ~ In n ["v"; "h"; "p"; "t"]%string -> no_tag key_tags n).
  { intros n H I. apply H. unfold key_tags in I. cbn [map fst In] in I. unfold str in I.
    repeat (destruct I as [I|I]; [apply (f_equal string_of_list_ascii) in I; rewrite !string_of_list_ascii_of_string in I; rewrite <- I; cbn; tauto|]). destruct I. }
  assert (ND : NoDup (map fst key_tags)) by (cbn; repeat constructor; cbn; intuition discriminate).
  split; [split; [|exact ND]|split].
  - apply flat_specs; [discriminate|]. unfold key_tags. repeat (apply Forall_cons; [cbn [fst snd]; split; [constructor; [byte|bytes_ok]|right; apply rt_tval; [discriminate|bytes_ok]]|]). constructor.
  - assert (W : forall v, v <> [] -> Forall ldh v -> first_ok ALPHA v -> last_ok let_dig v -> hyphenated_word v) by (intros; split; auto).
    apply (rfc_key_intro _ _ _ _ _ []).
    + intros v I. apply (tag_unique key_tags (str "v") _ _ ND); [left; reflexivity|exact I].
    + apply (olt_some _ _ _ (str "sha1:x-new")); [right; left; reflexivity|].
      apply (rfl_more hyphenated_word (str "sha1") [] [] [str "x-new"] (str "x-new")); [|left; reflexivity|left; reflexivity|apply rfl_one]; (apply W; [discriminate|bytes_ok|byte|byte]).
    + left. split; [apply NT; cbn; intuition discriminate|reflexivity].
    + right. right. left. reflexivity.
    + constructor; [byte|]. do 3 (apply (bm_char []); [left; reflexivity|byte|]). constructor.
    + apply olt_none. apply NT. cbn. intuition discriminate.
    + apply (olt_some _ _ _ (str "y:s")); [right; right; right; left; reflexivity|].
      apply (rfl_more hyphenated_word (str "y") [] [] [str "s"] (str "s")); [|left; reflexivity|left; reflexivity|apply rfl_one]; (apply W; [discriminate|bytes_ok|byte|byte]).
  - eexists. vm_compute. reflexivity.
Qed.
