(** Of every signature, key record and message one thing is said (for C96). *)
From Verif Require Import Bytes Outcome Stream Tokenizer QuotedPrintable Base64 TagList MailParser Canonicalization Util
  CStdlib Crypto Signature PublicKey Validatory ErrorText Reasons BytesFacts SpecText SpecTags SpecMail SpecCanon SpecVerify SpecSig SpecParse SpecKey SpecError SpecReason
  StreamFacts TokenizerFacts QPFacts ListFacts ListWide TagListFacts HeaderFacts SelectFacts SigFacts SigProps SigExact KeyFacts VerifyFacts VerifyProps ErrorFacts ErrorList ErrorQP ErrorTags ErrorCases
  BodyFacts ReasonFacts ReasonSig ReasonKeys ReasonCheck ShownFacts RfcKey.
Local Open Scope string_scope. Local Open Scope list_scope.

Lemma has_not_lacks l n v : has l n v -> lacks l n -> False.
Proof. intros H L. apply L. exact (in_map fst _ _ H). Qed.
Lemma qp_text_fun us t d d' : qp_text us t d -> qp_text us t d' -> d = d'.
Proof. intros A B. apply qp_decode_grammar in A, B. congruence. Qed.
Ltac clash ND := exfalso; match goal with
  | A : has _ ?n _, B : lacks _ ?n |- _ => exact (has_not_lacks _ _ _ A B)
  end.
Ltac one ND := repeat match goal with
  | A : has ?l ?n ?v, B : has ?l ?n ?w |- _ => tryif constr_eq v w then fail else (let E := fresh in pose proof (has_fun l n v w ND A B) as E; clear B; try subst v; try subst w; try discriminate E)
  end.
Ltac two := exfalso; match goal with
  | A : ~ list_ok ?v, B : list_wide ?vs ?v |- _ => exact (A (ex_intro _ vs B))
  | A : ~ qp_ok ?us ?v, B : qp_text ?us ?v ?d |- _ => exact (A (ex_intro _ d B))
  | A : forall m, ?h <> mode_name m, B : ?h = mode_name ?x |- _ => exact (A x B)
  end.
Lemma sig_reason_fun now e0 arc l k m m' : NoDup (map fst l) -> sig_reason now e0 arc l k m -> sig_reason now e0 arc l k m' -> m = m'.
Proof.
  intros ND A B. destruct A; inversion B; clear B; try reflexivity; try congruence; try (clash ND; fail);
    try match goal with X : lacks _ "b" \/ has _ "b" [] |- _ => reflexivity end; one ND; try reflexivity; try congruence; try (two; fail).
  all: try match goal with A : c_halves ?c ?h ?b, B : c_halves ?c ?h' ?b' |- _ => destruct (halves_fun _ _ _ _ _ A B) as [-> ->] end; try reflexivity; try congruence; try (two; fail).
  all: try match goal with A : list_say ?v ?m, B : list_say ?v ?m' |- ?m = ?m' => exact (list_say_fun _ _ _ A B) end.
  all: try match goal with A : qp_say ?us ?v ?m, B : qp_say ?us ?v ?m' |- ?m = ?m' => exact (qp_say_fun _ _ _ _ A B) end.
  all: try match goal with A : ul_reads ?v ?n ?r ?f, B : ul_reads ?v ?n' ?r' ?f' |- _ => destruct (ul_reads_fun _ _ _ _ _ _ _ A B) as (? & ? & ?); subst end; try reflexivity; try (exfalso; lia); try (exfalso; intuition congruence).
  all: match goal with A : qp_text ?us ?v ?d, B : qp_text ?us ?v ?d' |- _ => pose proof (qp_text_fun _ _ _ _ A B) end; subst.
  all: try (exfalso; match goal with A : ~ In AT (?a ++ AT :: ?b) |- _ => apply A, in_elt end).
  match goal with E : ?a ++ AT :: ?b = ?a' ++ AT :: ?b' |- _ => destruct (at_unique a b a' b') as [-> ->]; auto end.
  match goal with A : up_to_nul ?v ?x, B : up_to_nul ?v ?y |- _ => rewrite (up_to_nul_fun _ _ _ A B); reflexivity end.
Qed.
Lemma key_reason_fun C l k m m' : NoDup (map fst l) -> key_reason C l k m -> key_reason C l k m' -> m = m'.
Proof.
  intros ND A B. destruct A; inversion B; clear B; try reflexivity; try congruence; try (clash ND; fail); one ND; try reflexivity; try congruence; try (two; fail).
  all: try match goal with A : list_say ?v ?m, B : list_say ?v ?m' |- ?m = ?m' => exact (list_say_fun _ _ _ A B) end.
  all: exfalso; match goal with A : key_type _ RSA, B : key_type _ ED25519 |- _ => pose proof (key_type_unique _ _ _ ND A B); discriminate end.
Qed.
Lemma check_reason_fun g p texts ok k m m' : check_reason g p texts ok k m -> check_reason g p texts ok k m' -> m = m'.
Proof.
  assert (LT : forall (i : nat) t, nth_error texts i = Some t -> 4 + i <> 4 + length texts).
  { intros i t E H. assert (i < length texts) by (apply nth_error_Some; congruence). lia. }
  intros A B. destruct A; inversion B; clear B; try reflexivity; try (exfalso; subst; lia); try (exfalso; subst; eapply LT; [eassumption|lia]).
  assert (i = i0) by lia. subst i0. match goal with A : nth_error _ _ = Some ?a, B : nth_error _ _ = Some ?b |- _ => rewrite A in B; injection B as <- end.
  eapply field_reason_fun; eauto.
Qed.
Lemma first_reason_fun (R : nat -> bytes -> Prop) m m' : (forall k m m', R k m -> R k m' -> m = m') -> first_reason R m -> first_reason R m' -> m = m'.
Proof.
  intros F (k & A & KA) (j & B & KB). specialize (KA _ _ B). specialize (KB _ _ A). assert (k = j) by lia. subst j. eauto.
Qed.

(** ** Exactly *)
Lemma what_exact (R : nat -> bytes -> Prop) (w : option bytes) : (forall k m m', R k m -> R k m' -> m = m') ->
  match w with Some m => first_reason R m | None => forall k m, ~ R k m end -> forall m, w = Some m <-> first_reason R m.
Proof.
  intros F W m. destruct w as [m0|]; split; intros E; try discriminate.
  - injection E as <-. exact W.
  - f_equal. eapply first_reason_fun; eauto.
  - destruct E as (k & K & _). exfalso. eapply W. eauto.
Qed.
Lemma sig_exact C now e0 h l : field_tags h l -> forall m, Signature_what C false now h (new_signature, e0) = Some m <->
  first_reason (sig_reason now e0 (same_name (h_name h) (str "arc-message-signature")) l) m.
Proof.
  intros F. apply what_exact; [intros k m m'; apply sig_reason_fun; apply F|]. pose proof (sig_what C now e0 h l F) as W.
  destruct (Signature_what C false now h (new_signature, e0)); apply W.
Qed.
Lemma sig_refused C now e0 h : h_voff h <= length (h_text h) -> match Signature_what C false now h (new_signature, e0) with
  | Some _ => snd (Signature_Parse C false now h (new_signature, e0)) = perm
  | None => snd (Signature_Parse C false now h (new_signature, e0)) = Ok tt
  end.
Proof.
  intros L. destruct (TagList_Parse_cases [] (skipn (h_voff h) (h_text h))) as [(ents & P & R & (ND & DJ) & _)|(_ & NO)].
  - pose proof (sig_what C now e0 h (nv ents) (conj L (conj R ND))) as W. destruct (Signature_what C false now h (new_signature, e0)); apply W.
  - destruct (tags_none C now e0 h L) as (m & -> & _ & P); [|exact P]. intros l (_ & R & ND). apply (NO l R). split; [exact ND|]. intros n _ [].
Qed.
Lemma sig_tags_exact C now e0 h : h_voff h <= length (h_text h) -> (forall l, ~ field_tags h l) -> forall m,
  Signature_what C false now h (new_signature, e0) = Some m <-> tags_say [] (skipn (h_voff h) (h_text h)) m.
Proof.
  intros L N m. destruct (tags_none C now e0 h L N) as (m0 & E & T & _). rewrite E. split; [intros X; injection X as <-; exact T|]. intros T'. f_equal. eapply tags_say_fun; eauto.
Qed.
Lemma key_exact C strict r l : record_tags r l -> forall m, PublicKey_what C strict r new_public_key = Some m <-> first_reason (key_reason C l) m.
Proof.
  intros F. apply what_exact; [intros k m m'; apply key_reason_fun; apply F|]. pose proof (key_what C strict r l F) as W.
  destruct (PublicKey_what C strict r new_public_key); apply W.
Qed.
Lemma key_tags_exact C strict r : (forall l, ~ record_tags r l) -> forall m, PublicKey_what C strict r new_public_key = Some m <-> tags_say [] r m.
Proof.
  intros N m. destruct (key_tags_none C strict r N) as (m0 & E & T & _). rewrite E. split; [intros X; injection X as <-; exact T|]. intros T'. f_equal. eapply tags_say_fun; eauto.
Qed.
Lemma key_refused C strict r : match PublicKey_what C strict r new_public_key with
  | Some _ => snd (PublicKey_Parse C strict r new_public_key) = perm
  | None => snd (PublicKey_Parse C strict r new_public_key) = Ok tt
  end.
Proof.
  destruct (TagList_Parse_cases [] r) as [(ents & P & R & (ND & DJ) & _)|(_ & NO)].
  - pose proof (key_what C strict r (nv ents) (conj R ND)) as W. destruct (PublicKey_what C strict r new_public_key); apply W.
  - destruct (key_tags_none C strict r) as (m & -> & _ & P); [|exact P]. intros l (R & ND). apply (NO l R). split; [exact ND|]. intros n _ [].
Qed.
Lemma check_exact C strict now h e0 g e1 pre b post : Signature_Parse C strict now h (new_signature, e0) = ((g, e1), Ok tt) -> small_field h ->
  tag_at (str "b") (skipn (h_voff h) (h_text h)) pre b post ->
  forall st r p0 p v, PublicKey_Parse C st r p0 = (p, Ok tt) -> ~ short_ed g -> forall m,
  CheckSignature_what C false h g p v = Some m <->
  first_reason (check_reason g p (map h_text (selection h_name (m_headers (v_msg v)) [] (sg_headers g)) ++ [firstn (h_voff h) (h_text h) ++ pre ++ post])
    (exists d, authenticated h g v pre post d /\ accepted C g p (digest C (sg_digest g) d))) m.
Proof.
  intros P SM T st r p0 p v K NS. apply what_exact; [intros k m m'; apply check_reason_fun|].
  pose proof (check_what C strict now h e0 g e1 pre b post P SM T st r p0 p v K NS) as W. cbv zeta in W. destruct (CheckSignature_what C false h g p v); apply W.
Qed.

(** ** Fetching *)
Lemma parsed_plain C now h e0 g e1 : h_voff h <= length (h_text h) -> Signature_Parse C false now h (new_signature, e0) = ((g, e1), Ok tt) ->
  ~ In (chr 0) (sg_selector g) /\ ~ In (chr 0) (sg_domain g).
Proof.
  intros L P. destruct (TagList_Parse_cases [] (skipn (h_voff h) (h_text h))) as [(ents & T & R & (ND & DJ) & _)|(_ & NO)].
  - assert (FT : field_tags h (nv ents)) by exact (conj L (conj R ND)).
    destruct (field_tags_parse h _ FT) as (tags & _ & HV & _ & G).
    assert (TV : forall n v, has (nv ents) n v -> ~ In (chr 0) v).
    { intros n v H I. apply HV in H. apply G in H. apply (tag_value_byte v _ H) in I. vm_compute in I. destruct I as [I _]. apply I. reflexivity. }
    assert (TK : taken C now h (nv ents) e0 g e1).
    { apply (parse_exact C now h e0 (nv ents) FT g e1). exists (sg_tags g). rewrite P. destruct g. reflexivity. }
    destruct TK as ((d & Hd & ->) & Hs & _). split; [exact (TV _ _ Hs)|]. intros I. apply in_map_iff in I as (c & E & I). apply (TV _ _ Hd).
    assert (c = chr 0) as <-; [|exact I]. revert E. clear. unfold low. intros E.
    destruct ((65 <=? code c)%N && (code c <=? 90)%N) eqn:B; [|exact E]. exfalso. apply andb_true_iff in B as [B1 B2]. apply N.leb_le in B1, B2.
    apply (f_equal code) in E. rewrite !code_chr in E by lia. lia.
  - exfalso. destruct (tags_none C now e0 h L) as (m & _ & _ & X); [|rewrite P in X; discriminate X]. intros l (_ & R & ND). apply (NO l R). split; [exact ND|]. intros n _ [].
Qed.
Lemma public_exact C strict now h e0 g e1 resolve : h_voff h <= length (h_text h) -> Signature_Parse C false now h (new_signature, e0) = ((g, e1), Ok tt) ->
  let name := sg_selector g ++ str "._domainkey." ++ sg_domain g in
  match resolve name with
  | Ok (false, _) => GetPublicKey_what C strict resolve g new_public_key = Some (str "DNS query failed for " ++ name) /\
                     snd (GetPublicKey C strict resolve g new_public_key) = Throw (TemporaryError AR_TEMPERROR)
  | Ok (true, []) => GetPublicKey_what C strict resolve g new_public_key = Some (str "No key for signature " ++ name) /\
                     snd (GetPublicKey C strict resolve g new_public_key) = Throw (PermanentError AR_PERMERROR)
  | Ok (true, r) => GetPublicKey_what C strict resolve g new_public_key = PublicKey_what C strict r new_public_key /\
                    GetPublicKey C strict resolve g new_public_key = PublicKey_Parse C strict r new_public_key
  | _ => True
  end.
Proof.
  intros L P. destruct (parsed_plain C now h e0 g e1 L P) as [S D]. cbv zeta. unfold GetPublicKey_what, GetPublicKey.
  rewrite (c_str_id _ S), (c_str_id _ D). change (key_query g) with (sg_selector g ++ str "._domainkey." ++ sg_domain g).
  destruct (resolve (sg_selector g ++ str "._domainkey." ++ sg_domain g)) as [[[] [|c r]]| | |]; cbn [slift snd]; auto.
Qed.
Lemma body_exact C strict ty t v now h st st1 b out : new_validatory strict ty (open_str t) = Ok v -> message_body t b ->
  Signature_Parse C strict now h st = (st1, Ok tt) -> canonical_body (is_relaxed (sg_cbody (fst st1))) b out -> forall m,
  GetSignature_what C strict now h st v = Some m <->
  sg_bh (fst st1) <> digest C (sg_digest (fst st1)) (cut (sg_limit (fst st1)) (sg_size (fst st1)) out) /\ m = str "Body hash did not verify".
Proof.
  intros NV MB P CB m. apply in_use_fresh in NV. destruct (CheckBodyHash_iff C strict ty t v (fst st1) b out NV MB CB) as [I F].
  unfold GetSignature_what, CheckBodyHash_what. rewrite P. destruct (snd (CheckBodyHash C (fst st1) v)) as [[]|e|k|] eqn:E.
  - cbn [thrown]. split; [discriminate|]. intros [N _]. exfalso. apply N. apply I. reflexivity.
  - specialize (F ltac:(discriminate)). injection F as ->. cbn [thrown]. split.
    + intros X. injection X as <-. split; [|reflexivity]. intros H. apply I in H. discriminate H.
    + intros [_ ->]. reflexivity.
  - specialize (F ltac:(discriminate)). discriminate F.
  - specialize (F ltac:(discriminate)). discriminate F.
Qed.
