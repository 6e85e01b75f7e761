(** A signed letter on its way through relays. *)
From Verif Require Import Bytes Outcome Stream Base64 TagList MailParser Canonicalization Util Crypto Signature PublicKey SignatoryOptions Signatory
  Validatory BytesFacts SpecText SpecTags SpecMail SpecCanon SpecVerify SpecSig SpecKey SpecOptions SpecSign SpecTransit ListFacts MailFacts HeaderFacts HeaderProps
  AddressClean SignExamples VerifyExamples TransitFacts Examples.

Definition sent (o : options) : bytes := match sign toy o letter with Ok H => H ++ CRLF ++ letter | _ => [] end.
Definition relaxed_options : options := with_rsa [SetCanonModeHeader RELAXED; SetCanonModeBody RELAXED].

(** Fields in front. *)
Definition trace : bytes :=
  esc "Received: by a;" ++ [LF] ++ esc "\tx" ++ CRLF ++ esc "DKIM-Signature: junk" ++ CRLF ++ esc "Received: by b" ++ [LF] ++ [].
Lemma no_lf (l : bytes) : existsb (fun c => c =?c LF) l = false -> ~ In LF l.
Proof. intros E IL. apply Bool.not_true_iff_false in E. apply E. apply existsb_exists. exists LF. split; auto. Qed.
Lemma crlf_line l ls t : existsb (fun c => c =?c LF) l = false -> l <> [] -> header_block ls t -> header_block (l :: ls) (l ++ CRLF ++ t).
Proof. intros N NE HB. apply hb_cons; auto; [apply no_lf; auto|apply le_crlf]. Qed.
Lemma lf_line l ls t : existsb (fun c => c =?c LF) l = false -> l <> [] -> existsb (fun c => c =?c CR) l = false -> header_block ls t ->
  header_block (l :: ls) (l ++ [LF] ++ t).
Proof.
  intros N NE NC HB. apply hb_cons; auto; [apply no_lf; auto|]. apply le_lf. unfold last_ok. destruct (rev l) as [|c r] eqn:E; cbn; auto.
  intros ->. apply Bool.not_true_iff_false in NC. apply NC. apply existsb_exists. exists CR. split; auto. apply in_rev. rewrite E. left. reflexivity.
Qed.
Lemma trace_block : header_block [esc "Received: by a;"; esc "\tx"; esc "DKIM-Signature: junk"; esc "Received: by b"] trace.
Proof.
  unfold trace. apply lf_line; [reflexivity|discriminate|reflexivity|]. apply crlf_line; [reflexivity|discriminate|].
  apply crlf_line; [reflexivity|discriminate|]. apply lf_line; [reflexivity|discriminate|reflexivity|]. constructor.
Qed.
Lemma trace_kept : exists ls t v v', header_block ls trace /\ at_field t /\ new_validatory true V_DKIM (open_str t) = Ok v /\
  new_validatory true V_DKIM (open_str (trace ++ t)) = Ok v' /\
  accepts toy true V_DKIM 5 t 0 rsa_pub = Ok tt /\ accepts toy true V_DKIM 5 (trace ++ t) 1 rsa_pub = Ok tt.
Proof.
  eexists. exists (sent (with_rsa [])). do 2 eexists. split; [exact trace_block|]. split; [vm_compute; intros [K|K]; discriminate K|].
  split; [vm_compute; reflexivity|]. split; [vm_compute; reflexivity|]. split; vm_compute; reflexivity.
Qed.
(** A From field in front of a message whose h= lists from once too often is noticed. *)
Lemma reached : exists t p, accepts toy true V_DKIM 5 t 0 rsa_pub = Ok tt /\ accepts toy true V_DKIM 5 (p ++ t) 0 rsa_pub = perm_fail.
Proof. exists (sent (with_rsa [SetOversignHeaders [esc "from"]])), (esc "From: b@ex.org\r\n"). split; vm_compute; reflexivity. Qed.

(** The same letter with LF line ends and a longer tail. *)
Definition lf_only (t : bytes) : bytes := without_cr t ++ [LF; LF].
Lemma lf_accepted : accepts toy true V_DKIM 5 (lf_only (sent (with_rsa []))) 0 rsa_pub = Ok tt.
Proof. vm_compute. reflexivity. Qed.
Lemma lf_ends : other_line_ends ((sample_from ++ CRLF ++ []) ++ CRLF ++ sample_body) ((sample_from ++ [LF] ++ []) ++ [LF] ++ esc "hi\n\n").
Proof.
  eapply (ole_intro [sample_from]).
  - apply crlf_line; [reflexivity|discriminate|constructor].
  - apply lf_line; [reflexivity|discriminate|reflexivity|constructor].
  - apply (le_crlf []).
  - apply le_lf. exact Logic.I.
  - exists 1, 0. vm_compute. reflexivity.
Qed.

(** Refolded on the way. *)
Definition refold (t : bytes) : bytes := firstn (length t - length letter) t ++ esc "FROM :  a@ex.org \r\nSubject:\r\n\t x\r\n\r\nhi  \r\n\r\n".
Lemma refold_accepted : accepts toy true V_DKIM 5 (refold (sent relaxed_options)) 0 rsa_pub = Ok tt.
Proof. vm_compute. reflexivity. Qed.
Lemma refold_simple_fails : accepts toy true V_DKIM 5 (refold (sent (with_rsa [SetCanonModeHeader SIMPLE; SetCanonModeBody SIMPLE]))) 0 rsa_pub = perm_fail.
Proof. vm_compute. reflexivity. Qed.
Definition plain_text : bytes := (esc "A:b c" ++ CRLF ++ []) ++ CRLF ++ esc "hi\r\n".
Definition other_text : bytes := (esc "a :\tb" ++ CRLF ++ esc "\tc " ++ CRLF ++ []) ++ CRLF ++ esc "hi  \r\n\r\n".
Lemma plain_body : message_body plain_text (esc "hi\r\n").
Proof. unfold plain_text. eapply mb_blank; [|apply (le_crlf [])]. apply crlf_line; [reflexivity|discriminate|constructor]. Qed.
Lemma other_body : message_body other_text (esc "hi  \r\n\r\n").
Proof.
  unfold other_text. eapply mb_blank; [|apply (le_crlf [])]. apply crlf_line; [reflexivity|discriminate|]. apply crlf_line; [reflexivity|discriminate|constructor].
Qed.
Lemma bodies_same : same_words (esc "hi\r\n") (esc "hi  \r\n\r\n").
Proof.
  exists [esc "hi"; []], [esc "hi  "; []; []], 1, 0.
  split; [|split].
  - split; [discriminate|]. split; [repeat constructor; apply no_lf; reflexivity|vm_compute; reflexivity].
  - split; [discriminate|]. split; [repeat constructor; apply no_lf; reflexivity|vm_compute; reflexivity].
  - assert (NIL : ws_equal [] []) by (apply we_end; constructor).
    cbn [app repeat]. constructor; [|constructor; [exact NIL|constructor; [exact NIL|constructor]]].
    change (ws_equal [chr 104; chr 105] [chr 104; chr 105; SP; SP]).
    do 2 (apply we_char; [not_wsp|]). apply we_end; [constructor|]. constructor; [left; reflexivity|]. constructor; [left; reflexivity|constructor].
Qed.
Lemma fields_same : same_field (esc "A:b c") (esc "a :\tb\r\n\tc ").
Proof.
  apply (sf_intro (esc "A") (esc "a") [] [] (esc " ") (esc "\t") (esc "b c") (esc "b\r\n\tc ")).
  all: try discriminate. all: try not_wsp. all: try apply FWSs_nil. all: try one_run.
  - intros [K|[]]; discriminate.
  - intros [K|[]]; discriminate.
  - apply re_char; [not_wsp|discriminate|]. apply re_end; constructor.
  - apply re_char; [not_wsp|discriminate|].
    apply (re_run [SP] (esc "\r\n\t")); [discriminate|discriminate|one_run|one_fold (@nil ascii) [HT]|not_wsp|discriminate|].
    apply re_char; [not_wsp|discriminate|]. apply re_end; [constructor|one_run].
Qed.
Lemma refold_case : exists t t' v v' b b', new_validatory true V_DKIM (open_str t) = Ok v /\ new_validatory true V_DKIM (open_str t') = Ok v' /\
  message_body t b /\ message_body t' b' /\ same_words b b' /\ Forall2 refolded_field (m_headers (v_msg v)) (m_headers (v_msg v')).
Proof.
  exists plain_text, other_text.
  destruct (new_validatory true V_DKIM (open_str plain_text)) as [v| | |] eqn:E; [|vm_compute in E; discriminate..].
  destruct (new_validatory true V_DKIM (open_str other_text)) as [v'| | |] eqn:E'; [|vm_compute in E'; discriminate..].
  exists v, v'. do 2 eexists. split; [reflexivity|]. split; [reflexivity|]. split; [exact plain_body|]. split; [exact other_body|]. split; [exact bodies_same|].
  assert (H : m_headers (v_msg v) = [mkHeader (esc "A") (esc "A:b c") 2]) by (vm_compute in E; apply Ok_inj in E; subst v; vm_compute; reflexivity).
  assert (H' : m_headers (v_msg v') = [mkHeader (esc "a") (esc "a :\tb\r\n\tc ") 3]) by (vm_compute in E'; apply Ok_inj in E'; subst v'; vm_compute; reflexivity).
  rewrite H, H'. constructor; [|constructor]. split; [reflexivity|]. right. exact fields_same.
Qed.

(** Subject before From, and a field between them. *)
Definition moved (t : bytes) : bytes := firstn (length t - length letter) t ++ esc "Subject: x\r\nX: y\r\nFrom: a@ex.org\r\n\r\nhi\r\n".
Lemma moved_accepted : accepts toy true V_DKIM 5 (moved (sent (with_rsa []))) 0 rsa_pub = Ok tt.
Proof. vm_compute. reflexivity. Qed.
