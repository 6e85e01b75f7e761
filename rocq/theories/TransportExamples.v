(** A signed letter that travelled. *)
From Verif Require Import Bytes Outcome Stream Base64 TagList MailParser Canonicalization Util Crypto Signature PublicKey SignatoryOptions Signatory
  Validatory BytesFacts SpecText SpecTags SpecMail SpecCanon SpecVerify SpecSig SpecKey SpecOptions SpecSign SpecTransit SelectFacts ListFacts MailFacts HeaderFacts HeaderProps
  SignMail SignRound SignExamples VerifyExamples TransitFacts TransitExamples AddressClean Examples.

Definition ended (e : bytes) (ls : list bytes) : bytes := concat (map (fun l => l ++ e) ls).
Fixpoint cut_lines (t cur : bytes) : list bytes :=
  match t with
  | [] => []
  | c :: r => if c =?c LF then match cur with [] => [] | _ => rev cur :: cut_lines r [] end
              else if c =?c CR then cut_lines r cur else cut_lines r (c :: cur)
  end.
Definition line_ok (l : bytes) : bool := match l with [] => false | _ => negb (existsb (fun c => (c =?c LF) || (c =?c CR)) l) end.
Lemma ended_blocks ls : forallb line_ok ls = true -> header_block ls (ended CRLF ls) /\ header_block ls (ended [LF] ls).
Proof.
  induction ls as [|l ls IH]; intros F; [split; constructor|]. cbn [forallb] in F. apply andb_true_iff in F as [L F]. destruct (IH F) as [A B].
  destruct l as [|c l]; [discriminate L|]. unfold line_ok in L. apply negb_true_iff in L.
  assert (X : existsb (fun c => c =?c LF) (c :: l) = false /\ existsb (fun c => c =?c CR) (c :: l) = false).
  { split; apply not_true_iff_false; intros E; apply not_true_iff_false in L; apply L; apply existsb_exists in E as (x & IX & EX); apply existsb_exists;
      exists x; rewrite EX, ?orb_true_r; auto. }
  destruct X as [X Y]. unfold ended. cbn [map concat]. rewrite <- !app_assoc. split; [apply crlf_line|apply lf_line]; auto; discriminate.
Qed.
Definition full_lines : list bytes := cut_lines (sent full) [].
Lemma full_ends : other_line_ends (sent full) (lf_only (sent full)).
Proof.
  destruct (ended_blocks full_lines) as [A B]; [vm_compute; reflexivity|].
  assert (E : sent full = ended CRLF full_lines ++ CRLF ++ esc "hi\r\n") by (vm_compute; reflexivity).
  assert (E' : lf_only (sent full) = ended [LF] full_lines ++ [LF] ++ esc "hi\n\n\n") by (vm_compute; reflexivity).
  rewrite E', E. apply (ole_intro full_lines); auto.
  - apply (le_crlf []).
  - apply le_lf. exact Logic.I.
  - exists 2, 0. vm_compute. reflexivity.
Qed.
Definition reads (t : bytes) : bool := match new_validatory true (sig_type full) (open_str t) with Ok _ => true | _ => false end.
Lemma reads_Ok t : reads t = true -> exists v, new_validatory true (sig_type full) (open_str t) = Ok v.
Proof. unfold reads. destruct (new_validatory true (sig_type full) (open_str t)) as [v| | |]; try discriminate. eauto. Qed.
Lemma travelled : exists y H m s t2 ls v', ~ starts_wsp letter /\ parse_all new_message (open_str letter) = Ok (m, s) /\
  CreateSignature toy true (fun _ => 5%Z) full (new_signatory (open_str letter)) = (y, Ok H) /\
  Forall (sound_options true full) (all_signatures full) /\ sound_fields h_name full (m_headers m) /\
  other_line_ends (H ++ CRLF ++ letter) t2 /\ t2 <> H ++ CRLF ++ letter /\ header_block ls trace /\
  new_validatory true (sig_type full) (open_str (trace ++ t2)) = Ok v'.
Proof.
  destruct full_hypotheses as (y & H & m & s & NW & PA & CS & SO & SF & _).
  assert (ES : sent full = H ++ CRLF ++ letter) by (unfold sent, sign; rewrite CS; reflexivity).
  assert (R : reads (trace ++ lf_only (sent full)) = true) by (vm_compute; reflexivity). apply reads_Ok in R as (v' & NV).
  exists y, H, m, s, (lf_only (sent full)). eexists. exists v'. repeat (split; [assumption|]). rewrite <- ES.
  split; [exact full_ends|]. split; [|split; [exact trace_block|exact NV]].
  assert (L : (length (lf_only (sent full)) =? length (sent full)) = false) by (vm_compute; reflexivity).
  intros E. rewrite E, Nat.eqb_refl in L. discriminate L.
Qed.
Lemma travelled_run : accepts toy true V_DKIM 5 (trace ++ lf_only (sent full)) 1 rsa_pub = Ok tt /\
  accepts toy true V_DKIM 5 (trace ++ lf_only (sent full)) 2 rsa_pub = Ok tt.
Proof. split; vm_compute; reflexivity. Qed.
Lemma refolded_run : accepts toy true V_DKIM 5 (trace ++ refold (sent full)) 1 rsa_pub = Ok tt /\
  accepts toy true V_DKIM 5 (trace ++ refold (sent full)) 2 rsa_pub = Ok tt.
Proof. split; vm_compute; reflexivity. Qed.
(** [full] oversigns From. *)
Lemma from_in_front : accepts toy true V_DKIM 5 (esc "From: b@ex.org\r\n" ++ sent full) 0 rsa_pub = perm_fail.
Proof. vm_compute. reflexivity. Qed.
(** Without it a second From field goes unnoticed. *)
Lemma from_unnoticed : accepts toy true V_DKIM 5 (esc "From: b@ex.org\r\n" ++ sent (with_rsa [])) 0 rsa_pub = Ok tt.
Proof. vm_compute. reflexivity. Qed.
Definition folded_letter : bytes := esc "FROM :  a@ex.org \r\nSubject:\r\n\t x\r\n\r\nhi  \r\n\r\n".
Ltac letters := repeat (apply re_char; [not_wsp|discriminate|]).
Lemma from_same : same_field (esc "From: a@ex.org") (esc "FROM :  a@ex.org ").
Proof.
  apply (sf_intro (esc "From") (esc "FROM") [] (esc " ") (esc " ") (esc "  ") (esc "a@ex.org") (esc "a@ex.org ")).
  all: try discriminate. all: try not_wsp. all: try apply FWSs_nil. all: try one_run.
  - vm_compute. intuition discriminate.
  - vm_compute. intuition discriminate.
  - letters. apply re_end; constructor.
  - letters. apply re_end; [constructor|one_run].
Qed.
Lemma subject_same : same_field (esc "Subject: x") (esc "Subject:\r\n\t x").
Proof.
  apply (sf_intro (esc "Subject") (esc "Subject") [] (esc " ") [] (esc "\r\n\t ") (esc "x") (esc "x")).
  all: try discriminate. all: try not_wsp. all: try apply FWSs_nil. all: try one_run.
  - vm_compute. intuition discriminate.
  - vm_compute. intuition discriminate.
  - one_fold (@nil ascii) [HT; SP].
  - letters. apply re_end; constructor.
  - letters. apply re_end; constructor.
Qed.
Lemma letter_body : message_body letter (esc "hi\r\n").
Proof.
  assert (E : letter = (esc "From: a@ex.org" ++ CRLF ++ esc "Subject: x" ++ CRLF ++ []) ++ CRLF ++ esc "hi\r\n") by (vm_compute; reflexivity).
  rewrite E. eapply mb_blank; [|apply (le_crlf [])]. apply crlf_line; [reflexivity|discriminate|]. apply crlf_line; [reflexivity|discriminate|constructor].
Qed.
Lemma folded_body : message_body folded_letter (esc "hi  \r\n\r\n").
Proof.
  assert (E : folded_letter = (esc "FROM :  a@ex.org " ++ CRLF ++ esc "Subject:" ++ CRLF ++ esc "\t x" ++ CRLF ++ []) ++ CRLF ++ esc "hi  \r\n\r\n") by (vm_compute; reflexivity).
  rewrite E. eapply mb_blank; [|apply (le_crlf [])]. do 3 (apply crlf_line; [reflexivity|discriminate|]). constructor.
Qed.
Lemma folded_parsed : exists m s, parse_all new_message (open_str folded_letter) = Ok (m, s) /\
  m_headers m = [mkHeader (esc "FROM") (esc "FROM :  a@ex.org ") 6; mkHeader (esc "Subject") (esc "Subject:\r\n\t x") 8].
Proof. do 2 eexists. split; vm_compute; reflexivity. Qed.
Lemma sign_is C o t y H : CreateSignature C true (fun _ => 5%Z) o (new_signatory (open_str t)) = (y, Ok H) -> sign C o t = Ok H.
Proof. intros E. unfold sign. rewrite E. reflexivity. Qed.
Lemma refolded_travels : exists y H m s m' s' b b' ls v', ~ starts_wsp letter /\ parse_all new_message (open_str letter) = Ok (m, s) /\
  CreateSignature toy true (fun _ => 5%Z) full (new_signatory (open_str letter)) = (y, Ok H) /\
  Forall (sound_options true full) (all_signatures full) /\ sound_fields h_name full (m_headers m) /\
  o_chead full = RELAXED /\ o_cbody full = RELAXED /\
  ~ starts_wsp folded_letter /\ parse_all new_message (open_str folded_letter) = Ok (m', s') /\
  Forall2 (fun f f' => same_name (h_name f) (h_name f') = true /\ (h_text f = h_text f' \/ same_field (h_text f) (h_text f'))) (m_headers m) (m_headers m') /\
  message_body letter b /\ message_body folded_letter b' /\ same_words b b' /\ header_block ls trace /\
  new_validatory true (sig_type full) (open_str (trace ++ H ++ CRLF ++ folded_letter)) = Ok v'.
Proof.
  destruct full_hypotheses as (y & H & m & s & NW & PA & CS & SO & SF & _).
  destruct folded_parsed as (m' & s' & PA' & HM').
  assert (R : reads (trace ++ H ++ CRLF ++ folded_letter) = true).
  { assert (X : match sign toy full letter with Ok H => reads (trace ++ H ++ CRLF ++ folded_letter) | _ => false end = true) by (vm_compute; reflexivity).
    rewrite (sign_is _ _ _ _ _ CS) in X. exact X. }
  apply reads_Ok in R as (v' & NV).
  exists y, H, m, s, m', s'. do 3 eexists. exists v'. repeat (split; [assumption|]). split; [vm_compute; reflexivity|]. split; [vm_compute; reflexivity|].
  split. { intros (c & r & E & W). apply (f_equal (firstn 1)) in E. vm_compute in E. injection E as <-. destruct W as [W|W]; vm_compute in W; discriminate. }
  split; [exact PA'|]. split; [|split; [exact letter_body|split; [exact folded_body|split; [exact bodies_same|split; [exact trace_block|exact NV]]]]].
  assert (HM : m_headers m = [mkHeader (esc "From") (esc "From: a@ex.org") 5; mkHeader (esc "Subject") (esc "Subject: x") 8]).
  { destruct letter_parsed as (m0 & s0 & P0 & H0). rewrite PA in P0. apply Ok_inj in P0. injection P0 as <- <-. rewrite H0. exact letter_fields_are. }
  rewrite HM, HM'. constructor; [|constructor; [|constructor]]; (split; [vm_compute; reflexivity|right]); [exact from_same|exact subject_same].
Qed.

(** A From field in front of a letter signed with From oversigned, and without. *)
Definition front_from : bytes := esc "From: b@ex.org\r\n".
Definition fields_of_text (t : bytes) : list header := match new_validatory true V_DKIM (open_str t) with Ok v => m_headers (v_msg v) | _ => [] end.
Lemma front_added : fields_of_text (front_from ++ sent full) = header_of (esc "From: b@ex.org") :: fields_of_text (sent full) /\
  same_name (h_name (header_of (esc "From: b@ex.org"))) (esc "from") = true /\ In (esc "from") (o_oversign full) /\
  accepts toy true V_DKIM 5 (sent full) 0 rsa_pub = Ok tt /\ accepts toy true V_DKIM 5 (front_from ++ sent full) 0 rsa_pub = perm_fail.
Proof.
  split; [vm_compute; reflexivity|]. split; [vm_compute; reflexivity|]. split; [vm_compute; left; reflexivity|].
  split; vm_compute; reflexivity.
Qed.
Lemma second_from : exists calls p, (forall x, ~ In (SetOversignHeaders x) calls) /\ p = esc "From: b@ex.org" ++ CRLF /\
  accepts toy true V_DKIM 5 (sent (with_rsa calls)) 0 rsa_pub = Ok tt /\ accepts toy true V_DKIM 5 (p ++ sent (with_rsa calls)) 0 rsa_pub = Ok tt.
Proof. exists [], (esc "From: b@ex.org" ++ CRLF). split; [intros x []|]. split; [reflexivity|]. split; vm_compute; reflexivity. Qed.
