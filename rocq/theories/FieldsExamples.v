(** Concrete fields for the examples beside the theorems about tags, times and lines. *)
From Verif Require Import Bytes Outcome Stream Tokenizer Base64 TagList MailParser Canonicalization Util CStdlib Crypto Signature PublicKey
  SignatoryOptions Signatory Validatory SpecText SpecTags SpecMail SpecCanon SpecVerify SpecSig SpecOptions SpecSign SpecBase64 SpecFields BytesFacts MailFacts BodyFacts BodyProps SelectFacts TagListFacts
  SigProps VerifyFacts VerifyProps OptionsFacts SignText SignFacts SignRound SignProps FieldsProps VerifyExamples SignExamples Examples.
Local Open Scope string_scope.
Local Open Scope list_scope.

(** Signing the letter with the options [o] gives a field with t= [a] and x= [b]. *)
Definition stamped (o : options) (a b : N) : Prop :=
  exists H tags, sign toy o letter = Ok H /\ field_tags (header_of H) tags /\ has_number tags "t" a /\ has_number tags "x" b.
Lemma letter_names o : o_oversign o = [] -> Forall signable_name (listed_names h_name o letter_fields).
Proof.
  intros E. rewrite letter_fields_are. unfold listed_names. rewrite E, app_nil_r. apply Forall_map, Forall_forall. intros h I. apply filter_In in I as [I _].
  cbn [rev app] in I. destruct I as [<-|[<-|[]]]; apply is_signable; vm_compute; reflexivity.
Qed.
Lemma stamp_at l a b : let o := with_rsa l in
  o_main o = o_main (with_rsa []) -> o_more o = [] -> o_oversign o = [] -> o_identity o = [] -> o_arc o = 0%N -> o_signlen o = false -> o_tssign o = true -> o_exsign o = true ->
  (exists H, sign toy o letter = Ok H) ->
  shown_time (if (o_ts o =? -1)%Z then 5 else o_ts o) = a -> shown_time (expiry o 5) = b -> stamped o a b.
Proof.
  intros o OM MO OV ID AR SL TS XS (H & SI) EA EB.
  destruct (message_body_exists letter) as (b0 & MB).
  destruct letter_parsed as (m & s & PA & HM). unfold sign in SI. destruct (CreateSignature toy true (fun _ => 5%Z) o (new_signatory (open_str letter))) as [y r] eqn:CS. cbn [snd] in SI. subst r.
  assert (AS : all_signatures o = [o_main (with_rsa [])]) by (unfold all_signatures; rewrite OM, MO; reflexivity).
  destruct (fields_say toy true (fun _ => 5%Z) o letter y H m s b0 (out_fun (is_relaxed (o_cbody o)) (canon_list (is_relaxed (o_cbody o)) b0))) as (fields & EH & LF1 & K); auto.
  - exact toy_signs.
  - rewrite AS. constructor; [|constructor]. constructor; try (intros X; congruence).
    split; right; apply is_dotted; vm_compute; reflexivity.
  - rewrite HM. apply letter_names, OV.
  - apply canonical_out. reflexivity.
  - rewrite AS in *. destruct fields as [|x [|x2 r]]; try discriminate. cbn [joined] in EH. subst x.
    destruct (K 0 (o_main (with_rsa [])) H) as (tags & d & z & FT & _ & _ & SY); [reflexivity|reflexivity|].
    exists H, tags. split; [unfold sign; rewrite CS; reflexivity|]. split; auto. split; [rewrite <- EA; apply (sy_t _ _ _ _ _ _ _ SY TS)|rewrite <- EB; apply (sy_x _ _ _ _ _ _ _ SY XS)].
Qed.
Ltac stamp_case := eapply stamp_at; [vm_compute; reflexivity..|eexists; vm_compute; reflexivity|vm_compute; reflexivity|vm_compute; reflexivity].
Lemma stamp_absolute : stamped (with_rsa [SetTimestamp 100; SetExpiration 3 true]) 100 3. Proof. stamp_case. Qed.
Lemma stamp_zero : stamped (with_rsa [SetTimestamp (-1); SetExpiration 0 false]) 5 5. Proof. stamp_case. Qed.
Lemma stamp_back : stamped (with_rsa [SetTimestamp 100; SetExpiration (-10) false]) 100 90. Proof. stamp_case. Qed.
Lemma stamp_negative : stamped (with_rsa [SetTimestamp (-2); SetExpiration 10 false]) 18446744073709551614 8. Proof. stamp_case. Qed.
Lemma stamp_good : stamped (with_rsa [SetTimestamp (-1); SetExpiration 10 false]) 5 15. Proof. stamp_case. Qed.
Lemma absolute_expired : unverifiable (with_rsa [SetTimestamp 100; SetExpiration 3 true]) letter V_DKIM 0 rsa_pub. Proof. bad_rsa. Qed.

(** A field name that ends in a fold. *)
Definition folded_name : bytes := esc "From: a@ex.org\r\nX\r\n : 1\r\n\r\nhi\r\n".
Lemma split_found (r : outcome bytes) (n m : nat) mid :
  match r with Ok H => beqb H (firstn n H ++ mid ++ skipn m H) | _ => false end = true -> exists H a b, r = Ok H /\ H = a ++ mid ++ b.
Proof. destruct r as [H| | |]; try discriminate. intros E. destruct (beqb_spec H (firstn n H ++ mid ++ skipn m H)) as [E1|]; [|discriminate]. eauto. Qed.
Lemma folded_name_breaks : exists H a b, sign toy (with_rsa [SetHeaders []]) folded_name = Ok H /\ H = a ++ CRLF ++ COLON :: b.
Proof. apply (split_found _ 75 78 (CRLF ++ [COLON])). vm_compute. reflexivity. Qed.
Lemma folded_name_fails : unverifiable (with_rsa [SetHeaders []]) folded_name V_DKIM 0 rsa_pub. Proof. bad_rsa. Qed.
Lemma oversign_breaks : exists H a b, sign toy (with_rsa [SetOversignHeaders [esc "x\r\nBcc: b@ex.org"]]) letter = Ok H /\ H = a ++ esc "\r\nbcc: b@ex.org;\r\n" ++ b.
Proof. apply (split_found _ 88 106). vm_compute. reflexivity. Qed.
Lemma letter_folds : exists H a b, sign toy (with_rsa []) letter = Ok H /\ H = a ++ CRLF ++ HT :: b.
Proof. apply (split_found _ 51 54 (CRLF ++ [HT])). vm_compute. reflexivity. Qed.
Lemma full_says : exists y H m s, parse_all new_message (open_str letter) = Ok (m, s) /\
  CreateSignature toy true (fun _ => 5%Z) full (new_signatory (open_str letter)) = (y, Ok H) /\
  Forall (plain_options full) (all_signatures full) /\ Forall signable_name (listed_names h_name full (m_headers m)) /\
  tag_order full = map str ["v"; "a"; "c"; "t"; "x"; "d"; "s"; "i"; "l"; "h"; "bh"; "b"].
Proof.
  destruct full_hypotheses as (y & H & m & s & _ & PA & CS & SO & _). destruct letter_parsed as (m' & s' & PA' & HM).
  rewrite PA in PA'. assert (m' = m) as -> by (apply Ok_inj in PA'; congruence).
  exists y, H, m, s. repeat (split; [assumption|]). split; [eapply plain_sounds; eauto|]. split; [|vm_compute; reflexivity].
  rewrite HM. assert (L : listed_names h_name full letter_fields = [esc "subject"; esc "from"; esc "from"; esc "x-missing"]) by (vm_compute; reflexivity). rewrite L.
  repeat apply Forall_cons; try apply Forall_nil; apply is_signable; vm_compute; reflexivity.
Qed.
