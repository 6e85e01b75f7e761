(** The whole program: signing and verifying by command line. *)
From Verif Require Import Bytes Outcome Stream TagList MailParser Canonicalization Util CStdlib Crypto Signature PublicKey SignatoryOptions Signatory Validatory SpecText SpecTags SpecMail SpecCanon SpecVerify SpecSig SpecKey SpecOptions
  SpecSign Tool SpecTool BytesFacts BodyFacts BodyProps MailFacts SelectFacts SigFacts SigProps VerifyFacts KeyFacts VerifyProps OptionsFacts SignNumbers SignText SignFacts SignMail SignRound SignProps ToolFacts Resolver ResolverFacts ToolSign ToolArgs SpecPass.

(** The program signs: what was asked, which files were read. *)
Lemma main_signs C strict clock resolve fs args ss files txt e : command_line args ss files -> Forall usual ss ->
  tool_main C strict clock resolve fs args = (P_header txt, e) ->
  exists a f more, settings ss a /\ files = f :: more /\ a_validate a = false /\ a_selector a <> [] /\ a_domain a <> [] /\ a_keyfile a <> [] /\
    tool_sign C strict clock a (fs (a_keyfile a)) (fs f) = (txt, e).
Proof.
  intros CL U M. destruct (main_command C strict clock resolve fs args ss files CL U) as (a & ST & E). rewrite E in M.
  destruct files as [|f more]; [discriminate M|]. destruct (a_validate a) eqn:V.
  { destruct (tool_files C strict clock resolve fs (a_type a) (f :: more) 0 (a_errno a)). discriminate M. }
  destruct (blank (a_selector a) || blank (a_domain a) || blank (a_keyfile a)) eqn:B; [discriminate M|].
  apply Bool.orb_false_iff in B as [B B3]. apply Bool.orb_false_iff in B as [B1 B2].
  destruct (tool_sign C strict clock a (fs (a_keyfile a)) (fs f)) as [t' e'] eqn:TS. destruct t' as [|c0 t']; [discriminate M|].
  assert (E1 : c0 :: t' = txt) by (apply (f_equal fst) in M; cbn [fst] in M; congruence). assert (E2 : e' = e) by (apply (f_equal snd) in M; exact M).
  subst. exists a, f, more. do 3 (split; [assumption || reflexivity|]).
  do 3 (split; [intros K; rewrite K in *; discriminate|]). exact TS.
Qed.
Lemma settings_verify ss a : settings ss a -> In Validate ss -> (forall v, ~ In (Instance v) ss) -> a_validate a = true /\ a_errno a = false.
Proof. intros S V I. split; [apply (st_validate _ _ S); auto|]. apply (st_errno _ _ S). intros v K. destruct (I v K). Qed.
Lemma main_verifies C strict clock resolve fs args ss f more ty : command_line args ss (f :: more) -> Forall usual ss -> In Validate ss ->
  (forall v, ~ In (Instance v) ss) -> kind ss ty ->
  tool_main C strict clock resolve fs args = (let '(ls, e) := tool_files C strict clock resolve fs ty (f :: more) 0 false in (P_lines ls, e)).
Proof.
  intros CL U V I K. destruct (main_command C strict clock resolve fs args ss _ CL U) as (a & ST & ->).
  destruct (settings_verify _ _ ST V I) as [-> ->].
  destruct (st_type _ _ ST) as [[A ->]|[A ->]], K as [[B ->]|[B ->]]; try contradiction; reflexivity.
Qed.

(** Signing one file and verifying it with the printed header in front. *)
Lemma main_round_trip C strict clock resolve fs args ss mail others txt : command_line args ss (mail :: others) -> Forall usual ss ->
  tool_main C strict clock resolve fs args = (P_header txt, Exit 0) -> forall t, fs mail = Some t -> ~ starts_wsp t -> has_from t ->
  exists a k o, settings ss a /\ fs (a_keyfile a) = Some k /\ chain C (tool_ops a k) new_options = Ok o /\
  forall clock2 resolve2 fs2 args2 ss2 f more p r, (a_instance a <= 50)%N ->
    serves C o (o_main o) p -> PublicKey_Parse C strict r new_public_key = (p, Ok tt) ->
    resolve2 (a_selector a ++ str "._domainkey." ++ map low (a_domain a)) = Ok (true, r) -> r <> [] ->
    command_line args2 ss2 (f :: more) -> Forall usual ss2 -> In Validate ss2 -> (forall v, ~ In (Instance v) ss2) -> kind ss2 (tool_type a) ->
    fs2 f = Some (txt ++ t) -> small_fields (txt ++ t) -> (clock2 0%nat <= clock 0%nat + 1)%Z ->
    exists ls x, tool_main C strict clock2 resolve2 fs2 args2 =
      (P_lines (mkLine f (map low (a_domain a)) (a_selector a) R_OK :: ls), x).
Proof.
  intros CL U M t FT NW HF. destruct (main_signs _ _ _ _ _ _ _ _ _ _ CL U M) as (a & mail' & more' & ST & EF & _ & _ & _ & _ & TS).
  injection EF as <- <-. rewrite FT in TS. destruct (fs (a_keyfile a)) as [k|] eqn:K; [|discriminate TS].
  destruct (tool_sign_parts _ _ _ _ _ _ _ TS) as (q & y & H & CH & _). exists a, k, (tool_options a q). split; auto. split; auto. split; auto.
  intros clock2 resolve2 fs2 args2 ss2 f more p r AI SV KP RS NR CL2 U2 V2 I2 K2 FF B T.
  rewrite (main_verifies C strict clock2 resolve2 fs2 args2 ss2 f more _ CL2 U2 V2 I2 K2).
  edestruct (tool_round_trip C strict clock a k t txt) as (ls & x & ->); eauto.
Qed.
Lemma main_expired C clock resolve fs args ss mail others txt : signs_something C -> command_line args ss (mail :: others) -> Forall usual ss ->
  tool_main C false clock resolve fs args = (P_header txt, Exit 0) -> forall t, fs mail = Some t -> ~ starts_wsp t -> has_from t ->
  exists a, settings ss a /\
  forall clock2 resolve2 fs2 args2 ss2 f more, (a_instance a <= 50)%N ->
    command_line args2 ss2 (f :: more) -> Forall usual ss2 -> In Validate ss2 -> (forall v, ~ In (Instance v) ss2) -> kind ss2 (tool_type a) ->
    fs2 f = Some (txt ++ t) -> (0 <= clock 0%nat)%Z -> (clock 0%nat + 1 < clock2 0%nat <= LONG_MAX)%Z ->
    exists d s ls x, tool_main C false clock2 resolve2 fs2 args2 = (P_lines (mkLine f d s (R_PERM AR_PERMERROR) :: ls), x).
Proof.
  intros SG CL U M t FT NW HF. destruct (main_signs _ _ _ _ _ _ _ _ _ _ CL U M) as (a & mail' & more' & ST & EF & _ & _ & _ & _ & TS).
  injection EF as <- <-. rewrite FT in TS. destruct (fs (a_keyfile a)) as [k|] eqn:K; [|discriminate TS].
  exists a. split; auto. intros clock2 resolve2 fs2 args2 ss2 f more AI CL2 U2 V2 I2 K2 FF B T.
  rewrite (main_verifies C false clock2 resolve2 fs2 args2 ss2 f more _ CL2 U2 V2 I2 K2).
  edestruct (tool_expired C clock a k t txt) as (d & s & ls & x & E); eauto. exists d, s, ls, x. rewrite E. reflexivity.
Qed.

(** Verification by command line. *)
Lemma main_ok C strict clock resolve fs args ss files ls x l : command_line args ss files -> Forall usual ss ->
  tool_main C strict clock resolve fs args = (P_lines ls, x) -> In l ls -> l_report l = R_OK ->
  (forall f t, In f files -> fs f = Some t -> small_fields t) ->
  exists ty t h k g, kind ss ty /\ In (l_file l) files /\ fs (l_file l) = Some t /\ In h (file_fields ty (Some t)) /\
    genuine C strict resolve t h (clock k) g /\ l_domain l = sg_domain g /\ l_selector l = sg_selector g.
Proof.
  intros CL U M I R B. destruct (main_command C strict clock resolve fs args ss files CL U) as (a & ST & E). rewrite E in M.
  destruct files as [|f more]; [discriminate M|]. destruct (a_validate a).
  - destruct (tool_files C strict clock resolve fs (a_type a) (f :: more) 0 (a_errno a)) as [ls' x'] eqn:TF. injection M as -> ->.
    destruct (ok_genuine _ _ _ _ _ _ _ _ _ _ _ _ TF I R B) as (t & h & k & g & J). exists (a_type a), t, h, k, g. split; [exact (st_type _ _ ST)|exact J].
  - destruct (blank (a_selector a) || blank (a_domain a) || blank (a_keyfile a)); [discriminate M|].
    destruct (tool_sign C strict clock a (fs (a_keyfile a)) (fs f)) as [[|c t'] e']; discriminate M.
Qed.
Lemma main_lines C strict clock resolve fs args ss files ls : command_line args ss files -> Forall usual ss ->
  tool_main C strict clock resolve fs args = (P_lines ls, Exit 0) ->
  exists ty, kind ss ty /\
  Forall2 (fun fh l => l_file l = fst fh /\ exists t k e0, fs (fst fh) = Some t /\ judged C strict ty resolve t (snd fh) (clock k) e0 l) (all_fields ty fs files) ls.
Proof.
  intros CL U M. destruct (main_command C strict clock resolve fs args ss files CL U) as (a & ST & E). rewrite E in M.
  destruct files as [|f more]; [discriminate M|]. destruct (a_validate a).
  - destruct (tool_files C strict clock resolve fs (a_type a) (f :: more) 0 (a_errno a)) as [ls' x'] eqn:TF. injection M as -> ->.
    exists (a_type a). split; [exact (st_type _ _ ST)|]. exact (exit_lines _ _ _ _ _ _ _ _ _ _ TF).
  - destruct (blank (a_selector a) || blank (a_domain a) || blank (a_keyfile a)); [discriminate M|].
    destruct (tool_sign C strict clock a (fs (a_keyfile a)) (fs f)) as [[|c t'] e']; discriminate M.
Qed.
Lemma main_quiet C strict clock resolve fs args ss f more ty ls : command_line args ss (f :: more) -> Forall usual ss -> In Validate ss ->
  (forall v, ~ In (Instance v) ss) -> kind ss ty ->
  Forall (fun p => ~ sets_errno (snd p)) (all_fields ty fs (f :: more)) ->
  tool_main C strict clock resolve fs args = (P_lines ls, Exit 0) ->
  Forall2 (fun fh l => l_file l = fst fh /\ exists t k, fs (fst fh) = Some t /\ judged C strict ty resolve t (snd fh) (clock k) false l) (all_fields ty fs (f :: more)) ls.
Proof.
  intros CL U V I K Q M. rewrite (main_verifies C strict clock resolve fs args ss f more _ CL U V I K) in M.
  destruct (tool_files C strict clock resolve fs ty (f :: more) 0 false) as [ls' x'] eqn:TF. injection M as -> ->.
  exact (quiet_lines _ _ _ _ _ _ _ _ _ TF Q).
Qed.
Lemma main_ends C clock lax answer fs args ss f more : command_line args ss (f :: more) -> Forall usual ss -> In Validate ss ->
  (forall ty f' t, In f' (f :: more) -> fs f' = Some t -> small_fields t /\ Forall (harmless C) (file_fields ty (Some t))) ->
  exists ls, tool_main C false clock (fun q => GetTXT lax (answer q)) fs args = (P_lines ls, Exit 0).
Proof.
  intros CL U V H. destruct (main_command C false clock (fun q => GetTXT lax (answer q)) fs args ss _ CL U) as (a & ST & ->).
  rewrite (proj2 (st_validate _ _ ST) V).
  destruct (files_end C clock (fun q => GetTXT lax (answer q)) fs (a_type a)) with (names := f :: more) (n := 0) (e := a_errno a) as (ls & ->); eauto.
  intros q. destruct (GetTXT_ok lax (answer q)) as (ok & text & ->). eauto.
Qed.
