(** EncodedWord::Decode on every text (for C47). *)
From Verif Require Import Bytes Outcome Stream Tokenizer QuotedPrintable Base64 EncodedWord SpecText SpecWord BytesFacts StreamFacts TokenizerFacts QPFacts ListFacts AddressClean ListExact ListWide WordFacts.

Lemma stops_plain r : stops r <-> begins_plain r.
Proof.
  destruct r as [|c r]; [split; intros; exact I|]. cbn. rewrite <- is_wsp_WSP. rewrite not_true_iff_false. reflexivity.
Qed.
Lemma skip_end f : forall s p r, St s p r -> length r < f ->
  skip_fws f s = perm \/ exists s' w r', r = w ++ r' /\ begun w r' /\ skip_fws f s = Ok s' /\ St s' (rev w ++ p) r'.
Proof.
  induction f as [|f IH]; intros s p r H L; [lia|]. cbn [skip_fws]. pose proof (read_fws_St _ _ _ H) as R. pose proof (l_fws_cases r) as K.
  destruct (l_fws r) as [[w r']|]; [|left; rewrite R; reflexivity]. destruct R as (s' & R & H'). rewrite R. cbn [obind]. destruct w as [|c w].
  - right. destruct K as [-> K]. exists s', [], r. split; [reflexivity|]. split; [|split; [reflexivity|exact H']]. split; [constructor|].
    destruct K as [K|(u & b & E & U & N)]; [left; apply stops_plain; exact K|right; exists u, b; auto].
  - destruct K as (-> & N & K). rewrite app_length in L. cbn [length] in L. destruct (IH s' _ r' H' ltac:(lia)) as [E|(s2 & w2 & r2 & E & [W2 B] & E2 & H2)]; [left; exact E|].
    right. exists s2, ((c :: w) ++ w2), r2. split; [rewrite <- app_assoc, <- E; reflexivity|]. split; [|split; [exact E2|rewrite rev_app_distr, <- app_assoc; exact H2]].
    destruct K as [[W ST]|(u & x & b & EW & U & X & XB)].
    + assert (w2 = []). { destruct w2 as [|y w2]; [reflexivity|]. exfalso. subst r'. apply stops_plain in ST. destruct ST as [S1 S2]. apply FWSs_ws in W2. inversion W2; subst; auto. }
      subst w2. cbn [app] in E. subst r2. rewrite app_nil_r. split; [|left; apply stops_plain; exact ST].
      apply ws_FWSs. apply ws_wsps. exact W.
    + assert (WF : FWSs (c :: w)). { rewrite EW. rewrite <- (app_nil_r (u ++ CRLF ++ x :: b)). apply FWSs_cons; [|constructor]. apply FWS_fold; [exact U|constructor; assumption|discriminate]. }
      split; [apply ws_FWSs; apply ws_app; apply FWSs_ws; assumption|].
      destruct B as [B|(u2 & b2 & E3 & U2 & N2 & K2)]; [left; exact B|right]. exists u2, b2. split; [exact E3|]. split; [exact U2|]. split; [exact N2|]. right.
      assert (IC : In CR (c :: w)) by (rewrite EW; apply in_or_app; right; left; reflexivity).
      destruct K2 as [->|[-> K2]]; [|split; [reflexivity|apply in_or_app; auto]]. split; [|apply in_or_app; auto].
      cbn [app] in E. subst r'. rewrite E3 in N. destruct u2 as [|y u2]; [reflexivity|]. inversion U2; subst. contradiction.
Qed.
Lemma skip_begun f s p w r : St s p (w ++ r) -> begun w r -> length w < f -> exists s', skip_fws f s = Ok s' /\ St s' (rev w ++ p) r.
Proof.
  intros H [W B] L. destruct B as [B|(u & b & -> & U & N & K)].
  - apply skip_fws_ws; auto; [apply FWSs_ws; exact W|apply stops_plain; exact B].
  - rewrite <- (app_nil_r (u ++ CRLF ++ b)) in *. apply skip_opens; auto; [apply FWSs_ws; exact W|]. right. exists u, b. rewrite app_nil_r. auto.
Qed.
Lemma decode_exact junk t : (forall d, ew_decode junk t = Ok d <-> exists w r, t = w ++ r /\ begun w r /\ decoded junk r d) /\
  ((forall w r d, t = w ++ r -> begun w r -> ~ decoded junk r d) -> ew_decode junk t = perm).
Proof.
  assert (D1 : forall w r d, t = w ++ r -> begun w r -> decoded junk r d -> ew_decode junk t = Ok d).
  { intros w r d -> B D. unfold ew_decode. rewrite (St_fuel _ _ _ (St_open _)). destruct (skip_begun (S (length (w ++ r))) _ _ w r (St_open _) B) as (s' & E & H); [rewrite app_length; lia|].
    rewrite E. cbn [obind]. rewrite (St_fuel _ _ _ H). rewrite (loop_decoded junk r d D _ s' _ [] H) by lia. reflexivity. }
  assert (D2 : ew_decode junk t = perm \/ exists w r d, t = w ++ r /\ begun w r /\ decoded junk r d).
  { unfold ew_decode. rewrite (St_fuel _ _ _ (St_open t)). destruct (skip_end (S (length t)) _ _ t (St_open t) ltac:(lia)) as [E|(s' & w & r & E0 & B & E & H)]; rewrite E; [left; reflexivity|].
    cbn [obind]. rewrite (St_fuel _ _ _ H). destruct (loop_total junk (S (length r)) s' _ r [] H ltac:(lia)) as [Q|(d & D)]; [auto|]. right. exists w, r, d. auto. }
  split.
  - intros d. split.
    + intros E. destruct D2 as [P|(w & r & d' & E0 & B & D)]; [rewrite P in E; discriminate|]. exists w, r. rewrite (D1 w r d' E0 B D) in E. injection E as <-. auto.
    + intros (w & r & E0 & B & D). exact (D1 w r d E0 B D).
  - intros N. destruct D2 as [P|(w & r & d & E0 & B & D)]; [exact P|]. destruct (N w r d E0 B D).
Qed.
