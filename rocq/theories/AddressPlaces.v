(** C99: every end of ParseAddressList, and the places that are named. *)
From Verif Require Import Bytes Outcome Stream Tokenizer ErrorText AddressText SpecText SpecError SpecAddress SpecAddressAll SpecAddressError
  BytesFacts StreamFacts TokenizerFacts QPFacts ListFacts ErrorFacts ShownFacts AddressFacts AddressParse ListExact ListWide AddressWide AddressEndless AddressErrors AddressRefused AddressClean Examples.

Lemma address_exact cs t :
  (forall l, AddressList_says cs t = Fine l <-> address_text cs t l) /\
  (forall m, AddressList_says cs t = Says m <-> refused cs (length t) [] t m) /\
  (AddressList_says cs t = Endless <-> cs = false /\ endless [] t).
Proof.
  pose proof (address_same cs t) as SA. split; [|split].
  - intros l. rewrite <- ParseAddressList_all, <- SA. split; [intros ->; reflexivity|]. intros E. exact (silent_Ok _ _ _ eq_refl E).
  - intros m. apply address_refused.
  - transitivity (ParseAddressList cs t = Diverge).
    + rewrite <- SA. destruct (AddressList_says cs t); cbn; split; discriminate || auto.
    + destruct cs.
      * split; [|intros [X _]; discriminate X]. intros E. destruct (ParseAddressList_any t) as [X|(l & X & _)]; rewrite X in E; discriminate E.
      * destruct (unsigned_exact t) as [U _]. rewrite U. tauto.
Qed.

(** ** Places *)
Definition cut (r r' : bytes) : Prop := exists a, r = a ++ r'.
Lemma cut_refl r : cut r r.
Proof. exists []. reflexivity. Qed.
Lemma cut_trans a b c : cut a b -> cut b c -> cut a c.
Proof. intros (x & ->) (y & ->). exists (x ++ y). rewrite app_assoc. reflexivity. Qed.
Lemma cut_cons c r r' : cut r r' -> cut (c :: r) r'.
Proof. intros (a & ->). exists (c :: a). reflexivity. Qed.
Lemma gap_cut r w r' : gap r w r' -> cut r r'.
Proof. intros G. exists w. exact (gap_app _ _ _ G). Qed.
Lemma word_cut r a r' : word_rest r a r' -> cut r r'.
Proof. induction 1 as [|r w r' G N|c r X|c r a r' G X W IH]; [apply cut_refl|exact (gap_cut _ _ _ G)|apply cut_refl|apply cut_cons; exact IH]. Qed.
Lemma one_cut cs r o r' : one cs r o r' -> cut r r'.
Proof.
  intros O. destruct O as [r w G|r w c r1 a r2 G X W N|r w q v r1 G Q N|r w a r1 G K N|r w r1 G|r w r1 G|r w c r1 G X]; apply gap_cut in G; eapply cut_trans; try exact G.
  - apply cut_refl.
  - apply cut_cons. exact (word_cut _ _ _ W).
  - apply cut_cons. exists (q ++ [DQ]). rewrite <- app_assoc. reflexivity.
  - apply cut_cons. exists a. reflexivity.
  - apply cut_cons, cut_refl.
  - apply cut_cons, cut_refl.
  - apply cut_cons, cut_refl.
Qed.
Lemma cut_in r r' (c : ascii) : cut r r' -> In c r' -> In c r.
Proof. intros (a & ->) I. apply in_or_app. auto. Qed.
Lemma one_plain cs r v r' : one cs r (Some (Word true v)) r' -> In DQ r.
Proof. intros O. inversion O; subst. match goal with G : gap _ _ _ |- _ => apply gap_cut in G; eapply cut_in; [exact G|] end. left. reflexivity. Qed.

Definition cr_text (m : bytes) : Prop := exists x, m = str "CR without matching LF, 0x" ++ x.
Ltac no_cr E := apply (f_equal (firstn 25)) in E; vm_compute in E; discriminate E.
(** [r] is the end of a text of [n] bytes and has the CR. *)
Definition named (n : nat) (r m : bytes) : Prop :=
  exists p c u, r = p ++ CR :: c :: u /\ c <> LF /\ byte_at "CR without matching LF, 0x" " at position " m c (n - length (c :: u)).
Lemma named_cut n r r' m : cut r r' -> named n r' m -> named n r m.
Proof. intros (a & ->) (p & c & u & -> & N & B). exists (a ++ p), c, u. rewrite app_assoc. auto. Qed.
Lemma cr_named n r m : cr_text m -> cr_bad n r m -> named n r m.
Proof.
  intros T C. revert T. destruct C as [u U|u c x m' U N B]; intros T.
  - destruct T as (x & E). no_cr E.
  - exists u, c, x. auto.
Qed.
Lemma word_named n r m : cr_text m -> word_bad n r m -> named n r m.
Proof.
  intros T. induction 1 as [r m C|c r m G X W IH]; [apply cr_named; auto|]. apply (named_cut n _ r); [apply cut_cons, cut_refl|auto].
Qed.
Lemma string_text cs q m : string_bad cs q m -> ~ cr_text m.
Proof. induction 1; auto; intros (x & E); no_cr E. Qed.
Lemma comment_text_ b d a m : comment_bad b d a m -> ~ cr_text m.
Proof. induction 1; auto; intros (x & E); no_cr E. Qed.
Lemma refused_named cs n seg r m : refused cs n seg r m -> cr_text m -> ~ In DQ r -> (forall v, ~ In (Word true v) seg) -> named n r m.
Proof.
  intros R T. induction R as [n seg r m B|n seg r B|n seg r t r1 m O N1 N2 R IH|n seg r o r1 O T1 IO|n seg r o r1 v m O EN AV LQ R IH|n seg r r1 l m O Y R IH|n seg r r1 l m O NO Y R IH]; intros NQ NW.
  - destruct B as [C|w c q G X W|w q G B|w a G B].
    + apply cr_named; auto.
    + apply (named_cut n _ q); [|apply word_named; auto]. eapply cut_trans; [exact (gap_cut _ _ _ G)|apply cut_cons, cut_refl].
    + destruct (string_text _ _ _ B T).
    + destruct (comment_text_ _ _ _ _ B T).
  - destruct T as (x & E). no_cr E.
  - apply (named_cut n _ r1 m (one_cut _ _ _ _ O)). apply IH; auto.
    + intros I. apply NQ. exact (cut_in _ _ _ (one_cut _ _ _ _ O) I).
    + intros v I. apply in_app_or in I as [I|[I|[]]]; [exact (NW v I)|]. subst t. apply NQ. exact (one_plain _ _ _ _ O).
  - destruct T as (x & E). no_cr E.
  - destruct LQ as (_ & s2 & ->). exfalso. apply (NW v). apply in_or_app. right. left. reflexivity.
  - apply (named_cut n _ r1 m (one_cut _ _ _ _ O)). apply IH; auto. intros I. apply NQ. exact (cut_in _ _ _ (one_cut _ _ _ _ O) I).
  - apply (named_cut n _ r1 m (one_cut _ _ _ _ O)). apply IH; auto. intros I. apply NQ. exact (cut_in _ _ _ (one_cut _ _ _ _ O) I).
Qed.
Lemma address_place cs t m x : ~ In DQ t -> AddressList_says cs t = Says m -> m = str "CR without matching LF, 0x" ++ x ->
  exists p c u, t = p ++ CR :: c :: u /\ c <> LF /\ byte_at "CR without matching LF, 0x" " at position " m c (S (length p)).
Proof.
  intros NQ E M. apply address_refused in E. destruct (refused_named _ _ _ _ _ E) as (p & c & u & T & N & B).
  - exists x. exact M.
  - exact NQ.
  - intros v [].
  - exists p, c, u. split; [exact T|]. split; [exact N|]. replace (S (length p)) with (length t - length (c :: u)); auto.
    rewrite T, app_length. cbn [length]. lia.
Qed.

(** ** Cases *)
Definition refusal (cs : bool) (t m : bytes) : Prop := refused cs (length t) [] t m.
Lemma refusal_all cs t m : AddressList_says cs t = Says m -> refusal cs t m.
Proof. apply address_refused. Qed.
Lemma refusals :
  refusal true (esc "a@b, c\r d@e") (str "CR without matching LF, 0x20 at position 7") /\
  refusal false (esc "a@b \r") (str "CR without matching LF, at the END") /\
  refusal true (str "x@y ""a\""b@c") (str "unclosed string") /\
  refusal false (str "a <""\") (str "incomplete escape sequence") /\
  refusal true (esc "a@b (c (d)") (str "unclosed comment") /\
  refusal false (str "a@b, (c\") (str "incomplete escape sequence") /\
  refusal true (str "a@b," ++ [NUL]) (str "NUL character in address field") /\
  refusal true (str "Jo <a@b, c@d>") (str "unclosed < addr-spec >").
Proof. repeat split; apply refusal_all; vm_compute; reflexivity. Qed.
Definition inner_cr : bytes := [DQ] ++ esc "a\r@b" ++ [DQ].
Lemma place_wrong : exists t m c k, AddressList_says true t = Says m /\ byte_at "CR without matching LF, 0x" " at position " m c k /\ nth_error t k <> Some c.
Proof.
  exists inner_cr, (str "CR without matching LF, 0x40 at position 2"), (chr 64), 2. split; [vm_compute; reflexivity|]. split.
  - exists (str "40"), (str "2"). split; [reflexivity|]. split.
    + right. split; [vm_compute; discriminate|]. exists (chr 52), (chr 48). split; [reflexivity|]. split; left; split; vm_compute; reflexivity.
    + split; [repeat constructor; vm_compute; discriminate|]. split; [reflexivity|]. right. vm_compute. discriminate.
  - vm_compute. discriminate.
Qed.
Lemma closed_wrong : exists q r, ~ In DQ q /\ ~ In BS q /\ AddressList_says true (DQ :: q ++ DQ :: r) = Says (str "unclosed string").
Proof.
  exists [chr 97; chr 255], (str " <a@b>"). split; [|split].
  - intros [X|[X|[]]]; discriminate X.
  - intros [X|[X|[]]]; discriminate X.
  - vm_compute. reflexivity.
Qed.
Lemma endings : AddressList_says true (str "Doe, J <a@b>, c@d") = Fine [str "a@b"; str "c@d"] /\
  AddressList_says true (str "Doe, J <a@b, c@d>") = Says (str "unclosed < addr-spec >") /\ AddressList_says false (str "a@b, " ++ [DQ]) = Endless.
Proof. repeat split; vm_compute; reflexivity. Qed.
Lemma place_case : ~ In DQ (esc "a@b, c\r d@e") /\ AddressList_says true (esc "a@b, c\r d@e") = Says (str "CR without matching LF, 0x20 at position 7").
Proof. split; [|vm_compute; reflexivity]. vm_compute. intuition discriminate. Qed.
