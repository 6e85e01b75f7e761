(** Address lists put one behind the other (C119). *)
From Verif Require Import Bytes Outcome Stream Tokenizer BytesFacts StreamFacts TokenizerFacts SpecText SpecAddress SpecAddressAll SpecJoin
  QPFacts ListFacts AddressFacts AddressParse AddressClean ListExact ListWide AddressWide AddressEndless.

Definition sepc (c : ascii) : Prop := c = chr 44 \/ c = SEMI.
Lemma sepc_ok c : sepc c -> ~ WSP c /\ c <> CR.
Proof. intros [->| ->]; (split; [intros [X|X]; discriminate X|discriminate]). Qed.
Lemma sepc_special c : sepc c -> special c.
Proof. intros [->| ->]; unfold special; cbn; auto 7. Qed.
Lemma first_more (P : ascii -> Prop) r x : first_ok P r -> first_ok P x -> first_ok P (r ++ x).
Proof. destruct r; auto. Qed.
Lemma gap_more r w r' c b : sepc c -> gap r w r' -> gap (r ++ c :: b) w (r' ++ c :: b).
Proof.
  intros S G. pose proof (sepc_ok c S) as [N1 N2]. destruct G as [r F|u r U N|u r U NE F|u v r U V NE N].
  - apply gap_none. apply first_more; [exact F|split; assumption].
  - rewrite <- !app_assoc. apply gap_stray; [exact U|]. apply first_more; [exact N|exact N1].
  - rewrite <- app_assoc. apply gap_plain; auto. apply first_more; [exact F|split; assumption].
  - rewrite <- !app_assoc. apply gap_fold; auto. apply first_more; [exact N|exact N1].
Qed.
Lemma word_more r a r' c b : sepc c -> word_rest r a r' -> word_rest (r ++ c :: b) a (r' ++ c :: b).
Proof.
  intros S W. induction W as [|r w r' G N|d r D|d r a r' G N W IH]; cbn [app].
  - apply wr_special, sepc_special, S.
  - eapply wr_gap; [apply gap_more; eassumption|exact N].
  - apply wr_special, D.
  - apply wr_byte; [exact (gap_more _ _ _ c b S G)|exact N|exact IH].
Qed.
Lemma one_more cs r t r1 c b : sepc c -> one cs r (Some t) r1 -> one cs (r ++ c :: b) (Some t) (r1 ++ c :: b).
Proof.
  intros S O. inversion O as [|? w d r2 a ? G N W NN|? w q v ? G Q NN|? w a ? G K NN|? w ? G|? w ? G|? w d ? G D]; subst; pose proof (gap_more _ _ _ c b S G) as G2; cbn [app] in G2.
  - eapply one_word; eauto. apply word_more; assumption.
  - rewrite <- app_assoc in G2. eapply one_quoted; eauto.
  - rewrite <- app_assoc in G2. eapply one_comment; eauto.
  - eapply one_open; eauto.
  - eapply one_close; eauto.
  - eapply one_sep; eauto.
Qed.
Lemma one_sepc cs r c b : sepc c -> one cs r None [] -> one cs (r ++ c :: b) (Some Sep) b.
Proof. intros S O. inversion O as [? w G| | | | | |]; subst. apply (one_sep _ _ w c); [exact (gap_more _ _ _ c b S G)|exact S]. Qed.

Lemma lexed_unique cs : forall r ts ts', lexed cs r ts -> lexed cs r ts' -> ts = ts'.
Proof.
  intros r ts. revert r. induction ts as [|t ts IH]; intros r ts' A B; apply lexed_one in A as [[EA OA]|(ta & tsa & ra & EA & OA & LA)]; try discriminate EA;
    apply lexed_one in B as [[EB OB]|(tb & tsb & rb & EB & OB & LB)]; subst ts'; auto; destruct (one_same _ _ _ _ _ _ _ _ (St_open r) OA OB) as [E1 E2]; try discriminate E1.
  injection E1 as ->. injection EA as -> ->. subst rb. f_equal. apply (IH ra); assumption.
Qed.
Lemma lexed_joined cs c b : sepc c -> forall ts a ts', lexed cs a ts -> lexed cs (a ++ c :: b) ts' <-> exists tsb, ts' = ts ++ Sep :: tsb /\ lexed cs b tsb.
Proof.
  intros S. induction ts as [|t ts IH]; intros a ts' A; apply lexed_one in A as [[EA OA]|(ta & tsa & ra & EA & OA & LA)]; try discriminate EA; rewrite lexed_one.
  - pose proof (one_sepc cs a c b S OA) as O. split.
    + intros [[_ X]|(t' & ts2 & r2 & -> & X & L)]; destruct (one_same _ _ _ _ _ _ _ _ (St_open _) O X) as [E1 E2]; [discriminate E1|]. injection E1 as ->. subst r2. exists ts2. auto.
    + intros (tsb & -> & L). right. exists Sep, tsb, b. auto.
  - injection EA as <- <-. pose proof (one_more cs a t ra c b S OA) as O. split.
    + intros [[_ X]|(t' & ts2 & r2 & -> & X & L)]; destruct (one_same _ _ _ _ _ _ _ _ (St_open _) O X) as [E1 E2]; [discriminate E1|]. injection E1 as ->. subst r2.
      apply (IH ra _ LA) in L as (tsb & -> & L). exists tsb. auto.
    + intros (tsb & -> & L). right. exists t, (ts ++ Sep :: tsb), (ra ++ c :: b). split; [reflexivity|]. split; [exact O|]. apply (IH ra _ LA). exists tsb. auto.
Qed.

Lemma read_text cs t l : ParseAddressList cs t = Ok l <-> address_text cs t l.
Proof. apply pal_all. lia. Qed.
Lemma text_unique cs t l l' : address_text cs t l -> address_text cs t l' -> l = l'.
Proof. rewrite <- !read_text. congruence. Qed.
Lemma text_tokens cs t ts l : lexed cs t ts -> address_text cs t l <-> grouped (address_text cs) ts l.
Proof. intros L. split; [|intros G; econstructor; eauto]. intros A. inversion A as [? ts2 ? L2 G2]; subst. rewrite (lexed_unique cs t ts ts2 L L2). exact G2. Qed.

Lemma lone_unique seg v v' : lone_quoted seg v -> lone_quoted seg v' -> v = v'.
Proof. intros [A _] [B _]. congruence. Qed.
Lemma yields_unique (sub : bytes -> list bytes -> Prop) sep seg l l' : (forall v l l', sub v l -> sub v l' -> l = l') -> yields sub sep seg l -> yields sub sep seg l' -> l = l'.
Proof.
  intros U A B. destruct A as [A|S A|v l A L S|A N L], B as [B|S' B|v' l' B L' S'|B N' L']; auto; try contradiction; try (exfalso; auto; fail).
  - destruct L' as [L' _]. congruence.
  - exfalso. destruct L' as [L' _]. rewrite L' in A. exact (A (B S)).
  - destruct L as [L _]. congruence.
  - exfalso. destruct L as [L _]. rewrite L in B. exact (B (A S')).
  - rewrite (lone_unique seg v v' L L') in S. eapply U; eauto.
  - exfalso. eauto.
  - exfalso. eauto.
Qed.

(** ** Groups *)
Section Groups.
  Variable sub : bytes -> list bytes -> Prop.
  Hypothesis U : forall v l l', sub v l -> sub v l' -> l = l'.
  Lemma joined_groups ts la : grouped sub ts la -> exists seg l0 l1, tail_segment ts seg /\ ~ In Open seg /\ yields sub false seg l1 /\ la = l0 ++ l1 /\
    forall tsb l, grouped sub (ts ++ Sep :: tsb) l <-> exists l2 lb, yields sub true seg l2 /\ grouped sub tsb lb /\ l = l0 ++ l2 ++ lb.
  Proof using U.
    induction 1 as [seg l SE NO Y|seg ts l1 l2 SE Y G IH|seg ts l1 l2 SE NO Y G IH].
    - exists seg, [], l. split; [split; auto|]. split; [exact NO|]. split; [exact Y|]. split; [reflexivity|]. intros tsb l'. rewrite grouped_sep by exact SE. cbn [app]. split.
      + intros (_ & l1 & l2 & Y1 & G & ->). eauto.
      + intros (l2 & lb & Y1 & G & ->). eauto 6.
    - destruct IH as (s2 & m0 & m1 & [S2 TS] & NO2 & Y2 & -> & J). exists s2, (l1 ++ m0), m1. split; [split; [exact S2|]|].
      { right. destruct TS as [->|(ts0 & t & -> & T)]; [exists seg, Close; auto|]. exists (seg ++ Close :: ts0), t. rewrite <- app_assoc. auto. }
      split; [exact NO2|]. split; [exact Y2|]. split; [apply app_assoc|]. intros tsb l'. rewrite <- app_assoc. cbn [app]. rewrite grouped_close by exact SE. split.
      + intros (k1 & k2 & Y1 & G1 & ->). apply J in G1 as (l2 & lb & Y3 & G3 & ->). exists l2, lb. rewrite (yields_unique sub false seg k1 l1 U Y1 Y), <- app_assoc. auto.
      + intros (l2 & lb & Y3 & G3 & ->). exists l1, (m0 ++ l2 ++ lb). split; [exact Y|]. split; [apply J; eauto|]. rewrite <- app_assoc. reflexivity.
    - destruct IH as (s2 & m0 & m1 & [S2 TS] & NO2 & Y2 & -> & J). exists s2, (l1 ++ m0), m1. split; [split; [exact S2|]|].
      { right. destruct TS as [->|(ts0 & t & -> & T)]; [exists seg, Sep; auto|]. exists (seg ++ Sep :: ts0), t. rewrite <- app_assoc. auto. }
      split; [exact NO2|]. split; [exact Y2|]. split; [apply app_assoc|]. intros tsb l'. rewrite <- app_assoc. cbn [app]. rewrite grouped_sep by exact SE. split.
      + intros (_ & k1 & k2 & Y1 & G1 & ->). apply J in G1 as (l2 & lb & Y3 & G3 & ->). exists l2, lb. rewrite (yields_unique sub true seg k1 l1 U Y1 Y), <- app_assoc. auto.
      + intros (l2 & lb & Y3 & G3 & ->). split; [exact NO|]. exists l1, (m0 ++ l2 ++ lb). split; [exact Y|]. split; [apply J; eauto|]. rewrite <- app_assoc. reflexivity.
  Qed.
  (** The segment in front of a ',' or ';'. *)
  Lemma yields_counts seg l l' : counts seg -> yields sub false seg l -> yields sub true seg l' <-> l' = l.
  Proof using U.
    intros C Y. assert (T : yields sub true seg l).
    { destruct Y as [W|S W|v l A L S|A N L].
      - apply y_none. exact W.
      - discriminate S.
      - apply (y_list _ _ _ v); auto. intros _. destruct L as [W _]. destruct C as [C|C]; [congruence|]. rewrite W in C. exact C.
      - apply y_address; auto. intros _. destruct C as [C|C]; [contradiction|exact C]. }
    split; [|intros ->; exact T]. intros Y'. exact (yields_unique sub true seg l' l U Y' T).
  Qed.
  Lemma yields_dropped seg l' : ~ counts seg -> yields sub true seg l' <-> l' = [].
  Proof using U.
    intros C. assert (T : yields sub true seg []) by (apply y_name; auto; intros X; apply C; right; exact X).
    split; [|intros ->; exact T]. intros Y'. exact (yields_unique sub true seg l' [] U Y' T).
  Qed.
End Groups.

Lemma tail_unique ts : forall seg seg', tail_segment ts seg -> tail_segment ts seg' -> seg = seg'.
Proof.
  assert (K : forall a b x seg y seg', a ++ x :: seg = b ++ y :: seg' -> ender x -> ender y -> segment seg -> segment seg' -> seg = seg').
  { induction a as [|t a IH]; intros b x seg y seg' E X Y S S'; destruct b as [|u b]; cbn [app] in E; injection E as E0 E.
    - exact E.
    - exfalso. subst seg. destruct S as [S1 S2]. destruct Y as [->| ->]; [apply S1|apply S2]; apply in_or_app; right; left; reflexivity.
    - exfalso. subst seg'. destruct S' as [S1 S2]. destruct X as [->| ->]; [apply S1|apply S2]; apply in_or_app; right; left; reflexivity.
    - eapply IH; eauto. }
  intros seg seg' [S [->|(a & x & E & X)]] [S' [E'|(b & y & E' & Y)]].
  - exact E'.
  - exfalso. rewrite E' in S. destruct S as [S1 S2]. destruct Y as [->| ->]; [apply S1|apply S2]; apply in_or_app; right; left; reflexivity.
  - exfalso. subst seg'. rewrite E in S'. destruct S' as [S1 S2]. destruct X as [->| ->]; [apply S1|apply S2]; apply in_or_app; right; left; reflexivity.
  - rewrite E in E'. eapply K; eauto.
Qed.
Lemma counts_dec seg : counts seg \/ ~ counts seg.
Proof.
  unfold counts. destruct (words seg) as [|w ws] eqn:W; [left; left; reflexivity|]. rewrite <- W. destruct (in_dec ascii_dec AT (last (words seg) [])) as [I|I]; [left; right; exact I|].
  right. intros [X|X]; [congruence|contradiction].
Qed.

(** ** Texts *)
Lemma segment_exists cs a la : ParseAddressList cs a = Ok la -> exists seg, last_segment cs a seg.
Proof.
  intros R. apply read_text in R. inversion R as [? ts ? L G]; subst. destruct (joined_groups _ (text_unique cs) ts la G) as (seg & _ & _ & T & _). exists seg, ts. auto.
Qed.
Lemma joined cs a la seg : ParseAddressList cs a = Ok la -> last_segment cs a seg -> exists l0 l1, la = l0 ++ l1 /\ yields (address_text cs) false seg l1 /\
  forall c b l, c = chr 44 \/ c = SEMI -> ParseAddressList cs (a ++ c :: b) = Ok l <->
    exists lb, ParseAddressList cs b = Ok lb /\ (counts seg /\ l = la ++ lb \/ ~ counts seg /\ l = l0 ++ lb).
Proof.
  intros R (ts' & L' & T'). apply read_text in R. inversion R as [? ts ? L G]; subst. pose proof (lexed_unique _ _ _ _ L L') as <-.
  destruct (joined_groups _ (text_unique cs) ts la G) as (seg2 & l0 & l1 & T & NO & Y & -> & J). pose proof (tail_unique ts _ _ T' T) as <-.
  exists l0, l1. split; [reflexivity|]. split; [exact Y|]. intros c b l S. rewrite read_text. split.
  - intros A. inversion A as [? ts2 ? L2 G2]; subst. apply (lexed_joined cs c b S ts a ts2 L) in L2 as (tsb & -> & LB). apply J in G2 as (l2 & lb & Y2 & GB & ->).
    exists lb. split; [apply read_text; econstructor; eauto|]. destruct (counts_dec seg) as [C|C]; [left|right]; (split; [exact C|]).
    + apply (yields_counts _ (text_unique cs) seg l1 l2 C Y) in Y2 as ->. apply app_assoc.
    + apply (yields_dropped _ (text_unique cs) seg l2 C) in Y2 as ->. reflexivity.
  - intros (lb & B & K). apply read_text in B. inversion B as [? tsb ? LB GB]; subst.
    apply (at_text _ _ (ts ++ Sep :: tsb)); [apply (lexed_joined cs c b S ts a _ L); eauto|]. apply J. destruct K as [[C ->]|[C ->]].
    + exists l1, lb. split; [apply (yields_counts _ (text_unique cs) seg l1 l1 C Y); reflexivity|]. split; [exact GB|]. rewrite app_assoc. reflexivity.
    + exists [], lb. split; [apply (yields_dropped _ (text_unique cs) seg [] C); reflexivity|]. split; [exact GB|]. reflexivity.
Qed.
(** In words: nothing is lost but the last segment, and that only without an '@' in its last word. *)
Lemma joined_kept cs a b la lb c seg : ParseAddressList cs a = Ok la -> ParseAddressList cs b = Ok lb -> c = chr 44 \/ c = SEMI -> last_segment cs a seg -> counts seg ->
  ParseAddressList cs (a ++ c :: b) = Ok (la ++ lb).
Proof.
  intros A B S L C. destruct (joined cs a la seg A L) as (l0 & l1 & -> & Y & J). apply (J c b _ S). exists lb. auto.
Qed.
Lemma joined_refused cs a b la c : ParseAddressList cs a = Ok la -> c = chr 44 \/ c = SEMI -> (forall l, ParseAddressList cs b <> Ok l) -> forall l, ParseAddressList cs (a ++ c :: b) <> Ok l.
Proof.
  intros A S N l X. destruct (segment_exists cs a la A) as (seg & L). destruct (joined cs a la seg A L) as (l0 & l1 & _ & Y & J). destruct (proj1 (J c b l S) X) as (lb & B & _). exact (N lb B).
Qed.
(** An address disappears. *)
Lemma joined_lost : exists a b la lb, forall cs, ParseAddressList cs a = Ok la /\ ParseAddressList cs b = Ok lb /\ In AT (concat la) /\ ParseAddressList cs (a ++ chr 44 :: b) = Ok lb.
Proof.
  exists (str "joe@ example.com"), (str "a@b"), [str "joe@example.com"], [str "a@b"]. intros cs.
  split; [destruct cs; vm_compute; reflexivity|]. split; [destruct cs; vm_compute; reflexivity|]. split; [cbn; auto 10|]. destruct cs; vm_compute; reflexivity.
Qed.
Lemma joined_case : forall cs, ParseAddressList cs (str "Joe <joe@a>, x@y") = Ok [str "joe@a"; str "x@y"] /\ ParseAddressList cs (str "Joe <joe@a>, x@y; ""p@q""") = Ok [str "joe@a"; str "x@y"; str "p@q"] /\
  last_segment cs (str "Joe <joe@a>") [] /\ counts [].
Proof.
  intros cs. split; [destruct cs; vm_compute; reflexivity|]. split; [destruct cs; vm_compute; reflexivity|]. split; [|left; reflexivity].
  exists [Word false (str "Joe"); Open; Word false (str "joe@a"); Close]. split.
  - apply lexed_one. right. eexists _, _, (str "<joe@a>"). split; [reflexivity|]. split; [|].
    { apply (one_word _ _ [] "J" (str "oe <joe@a>") (str "oe")).
      - apply gap_none. cbn. split; [intros [X|X]; discriminate X|discriminate].
      - intros X. cbn in X. repeat destruct X as [X|X]; try discriminate X; exact X.
      - apply wr_byte; [apply gap_none; cbn; split; [intros [X|X]; discriminate X|discriminate]|intros X; cbn in X; repeat destruct X as [X|X]; try discriminate X; exact X|].
        apply wr_byte; [apply gap_none; cbn; split; [intros [X|X]; discriminate X|discriminate]|intros X; cbn in X; repeat destruct X as [X|X]; try discriminate X; exact X|].
        apply (wr_gap _ (str " ")); [|discriminate]. apply (gap_plain (str " ") (str "<joe@a>")); [repeat constructor|discriminate|]. cbn. split; [intros [X|X]; discriminate X|discriminate].
      - intros X. cbn in X. repeat destruct X as [X|X]; try discriminate X; exact X. }
    apply lexed_one. right. eexists _, _, (str "joe@a>"). split; [reflexivity|]. split; [apply (one_open _ _ []); apply gap_none; cbn; split; [intros [X|X]; discriminate X|discriminate]|].
    apply lexed_one. right. eexists _, _, (str ">"). split; [reflexivity|]. split.
    { apply (one_word _ _ [] "j" (str "oe@a>") (str "oe@a")).
      - apply gap_none. cbn. split; [intros [X|X]; discriminate X|discriminate].
      - intros X. cbn in X. repeat destruct X as [X|X]; try discriminate X; exact X.
      - repeat (apply wr_byte; [apply gap_none; cbn; split; [intros [X|X]; discriminate X|discriminate]|intros X; cbn in X; repeat destruct X as [X|X]; try discriminate X; exact X|]).
        apply wr_special. cbn. auto 7.
      - intros X. cbn in X. repeat destruct X as [X|X]; try discriminate X; exact X. }
    apply lexed_one. right. eexists _, _, []. split; [reflexivity|]. split; [apply (one_close _ _ []); apply gap_none; cbn; split; [intros [X|X]; discriminate X|discriminate]|].
    apply lexed_one. left. split; [reflexivity|]. apply (one_end _ _ []). apply gap_none. exact I.
  - split; [split; intros []|]. right. exists [Word false (str "Joe"); Open; Word false (str "joe@a")], Close. auto.
Qed.
(** Any number of lists. *)
Lemma joined_many cs : forall ts ls, Forall2 (fun a la => ParseAddressList cs a = Ok la /\ exists seg, last_segment cs a seg /\ counts seg) ts ls ->
  ParseAddressList cs (with_commas ts) = Ok (concat ls).
Proof.
  induction 1 as [|a la ts ls [A (seg & L & C)] F IH]; [destruct cs; vm_compute; reflexivity|]. destruct F as [|b lb ts ls B F].
  - cbn [with_commas concat]. rewrite app_nil_r. exact A.
  - change (with_commas (a :: b :: ts)) with (a ++ chr 44 :: with_commas (b :: ts)). apply (joined_kept cs a _ la (concat (lb :: ls)) (chr 44) seg); auto.
Qed.
