(** C94: encoded words in text. *)
From Verif Require Import Bytes Outcome Stream Tokenizer QuotedPrintable Base64 EncodedWord SpecText SpecWord SpecMime BytesFacts Base64Facts Base64Bits QPFacts ListFacts WordFacts Examples.

Lemma q_qp x y : q_text x y -> ~ In SEMI x -> qp_text true x y.
Proof.
  induction 1 as [|s d Q IH|c s d P E M U Q IH|h1 h2 a b s d A B Q IH]; intros N.
  - constructor.
  - apply qp_under; [reflexivity|]. apply IH. intros I. apply N. right. exact I.
  - apply qp_char; auto. { intros ->. apply N. left. reflexivity. } apply IH. intros I. apply N. right. exact I.
  - apply qp_hex; auto. apply IH. intros I. apply N. right. right. right. exact I.
Qed.
Lemma q_mark x y : q_text x y -> ~ In MARK x.
Proof.
  induction 1 as [|s d Q IH|c s d P E M U Q IH|h1 h2 a b s d A B Q IH]; intros I; cbn [In] in I.
  - exact I.
  - destruct I as [I|I]; [discriminate I|auto].
  - destruct I as [I|I]; [congruence|auto].
  - destruct I as [I|[I|[I|I]]]; [discriminate I| | |auto]; subst; [inversion A as [? H|? H]|inversion B as [? H|? H]]; subst; destruct H as [H1 H2]; vm_compute in H1, H2; congruence.
Qed.
Lemma b64_no_mark y : ~ In MARK (Base64_Encode y).
Proof.
  intros I. pose proof (Base64_letters y) as F. rewrite Forall_forall in F. specialize (F _ I).
  destruct F as [[A B]|[[A B]|[[A B]|[F|[F|F]]]]]; try discriminate F; vm_compute in A, B; congruence.
Qed.
Lemma token_mark s : token s -> ~ In MARK s.
Proof. intros [_ F] I. rewrite Forall_forall in F. destruct (F _ I) as [_ N]. apply N. vm_compute. tauto. Qed.
Lemma enc_mark enc : enc = str "q" \/ enc = str "Q" \/ enc = str "b" \/ enc = str "B" -> ~ In MARK enc.
Proof. intros [->|[->|[->| ->]]] [I|[]]; discriminate I. Qed.
Lemma coded_content junk cs enc x y : coded_item (Coded cs enc x y) -> tame_item (Coded cs enc x y) -> parts cs enc x /\ content junk enc x y.
Proof.
  intros (T & C) N. cbn [tame_item] in N. destruct C as [[E Q]|[E B]].
  - split; [repeat split; [apply token_mark, T|apply enc_mark; tauto|apply (q_mark x y Q)]|]. left. split; [exact E|]. apply q_qp; auto.
  - apply b64_exact in B. split; [repeat split; [apply token_mark, T|apply enc_mark; tauto|rewrite B; apply b64_no_mark]|]. right. split; [exact E|]. rewrite B. symmetry. apply Base64_round.
Qed.
Lemma FWSs_gap w : FWSs w -> exists v, gap w v /\ (w <> [] -> v <> []).
Proof.
  intros F. apply FWSs_ws in F. induction F as [|c w W F (v & G & _)|c w W F (v & G & _)].
  - exists []. split; [constructor|auto].
  - exists (c :: v). split; [constructor; auto|discriminate].
  - exists (c :: v). split; [apply gap_crlf, gap_wsp; auto|discriminate].
Qed.
Lemma gap_fun w v : gap w v -> forall v', gap w v' -> v = v'.
Proof.
  induction 1 as [|c w v W G IH|w v G IH]; intros v' G'; inversion G' as [|c' w' v2 W' G2|w' v2 G2]; subst; auto.
  - f_equal. auto.
  - destruct W; discriminate.
  - destruct W'; discriminate.
Qed.
Lemma FWSs_end w t : FWSs w -> w <> [] -> first_ok LWSP (w ++ t).
Proof.
  intros F N. apply FWSs_ws in F. destruct F as [|c w W F|c w W F]; [congruence| |]; cbn.
  - destruct W as [->| ->]; unfold LWSP; auto.
  - unfold LWSP. auto.
Qed.
Lemma follows_end i l t d : follows i l t d -> first_ok LWSP t.
Proof.
  intros F. destruct F as [i w W|i w j l t d W N CI CJ GJ F|i w v j l t d W N G NC GJ F]; try (apply FWSs_end; assumption).
  destruct w as [|c w]; [exact I|]. rewrite <- (app_nil_r (c :: w)). apply FWSs_end; [assumption|discriminate].
Qed.
(** An ordinary part. *)
Lemma plain_decoded junk p : Forall (fun c => ~ LWSP c) p -> (forall a b, p <> a ++ EQUALS :: MARK :: b) -> forall w v t d, gap w v -> p <> [] ->
  first_ok LWSP t -> decoded junk t d -> decoded junk (w ++ p ++ t) (v ++ p ++ d).
Proof.
  induction 1 as [|c p NC F IH]; intros NM w v t d G NE E D; [congruence|].
  assert (T : decoded junk (p ++ t) (p ++ d)).
  { destruct p as [|e p]; [exact D|]. apply (IH ltac:(intros a b X; apply (NM (c :: a) b); rewrite X; reflexivity) [] [] t d); auto using gap_nil. discriminate. }
  destruct (ascii_dec c EQUALS) as [->|NQ].
  - apply (dec_bad junk w v [EQUALS] (p ++ t) (p ++ d) G); [|exact T]. apply bad_mark. destruct p as [|e p].
    + destruct t as [|x t]; [exact I|]. cbn in *. intros ->. destruct E as [E|[E|[E|E]]]; discriminate E.
    + cbn. intros ->. apply (NM [] p). reflexivity.
  - apply (dec_char junk w v c (p ++ t) (p ++ d) G); auto.
    + intros W. apply NC. destruct W as [->| ->]; unfold LWSP; auto.
    + intros ->. apply NC. unfold LWSP. auto.
Qed.
(** One part behind blanks: those in front of a word are lost. *)
Lemma item_decoded junk j w v t d : good_item j -> tame_item j -> gap w v -> first_ok LWSP t -> decoded junk t d ->
  decoded junk (w ++ written j ++ t) ((match j with Plain _ => v | Coded _ _ _ _ => [] end) ++ meant j ++ d).
Proof.
  intros GJ TJ G E D. destruct j as [p|cs enc x y].
  - destruct GJ as (N & F & _). apply plain_decoded; auto.
  - destruct (coded_content junk cs enc x y GJ TJ) as (P & K). cbn [written meant app]. apply (dec_word junk w v); auto.
Qed.
Definition behind (i : item) (l : list item) : Prop := word_behind (i :: l).
Lemma behind_cons i j l : behind i (j :: l) <-> (~ coded i /\ coded j) \/ behind j l.
Proof.
  split.
  - intros (a & p & k & b & E & K). destruct a as [|x a]; cbn [app] in E.
    + injection E as -> -> <-. left. split; [intros []|exact K].
    + injection E as -> E. right. exists a, p, k, b. auto.
  - intros [[N K]|(a & p & k & b & E & K)].
    + destruct i as [p|? ? ? ?]; [|exfalso; apply N; exact I]. exists [], p, j, l. auto.
    + exists (i :: a), p, k, b. split; [cbn [app]; rewrite E; reflexivity|exact K].
Qed.
Lemma behind_nil i : ~ behind i [].
Proof. intros (a & p & k & b & E & _). destruct a as [|x [|y a]]; discriminate E. Qed.
Lemma follows_decoded junk i l t d : follows i l t d -> Forall tame_item l ->
  exists d', decoded junk t d' /\ ((d' = d /\ ~ behind i l) \/ (length d' < length d /\ behind i l)).
Proof.
  induction 1 as [i w W|i w j l t d W N CI CJ GJ F IH|i w v j l t d W N G NC GJ F IH]; intros T.
  - destruct (FWSs_gap w W) as (v & G & _). exists []. split; [apply (dec_end junk w v G)|]. left. split; [reflexivity|apply behind_nil].
  - inversion T as [|? ? TJ TL]; subst. destruct (IH TL) as (d' & D & X). destruct (FWSs_gap w W) as (v & G & _).
    pose proof (item_decoded junk j w v t d' GJ TJ G (follows_end _ _ _ _ F) D) as DJ. destruct j as [p|cs enc x y]; [destruct CJ|]. cbn [app] in DJ.
    exists (meant (Coded cs enc x y) ++ d'). split; [exact DJ|]. rewrite behind_cons, !app_length. destruct X as [[-> X]|[X Y]].
    + left. split; [reflexivity|]. tauto.
    + right. split; [lia|]. tauto.
  - inversion T as [|? ? TJ TL]; subst. destruct (IH TL) as (d' & D & X).
    pose proof (item_decoded junk j w v t d' GJ TJ G (follows_end _ _ _ _ F) D) as DJ. eexists. split; [exact DJ|]. rewrite behind_cons. destruct j as [p|cs enc x y].
    + rewrite !app_length. destruct X as [[-> X]|[X Y]].
      * left. split; [reflexivity|]. cbn [coded]. tauto.
      * right. split; [lia|]. tauto.
    + right. assert (NV : length v > 0).
      { destruct (FWSs_gap w W) as (v' & G' & NV). rewrite (gap_fun w v G v' G'). specialize (NV N). destruct v'; [congruence|cbn; lia]. }
      cbn [app]. rewrite !app_length. cbn [coded] in *. split; [|left; tauto]. destruct X as [[-> X]|[X Y]]; lia.
Qed.
Lemma good_begins j t : good_item j -> begins_plain (written j ++ t).
Proof.
  intros G. destruct j as [p|cs enc x y].
  - destruct G as (N & F & _). destruct p as [|c p]; [congruence|]. inversion F as [|? ? NC ?]; subst. cbn. split.
    + intros W. apply NC. destruct W as [->| ->]; unfold LWSP; auto.
    + intros ->. apply NC. unfold LWSP. auto.
  - cbn. split; [intros [X|X]; discriminate|discriminate].
Qed.
Theorem displayed_exact junk l t d : unstructured l t d -> Forall tame_item l -> (ew_decode junk t = Ok d <-> ~ word_behind l).
Proof.
  intros U T. destruct U as [w W|w j l t d W GJ F].
  - split.
    + intros _ (a & p & k & b & E & _). destruct a; discriminate E.
    + intros _. rewrite <- (app_nil_r w). apply (decode_iff junk w [] W I). apply (dec_end junk [] []). constructor.
  - inversion T as [|? ? TJ TL]; subst. destruct (follows_decoded junk j l t d F TL) as (d' & D & X).
    pose proof (item_decoded junk j [] [] t d' GJ TJ gap_nil (follows_end _ _ _ _ F) D) as DJ.
    assert (E : ew_decode junk (w ++ written j ++ t) = Ok (meant j ++ d')).
    { apply (decode_iff junk w _ W (good_begins j t GJ)). destruct j; exact DJ. }
    rewrite E. destruct X as [[-> X]|[X Y]].
    + split; [intros _; exact X|reflexivity].
    + split; [|intros Z; contradiction]. intros Q. injection Q as Q. apply app_inv_head in Q. subst d'. lia.
Qed.
Lemma displayed_words junk l t d : unstructured l t d -> Forall tame_item l -> Forall coded l -> ew_decode junk t = Ok d.
Proof.
  intros U T C. apply (displayed_exact junk l t d U T). intros (a & p & k & b & -> & _). rewrite Forall_forall in C. apply (C (Plain p)). apply in_or_app. right. left. reflexivity.
Qed.

(** ** Cases *)
Lemma token_x : token (str "x").
Proof. split; [discriminate|]. constructor; [|constructor]. split; [split; vm_compute; discriminate|]. cbn. intros I. repeat destruct I as [I|I]; try discriminate I; exact I. Qed.
Ltac plain_bytes := repeat (constructor; [intros [X|[X|[X|X]]]; discriminate X|]); try constructor.
Ltac q_letters := repeat (first [apply q_end|apply q_char; [split; vm_compute; discriminate|discriminate|discriminate|discriminate|]]).
Lemma FWSs_SP : FWSs [SP].
Proof. rewrite <- (app_nil_r [SP]). apply FWSs_cons; [|constructor]. apply FWS_plain; [repeat constructor|discriminate]. Qed.
Lemma word_long cs enc x y : 6 <= length (written (Coded cs enc x y)).
Proof. cbn [written]. unfold word. cbn [length]. rewrite app_length. cbn [length]. rewrite app_length. cbn [length]. rewrite app_length. cbn [length]. lia. Qed.
Lemma plain_not_word c p : c <> EQUALS -> forall j, coded_item j -> written j <> c :: p.
Proof. intros N [q|cs enc x y] C; [destruct C|]. cbn [written]. unfold word. congruence. Qed.
Definition w_b : item := Coded (str "x") (str "q") (str "b") (str "b").
Lemma good_b : good_item w_b.
Proof. split; [exact token_x|]. left. split; [left; reflexivity|]. q_letters. Qed.
Lemma one_part j : good_item j -> unstructured [j] (written j) (meant j).
Proof.
  intros G. pose proof (un_some [] j [] [] [] FWSs_nil G (fo_end j [] FWSs_nil)) as U. rewrite !app_nil_r in U. exact U.
Qed.
Lemma blank_lost junk : exists l t d d', unstructured l t d /\ ew_decode junk t = Ok d' /\ t = str "a =?x?q?b?=" /\ d = str "a b" /\ d' = str "ab".
Proof.
  exists [Plain (str "a"); w_b], (str "a =?x?q?b?="), (str "a b"), (str "ab"). split; [|split; [vm_compute; reflexivity|auto]].
  apply (un_some [] (Plain (str "a")) [w_b] (str " =?x?q?b?=") (str " b") FWSs_nil).
  - split; [discriminate|]. split; [plain_bytes|]. apply plain_not_word. discriminate.
  - apply (fo_other _ [SP] [SP] w_b [] [] []); [exact FWSs_SP|discriminate|repeat constructor|intros [[] _]|exact good_b|apply fo_end, FWSs_nil].
Qed.
Lemma semicolon_left junk : exists l t d, unstructured l t d /\ ew_decode junk t = Ok t /\ t = str "=?x?q?a;b?=" /\ d = str "a;b".
Proof.
  exists [Coded (str "x") (str "q") (str "a;b") (str "a;b")], (str "=?x?q?a;b?="), (str "a;b"). split; [|split; [vm_compute; reflexivity|auto]].
  apply (one_part (Coded (str "x") (str "q") (str "a;b") (str "a;b"))). split; [exact token_x|]. left. split; [left; reflexivity|]. q_letters.
Qed.
Lemma inside_decoded junk : exists l t d, unstructured l t t /\ ew_decode junk t = Ok d /\ t = str "a=?x?q?b?=" /\ d = str "ab".
Proof.
  exists [Plain (str "a=?x?q?b?=")], (str "a=?x?q?b?="), (str "ab"). split; [|split; [vm_compute; reflexivity|auto]].
  apply (one_part (Plain (str "a=?x?q?b?="))). split; [discriminate|]. split; [plain_bytes|]. apply plain_not_word. discriminate.
Qed.
Lemma across_decoded junk : exists l t d, unstructured l t t /\ ew_decode junk t = Ok d /\ t = str "=?x y?q?b?=" /\ d = str "b".
Proof.
  exists [Plain (str "=?x"); Plain (str "y?q?b?=")], (str "=?x y?q?b?="), (str "b"). split; [|split; [vm_compute; reflexivity|auto]].
  apply (un_some [] (Plain (str "=?x")) [Plain (str "y?q?b?=")] (str " y?q?b?=") (str " y?q?b?=") FWSs_nil).
  - split; [discriminate|]. split; [plain_bytes|]. intros [q|cs enc x y] C E; [destruct C|]. pose proof (word_long cs enc x y) as L. rewrite E in L. cbn in L. lia.
  - apply (fo_other _ [SP] [SP] (Plain (str "y?q?b?=")) [] [] []); [exact FWSs_SP|discriminate|repeat constructor|intros [[] _]| |apply fo_end, FWSs_nil].
    split; [discriminate|]. split; [plain_bytes|]. apply plain_not_word. discriminate.
Qed.
Lemma displayed_case : exists l, unstructured l (str "=?x?q?b?= =?x?q?b?= a") (str "bb a") /\ Forall tame_item l /\ ~ word_behind l /\
  ew_decode (fun _ => []) (str "=?x?q?b?= =?x?q?b?= a") = Ok (str "bb a").
Proof.
  exists [w_b; w_b; Plain (str "a")]. split; [|split; [|split; [|vm_compute; reflexivity]]].
  - apply (un_some [] w_b [w_b; Plain (str "a")] (str " =?x?q?b?= a") (str "b a") FWSs_nil good_b).
    apply (fo_words w_b [SP] w_b [Plain (str "a")] (str " a") (str " a") FWSs_SP ltac:(discriminate) I I good_b).
    apply (fo_other _ [SP] [SP] (Plain (str "a")) [] [] []); [exact FWSs_SP|discriminate|repeat constructor|intros [_ []]| |apply fo_end, FWSs_nil].
    split; [discriminate|]. split; [plain_bytes|]. apply plain_not_word. discriminate.
  - assert (TB : tame_item w_b) by (intros _ [X|[]]; discriminate X).
    constructor; [exact TB|]. constructor; [exact TB|]. constructor; [|constructor]. intros a b E. destruct a as [|x [|y a]]; discriminate E.
  - intros (a & p & k & b & E & K). destruct a as [|x [|y [|z a]]]; cbn [app] in E; [discriminate E|discriminate E| |destruct a; discriminate E].
    discriminate E.
Qed.
