(** Decoding quoted-printable and encoded words: linear work for every text. *)
From Verif Require Import Bytes Outcome Stream Tokenizer QuotedPrintable EncodedWord BytesFacts StreamFacts TokenizerFacts SpecText QPFacts ListFacts
  AddressClean ListExact ListWide Work ListWork WordWork.

Lemma qp_loop_bound sp f : forall s p r, St s p r -> length r < f -> qp_loop_work f sp s <= 12 * length r + 1.
Proof.
  induction f as [|f IH]; intros s p r H L; [lia|]. cbn [qp_loop_work]. destruct r as [|c r].
  { destruct (peek_nil _ _ H) as (s1 & -> & _). lia. }
  rewrite (peek_cons _ _ _ _ H). destruct (get_cons _ _ _ _ H) as (s2 & G & H2). rewrite G. cbn [length] in *.
  destruct (sp && (c =?c USCORE)); [specialize (IH _ _ _ H2 ltac:(lia)); lia|]. destruct (c =?c EQUALS).
  - destruct r as [|d r].
    { destruct (peek_nil _ _ H2) as (s3 & -> & _). cbn [length]. lia. }
    rewrite (peek_cons _ _ _ _ H2). destruct (get_cons _ _ _ _ H2) as (s4 & G4 & H4). rewrite G4. cbn [length] in *. destruct (is_uhex d); [|lia].
    destruct r as [|e r].
    { destruct (peek_nil _ _ H4) as (s5 & -> & _). cbn [length]. lia. }
    rewrite (peek_cons _ _ _ _ H4). destruct (get_cons _ _ _ _ H4) as (s6 & G6 & H6). rewrite G6. cbn [length] in *. destruct (is_uhex e); [|lia].
    specialize (IH _ _ _ H6 ltac:(lia)). lia.
  - destruct (qp_safe c); [specialize (IH _ _ _ H2 ltac:(lia)); lia|].
    pose proof (fws_work_St _ _ _ H) as K. pose proof (read_fws_St _ _ _ H) as R. destruct (l_fws (c :: r)) as [[w r']|] eqn:E.
    2:{ rewrite R. cbn [perm]. cbn [length] in K. unfold perm. lia. }
    destruct R as (s' & -> & H'). apply l_fws_app in E. pose proof (f_equal (@length _) E) as EL. rewrite app_length in EL. cbn [length] in EL.
    destruct w as [|x w].
    + destruct K as [K|(u & r2 & _ & E2 & _ & _ & _ & K)]; cbn [length] in *; [lia|].
      pose proof (f_equal (@length _) E2) as EL2. rewrite app_length in EL2. unfold CRLF in EL2. rewrite app_length in EL2. cbn [length] in EL2. lia.
    + destruct K as [K|(u & r2 & X & _)]; [|discriminate]. cbn [length] in *. specialize (IH _ _ _ H' ltac:(lia)). lia.
Qed.
Theorem qp_linear t sp : qp_work t sp <= 12 * length t + 1.
Proof. unfold qp_work. rewrite (St_fuel _ _ _ (St_open t)). apply (qp_loop_bound sp _ _ _ _ (St_open t)). lia. Qed.

Lemma space_bound f : forall s p r ws, St s p r -> length r < f ->
  match ew_space f s ws with
  | Ok (_, s') => exists p' r', St s' p' r' /\ length r' <= length r /\ space_work f s + 3 * length r' <= 3 * length r + 2
  | Throw _ => space_work f s <= 3 * length r + 4
  | _ => False
  end.
Proof.
  induction f as [|f IH]; intros s p r ws H L; [lia|]. cbn [ew_space space_work].
  assert (Y : match r with [] => True | c :: _ => is_wsp c = false end -> match (let '(w, s1) := read_wsp s in match w with _ :: _ => ew_space f s1 (ws ++ w) | [] => let* (w2, s2) := read_crlf s1 in match w2 with _ :: _ => ew_space f s2 ws | [] => Ok (ws, s2) end end) with
    | Ok (_, s') => exists p' r', St s' p' r' /\ length r' <= length r /\ (let '(w, s1) := read_wsp s in match w with _ :: _ => 2 + space_work f s1 | [] => 1 + match read_crlf s1 with Ok ([], _) => 1 | Ok (_, s2) => 4 + space_work f s2 | _ => 3 end end) + 3 * length r' <= 3 * length r + 2
    | Throw _ => (let '(w, s1) := read_wsp s in match w with _ :: _ => 2 + space_work f s1 | [] => 1 + match read_crlf s1 with Ok ([], _) => 1 | Ok (_, s2) => 4 + space_work f s2 | _ => 3 end end) <= 3 * length r + 4
    | _ => False end).
  { intros N. destruct (read_wsp_no s p r H N) as (s1 & -> & H1). destruct r as [|c r].
    { destruct (read_crlf_no s1 _ _ H1 Logic.I) as (s2 & -> & H2). cbn [obind]. exists p, []. split; [exact H2|]. cbn [length]. lia. }
    destruct (c =?c CR) eqn:C.
    2:{ apply ceqb_neq in C. destruct (read_crlf_no s1 _ (c :: r) H1 C) as (s2 & -> & H2). cbn [obind]. exists p, (c :: r). split; [exact H2|]. lia. }
    apply ceqb_eq in C. subst c. destruct r as [|d r]; [rewrite (read_crlf_throw s1 _ _ H1 Logic.I); unfold perm; cbn [obind length]; lia|].
    destruct (d =?c LF) eqn:D.
    2:{ apply ceqb_neq in D. rewrite (read_crlf_throw s1 _ _ H1 D). unfold perm. cbn [obind length]. lia. }
    apply ceqb_eq in D. subst d. destruct (read_crlf_yes s1 _ _ H1) as (s2 & -> & H2). unfold CRLF. cbn [obind]. cbn [length] in *.
    specialize (IH s2 _ r ws H2 ltac:(lia)). destruct (ew_space f s2 ws) as [[u s']| | |]; auto; [|lia].
    destruct IH as (p' & r' & H' & L' & W'). exists p', r'. split; [exact H'|]. lia. }
  destruct r as [|c r]; [apply Y; exact Logic.I|]. destruct (is_wsp c) eqn:W; [|apply Y; reflexivity]. clear Y.
  destruct (read_wsp_yes s p c r H W) as (s1 & -> & H1). cbn [length] in *. specialize (IH s1 _ r (ws ++ [c]) H1 ltac:(lia)).
  destruct (ew_space f s1 (ws ++ [c])) as [[u s']| | |]; auto; [|lia]. destruct IH as (p' & r' & H' & L' & W'). exists p', r'. split; [exact H'|]. lia.
Qed.

Lemma until_bound f : forall s p r acc, St s p r -> length r < f ->
  exists fl txt s' p' r', ew_until f s acc = Ok (fl, txt, s') /\ St s' p' r' /\ length r' <= length r /\
    length txt + length r' <= length acc + length r /\ until_work f s + 2 * length r' <= 2 * length r + 1.
Proof.
  induction f as [|f IH]; intros s p r acc H L; [lia|]. cbn [ew_until until_work]. destruct r as [|c r].
  { destruct (peek_nil _ _ H) as (s1 & -> & H1 & _). exists true, acc, s1, p, []. split; [reflexivity|]. split; [exact H1|]. lia. }
  rewrite (peek_cons _ _ _ _ H). destruct (c =?c QMARK).
  { exists false, acc, s, p, (c :: r). split; [reflexivity|]. split; [exact H|]. lia. }
  destruct (get_cons _ _ _ _ H) as (s2 & -> & H2). cbn [length] in *. destruct (IH s2 _ r (acc ++ [as_char (Some c)]) H2 ltac:(lia)) as (fl & txt & s' & p' & r' & E & H' & L1 & L2 & W).
  exists fl, txt, s', p', r'. split; [exact E|]. split; [exact H'|]. rewrite app_length in L2. cbn [length] in L2. lia.
Qed.
Lemma field_bound fail s p r : St s p r ->
  exists fl txt b s' p' r', ew_field fail s = Ok (fl, txt, b, s') /\ St s' p' r' /\ length r' <= length r /\
    length txt + length r' <= length r /\ field_work fail s + 2 * length r' <= 2 * length r + 1.
Proof.
  intros H. unfold ew_field, field_work. destruct fail.
  { exists true, [], [], s, p, r. split; [reflexivity|]. split; [exact H|]. cbn [length]. lia. }
  destruct r as [|c r].
  { destruct (peek_nil _ _ H) as (s1 & -> & H1 & _). exists true, [], [], s1, p, []. split; [reflexivity|]. split; [exact H1|]. cbn [length]. lia. }
  rewrite (peek_cons _ _ _ _ H). destruct (c =?c QMARK).
  2:{ exists true, [], [], s, p, (c :: r). split; [reflexivity|]. split; [exact H|]. cbn [length]. lia. }
  destruct (get_cons _ _ _ _ H) as (s2 & -> & H2). rewrite (St_fuel _ _ _ H2).
  destruct (until_bound (S (length r)) s2 _ r [] H2 ltac:(lia)) as (fl & txt & s' & p' & r' & -> & H' & L1 & L2 & W). cbn [obind]. cbn [length] in *.
  do 3 eexists. exists s', p', r'. split; [reflexivity|]. split; [exact H'|]. lia.
Qed.
Lemma close_bound fail s p r : St s p r ->
  exists fl b s' p' r', ew_close fail s = (fl, b, s') /\ St s' p' r' /\ length r' <= length r /\ close_work fail s <= 5.
Proof.
  intros H. unfold ew_close, close_work. destruct fail.
  { exists true, [], s, p, r. split; [reflexivity|]. split; [exact H|]. lia. }
  destruct r as [|c r].
  { destruct (peek_nil _ _ H) as (s1 & -> & H1 & _). exists true, [], s1, p, []. split; [reflexivity|]. split; [exact H1|]. lia. }
  rewrite (peek_cons _ _ _ _ H). destruct (c =?c QMARK).
  2:{ exists true, [], s, p, (c :: r). split; [reflexivity|]. split; [exact H|]. lia. }
  destruct (get_cons _ _ _ _ H) as (s2 & -> & H2). destruct r as [|d r].
  { destruct (peek_nil _ _ H2) as (s3 & -> & H3 & _). do 2 eexists. exists s3. do 2 eexists. split; [reflexivity|]. split; [exact H3|]. cbn [length]. lia. }
  rewrite (peek_cons _ _ _ _ H2). destruct (d =?c EQUALS).
  2:{ do 2 eexists. exists s2. do 2 eexists. split; [reflexivity|]. split; [exact H2|]. cbn [length]. lia. }
  destruct (get_cons _ _ _ _ H2) as (s4 & -> & H4). destruct r as [|e r].
  { destruct (peek_nil _ _ H4) as (s5 & -> & H5 & _). do 2 eexists. exists s5. do 2 eexists. split; [reflexivity|]. split; [exact H5|]. cbn [length]. lia. }
  rewrite (peek_cons _ _ _ _ H4). do 2 eexists. exists s4. do 2 eexists. split; [reflexivity|]. split; [exact H4|]. cbn [length]. lia.
Qed.
Lemma payload_bound fail e d : payload_work fail e d <= 12 * length d + 1.
Proof.
  unfold payload_work. destruct fail; [lia|]. destruct (beqb e (str "q") || beqb e (str "Q")); [apply qp_linear|].
  destruct (beqb e (str "b") || beqb e (str "B")); lia.
Qed.

Lemma ew_bound f : forall s p r ws, St s p r -> length r < f -> ew_loop_work f s ws <= 28 * length r + 4.
Proof.
  induction f as [|f IH]; intros s p r ws H L; [lia|]. cbn [ew_loop_work]. rewrite (St_fuel _ _ _ H).
  pose proof (space_bound (S (length r)) s p r ws H ltac:(lia)) as SB. destruct (ew_space (S (length r)) s ws) as [[w1 s1]|x| |]; [|lia|destruct SB|destruct SB].
  destruct SB as (p1 & r1 & H1 & L1 & W1). destruct r1 as [|c r1].
  { destruct (peek_nil _ _ H1) as (s2 & -> & _). cbn [length] in *. lia. }
  rewrite (peek_cons _ _ _ _ H1). destruct (get_cons _ _ _ _ H1) as (s3 & -> & H3). cbn [length] in *. destruct (c =?c EQUALS).
  2:{ specialize (IH s3 _ r1 [] H3 ltac:(lia)). lia. }
  destruct (field_bound false s3 _ r1 H3) as (f1 & x1 & b1 & s4 & p4 & r4 & E1 & H4 & L4 & T4 & W4). rewrite E1.
  destruct (field_bound f1 s4 _ r4 H4) as (f2 & x2 & b2 & s5 & p5 & r5 & E2 & H5 & L5 & T5 & W5). rewrite E2.
  destruct (field_bound f2 s5 _ r5 H5) as (f3 & x3 & b3 & s6 & p6 & r6 & E3 & H6 & L6 & T6 & W6). rewrite E3.
  destruct (close_bound f3 s6 _ r6 H6) as (f4 & b4 & s7 & p7 & r7 & E4 & H7 & L7 & W7). rewrite E4.
  pose proof (payload_bound f4 x2 x3) as PB. specialize (IH s7 _ r7 [] H7 ltac:(lia)). lia.
Qed.

Lemma skip_any f : forall s p r, St s p r -> length r < f ->
  match skip_fws f s with
  | Ok s' => exists p' r', St s' p' r' /\ length r' <= length r /\ skip_work f s + 11 * length r' <= 11 * length r + 9 + 3 * length r'
  | Throw _ => skip_work f s <= 11 * length r + 4
  | _ => False
  end.
Proof.
  induction f as [|f IH]; intros s p r H L; [lia|]. cbn [skip_fws skip_work].
  pose proof (read_fws_St _ _ _ H) as R. pose proof (fws_work_St _ _ _ H) as K. destruct (l_fws r) as [[w r']|] eqn:E.
  2:{ rewrite R. unfold perm. cbn [obind]. lia. }
  destruct R as (s' & -> & H'). cbn [obind]. apply l_fws_app in E. subst r. rewrite app_length in *. destruct w as [|c w].
  - exists p, r'. cbn [app length rev] in *. split; [exact H'|]. split; [lia|]. destruct K as [K|(u & r2 & _ & E2 & _ & _ & _ & K)]; [lia|].
    pose proof (f_equal (@length _) E2) as EL. rewrite app_length in EL. lia.
  - destruct K as [K|(u & r2 & X & _)]; [|discriminate]. cbn [length] in *. specialize (IH s' _ r' H' ltac:(lia)). destruct (skip_fws f s') as [s2| | |]; auto.
    + destruct IH as (p2 & r2 & H2 & L2 & W2). exists p2, r2. split; [exact H2|]. lia.
    + lia.
Qed.
Theorem word_linear t : word_work t <= 31 * length t + 13.
Proof.
  unfold word_work. rewrite (St_fuel _ _ _ (St_open t)). pose proof (skip_any (S (length t)) _ _ _ (St_open t) ltac:(lia)) as K.
  destruct (skip_fws (S (length t)) (open_str t)) as [s| | |]; [|lia|destruct K|destruct K]. destruct K as (p & r & H & L & W).
  pose proof (ew_bound (fuel_of s) s p r [] H) as B. rewrite (St_fuel _ _ _ H) in *. specialize (B ltac:(lia)). lia.
Qed.

(** ** Cases *)
Lemma word_work_cases : qp_work (str "a=3Db") false = 11 /\ qp_work (str "a=3") true = 9 /\ word_work (str "x =?q?q?a_b?= y") = 52 /\
  word_work (str "=?q?B?YWI=?=") = 39.
Proof. repeat (split; [vm_compute; reflexivity|]). vm_compute. reflexivity. Qed.
