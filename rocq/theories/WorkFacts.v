(** The work of reading a message: linear for ordinary fields, quadratic at worst. *)
From Verif Require Import Bytes Outcome Stream MailParser BytesFacts StreamFacts SpecText SpecMail MailFacts Work SpecWork.
Arguments CRLF : simpl never.

Lemma take_line_length t : forall l b, take_line t = (l, b) -> length l + (if b then 1 else 0) <= length t.
Proof.
  induction t as [|c t IH]; cbn [take_line]; intros l b E; [injection E as <- <-; cbn; lia|].
  destruct (c =?c LF); [injection E as <- <-; cbn; lia|]. destruct (take_line t) as [l' b']. injection E as <- <-.
  specialize (IH _ _ eq_refl). cbn [length]. destruct b'; lia.
Qed.
(** What a call of getline takes from the stream. *)
Lemma getline_takes s ok raw s1 : getline s = (ok, raw, s1) ->
  length (s_rest s1) <= length (s_rest s) /\
  if ok then length raw + 1 <= 2 * (length (s_rest s) - length (s_rest s1)) /\ length raw <= length (s_rest s) - length (s_rest s1) /\
             length (s_rest s1) < length (s_rest s)
  else length raw = 0.
Proof.
  unfold getline. destruct (good s); [|intros [= <- <- <-]; cbn; auto].
  destruct (take_line (s_rest s)) as [l b] eqn:T. pose proof (take_line_length _ _ _ T) as L.
  destruct (Nat.eqb (length l + (if b then 1 else 0)) 0) eqn:Z; intros [= <- <- <-]; cbn [negb s_rest]; rewrite skipn_length.
  - apply Nat.eqb_eq in Z. lia.
  - apply Nat.eqb_neq in Z. destruct b; lia.
Qed.
Lemma chop_length l : length (chop_cr l) <= length l.
Proof.
  unfold chop_cr. destruct (rev l) as [|c r] eqn:E; auto. destruct (c =?c CR); auto.
  apply (f_equal (@length _)) in E. rewrite rev_length in E. cbn [length] in E. rewrite rev_length. lia.
Qed.

(** The field being read is the reading of its text. *)
Definition tmp_ok (m : message) : Prop := match m_tmp m with Some h => h_text h <> [] /\ h = header_of (h_text h) | None => True end.
Definition tmp_text (m : message) : bytes := match m_tmp m with Some h => h_text h | None => [] end.
Definition before (m : message) (c : ascii) : header := if is_wsp c then match m_tmp m with Some h => h | None => new_header end else new_header.
Lemma before_ok m c l : tmp_ok m -> Header_ParseLine (before m c) (c :: l) = header_of (h_text (Header_ParseLine (before m c) (c :: l))) /\
  h_text (Header_ParseLine (before m c) (c :: l)) = match h_text (before m c) with [] => [] | x => x ++ CRLF end ++ c :: l.
Proof.
  unfold tmp_ok, before. intros K. assert (G : forall h, h_text (Header_ParseLine h (c :: l)) = match h_text h with [] => [] | x => x ++ CRLF end ++ c :: l).
  { intros h. unfold Header_ParseLine. destruct (h_voff h); [destruct (find_char COLON _)|]; reflexivity. }
  split; [|apply G]. destruct (is_wsp c); [|rewrite header_new, header_of_text; reflexivity].
  destruct (m_tmp m) as [h|]; [|rewrite header_new, header_of_text; reflexivity]. destruct K as [NE E]. rewrite E, header_more by auto. rewrite header_of_text. reflexivity.
Qed.
Lemma before_text m c : tmp_ok m -> h_text (before m c) = [] /\ h_voff (before m c) = 0 \/ is_wsp c = true /\ before m c = header_of (tmp_text m) /\ tmp_text m <> [].
Proof.
  unfold tmp_ok, before, tmp_text. destruct (is_wsp c); auto. destruct (m_tmp m) as [h|]; auto. intros [N E]. right. auto.
Qed.

Lemma rest_shrinks f : forall m s m1 s1, parse_loop f m s = Ok (m1, s1) -> length (s_rest s1) <= length (s_rest s).
Proof.
  induction f as [|f IH]; intros m s m1 s1 P; cbn [parse_loop] in P; [discriminate|]. unfold Message_ParseLine in P.
  destruct (getline s) as [[b raw] s2] eqn:G. pose proof (getline_takes _ _ _ _ G) as [L _].
  assert (TL : forall s, s_rest (snd (tellg s)) = s_rest s) by (intros x; unfold tellg; destruct (good x); reflexivity).
  destruct b; [|cbn [andb] in P; injection P as <- <-; exact L].
  destruct (chop_cr raw) as [|c l].
  - specialize (TL s2). destruct (tellg s2) as [off s3]. cbn [m_done negb andb snd] in *. injection P as <- <-. rewrite TL. exact L.
  - destruct (is_wsp c); cbn [m_done andb] in P; (destruct (m_done m); cbn [negb] in P; [injection P as <- <-; exact L|]); apply IH in P; lia.
Qed.
(** One call. *)
Lemma step_cases m s ok m1 s1 : Message_ParseLine m s = (ok, m1, s1) -> tmp_ok m ->
  length (s_rest s1) <= length (s_rest s) /\
  (ok = true /\ m_done m1 = m_done m /\ length (s_rest s1) < length (s_rest s) /\
    (exists raw c l, chop_cr raw = c :: l /\ length raw <= length (s_rest s) - length (s_rest s1) /\ length raw + 1 <= 2 * (length (s_rest s) - length (s_rest s1)) /\
      m_tmp m1 = Some (Header_ParseLine (before m c) (c :: l)) /\ m_headers m1 = m_headers m ++ (if is_wsp c then [] else opt_list (m_tmp m)) /\
      ParseLine_work m s = S (length raw) + line_work (before m c) (c :: l))
   \/ m_done m1 = true /\ m_headers m1 = m_headers m ++ opt_list (m_tmp m) /\ ParseLine_work m s <= 1 + 2 * (length (s_rest s) - length (s_rest s1))).
Proof.
  intros P T. unfold Message_ParseLine in P. unfold ParseLine_work. destruct (getline s) as [[b raw] s2] eqn:G. pose proof (getline_takes _ _ _ _ G) as [L K].
  destruct b.
  - destruct K as (K1 & K2 & K3). destruct (chop_cr raw) as [|c l] eqn:CH.
    + unfold tellg in P. assert (E : length (s_rest s1) = length (s_rest s2)) by (destruct (good s2); injection P as <- <- <-; reflexivity).
      assert (E2 : m_done m1 = true /\ m_headers m1 = m_headers m ++ opt_list (m_tmp m)) by (destruct (good s2); injection P as <- <- <-; auto).
      split; [lia|]. right. destruct E2. split; auto. split; auto. lia.
    + destruct (is_wsp c) eqn:W; injection P as <- <- <-; cbn [m_done m_tmp m_headers]; (split; [lia|]); left; (split; [reflexivity|]); (split; [reflexivity|]);
        (split; [lia|]); exists raw, c, l; unfold before; rewrite W; rewrite ?app_nil_r; repeat (split; auto).
  - injection P as <- <- <-. cbn [m_done m_headers]. split; [lia|]. right. split; auto. split; auto. lia.
Qed.

Lemma CRLF_length : length CRLF = 2. Proof. reflexivity. Qed.
Lemma find_bound c t i : find_char c t = Some i -> i < length t.
Proof. intros F. apply find_char_Some in F as (pre & post & -> & <- & _). rewrite app_length. cbn [length]. lia. Qed.
Lemma early_before t d : t <> [] -> colon_early (t ++ CRLF ++ d) -> colon_early t.
Proof.
  intros _ (a & b & E & NL). revert t E. induction a as [|x a IH]; intros t E.
  - destruct t as [|y t]; cbn [app] in E; [discriminate|]. injection E as -> _. exists [], t. auto.
  - destruct t as [|y t]; cbn [app] in E.
    + exfalso. change (CRLF ++ d) with (CR :: LF :: d) in E. injection E as _ E. destruct a as [|z a]; [discriminate|]. injection E as E1 _. apply NL. right. left. auto.
    + injection E as -> E. destruct (IH (fun K => NL (or_intror K)) t E) as (a' & b' & -> & N). exists (x :: a'), b'. split; auto.
      intros [K|K]; [apply NL; left; exact K|exact (N K)].
Qed.
Lemma early_offset t : colon_early t -> h_voff (header_of t) <> 0.
Proof. intros (a & b & -> & _). unfold header_of. destruct (find_char COLON _) eqn:F; [discriminate|]. apply find_char_None in F. destruct F. apply in_or_app. right. left. reflexivity. Qed.
Lemma line_work_found m c l : tmp_ok m -> colon_early (h_text (Header_ParseLine (before m c) (c :: l))) ->
  line_work (before m c) (c :: l) <= 6 * length (c :: l) + 2.
Proof.
  intros T CE. destruct (before_ok m c l T) as [_ ET]. unfold line_work. rewrite ET in *. cbv zeta.
  destruct (before_text m c T) as [[B V]|(W & B & NE)].
  - rewrite V, B in *. cbn [app]. destruct (find_char COLON (c :: l)) as [i|] eqn:F; [apply find_bound in F|]; lia.
  - rewrite B, header_of_text in *. destruct (tmp_text m) as [|x t] eqn:E; [congruence|]. rewrite <- app_assoc in *.
    pose proof (early_offset _ (early_before _ _ NE CE)) as V. destruct (h_voff (header_of (x :: t))); [congruence|]. rewrite !app_length, CRLF_length. lia.
Qed.
Lemma line_work_any m c l : tmp_ok m -> line_work (before m c) (c :: l) <= 6 * length (c :: l) + 12 + 5 * length (tmp_text m).
Proof.
  intros T. destruct (before_ok m c l T) as [_ ET]. unfold line_work. rewrite ET in *. cbv zeta.
  assert (L : length (h_text (before m c)) <= length (tmp_text m)).
  { destruct (before_text m c T) as [[-> _]|(_ & -> & _)]; [cbn; lia|rewrite header_of_text; lia]. }
  assert (L2 : length (match h_text (before m c) with [] => [] | x => x ++ CRLF end ++ c :: l) <= length (h_text (before m c)) + 2 + length (c :: l)).
  { destruct (h_text (before m c)); rewrite !app_length; rewrite ?CRLF_length; cbn [length]; lia. }
  set (t := _ ++ c :: l) in *. destruct (h_voff (before m c)); [|lia]. destruct (find_char COLON t) as [i|] eqn:F; [apply find_bound in F|]; lia.
Qed.

(** ** Linear *)
Definition early (h : header) : Prop := colon_early (h_text h).
Lemma early_back f : forall m s m1 s1, tmp_ok m -> m_done m = false -> parse_loop f m s = Ok (m1, s1) -> Forall early (m_headers m1) ->
  Forall early (m_headers m) /\ match m_tmp m with Some h => early h | None => True end.
Proof.
  assert (LAST : forall m m1, m_headers m1 = m_headers m ++ opt_list (m_tmp m) -> Forall early (m_headers m1) ->
    Forall early (m_headers m) /\ match m_tmp m with Some h => early h | None => True end).
  { intros m m1 H2 F. rewrite H2 in F. apply Forall_app in F as [F1 F2]. split; auto. destruct (m_tmp m); auto. inversion F2. auto. }
  induction f as [|f IH]; intros m s m1 s1 T ND P F; cbn [parse_loop] in P; [discriminate|].
  destruct (Message_ParseLine m s) as [[ok m2] s2] eqn:ML. destruct (step_cases _ _ _ _ _ ML T) as [_ [(-> & D & _ & raw & c & l & _ & _ & _ & T2 & H2 & _)|(D & H2 & _)]].
  - rewrite D, ND in P. cbn [negb andb] in P. destruct (before_ok m c l T) as [EO ET].
    assert (T2' : tmp_ok m2). { unfold tmp_ok. rewrite T2. split; [rewrite ET; intros X; apply app_eq_nil in X as [_ X]; discriminate|exact EO]. }
    destruct (IH m2 s2 m1 s1 T2' ltac:(congruence) P F) as [F1 F2]. rewrite T2 in F2. rewrite H2 in F1. apply Forall_app in F1 as [F1 F3]. split; auto.
    destruct (m_tmp m) as [h|] eqn:TM; auto. destruct (is_wsp c) eqn:W; [|inversion F3; auto].
    unfold early in F2. rewrite ET in F2. unfold before in F2. rewrite W, TM in F2. unfold tmp_ok in T. rewrite TM in T. destruct T as [NE _].
    unfold early. destruct (h_text h) as [|x t] eqn:E; [congruence|]. rewrite <- app_assoc in F2. eapply early_before; eauto.
  - assert (E : m1 = m2) by (rewrite D, andb_false_r in P; congruence). subst m2. eapply LAST; eauto.
Qed.
Lemma work_early f : forall m s m1 s1, tmp_ok m -> m_done m = false -> parse_loop f m s = Ok (m1, s1) -> Forall early (m_headers m1) ->
  work_loop f m s <= 1 + 10 * (length (s_rest s) - length (s_rest s1)).
Proof.
  induction f as [|f IH]; intros m s m1 s1 T ND P F; cbn [parse_loop] in P; [discriminate|]. cbn [work_loop].
  destruct (Message_ParseLine m s) as [[ok m2] s2] eqn:ML. destruct (step_cases _ _ _ _ _ ML T) as [L [(-> & D & LT & raw & c & l & CH & R1 & R2 & T2 & H2 & WK)|(D & H2 & WK)]].
  - rewrite D, ND in *. cbn [negb andb] in *. destruct (before_ok m c l T) as [EO ET].
    assert (T2' : tmp_ok m2). { unfold tmp_ok. rewrite T2. split; [rewrite ET; intros X; apply app_eq_nil in X as [_ X]; discriminate|exact EO]. }
    destruct (early_back f m2 s2 m1 s1 T2' ltac:(congruence) P F) as [_ F2]. rewrite T2 in F2.
    pose proof (line_work_found m c l T F2) as W1. pose proof (chop_length raw) as CL. rewrite CH in CL.
    specialize (IH m2 s2 m1 s1 T2' ltac:(congruence) P F).
    pose proof (rest_shrinks _ _ _ _ _ P) as L2.
    lia.
  - rewrite D, andb_false_r in *. injection P as <- <-. lia.
Qed.
Lemma parse_linear t m s : parse_all new_message (open_str t) = Ok (m, s) -> Forall (fun h => colon_early (h_text h)) (m_headers m) ->
  parse_work t <= 10 * length t + 1.
Proof.
  intros P F. pose proof (work_early _ new_message (open_str t) m s Logic.I eq_refl P F) as W. unfold parse_work. cbn [open_str s_rest] in *. lia.
Qed.

(** ** Quadratic at worst *)
Lemma work_any f : forall m s, tmp_ok m -> m_done m = false -> forall T, length (tmp_text m) + 3 * length (s_rest s) <= T ->
  work_loop f m s <= 1 + (24 + 5 * T) * length (s_rest s).
Proof.
  induction f as [|f IH]; intros m s TM ND T LE; cbn [work_loop]; [lia|].
  destruct (Message_ParseLine m s) as [[ok m2] s2] eqn:ML. destruct (step_cases _ _ _ _ _ ML TM) as [L [(-> & D & LT & raw & c & l & CH & R1 & R2 & T2 & H2 & WK)|(D & H2 & WK)]].
  - rewrite D, ND in *. cbn [negb andb] in *. destruct (before_ok m c l TM) as [EO ET].
    assert (T2' : tmp_ok m2). { unfold tmp_ok. rewrite T2. split; [rewrite ET; intros X; apply app_eq_nil in X as [_ X]; discriminate|exact EO]. }
    pose proof (line_work_any m c l TM) as W1. pose proof (chop_length raw) as CL. rewrite CH in CL.
    assert (LB : length (h_text (before m c)) <= length (tmp_text m)).
    { destruct (before_text m c TM) as [[-> _]|(_ & -> & _)]; [cbn; lia|rewrite header_of_text; lia]. }
    assert (LE2 : length (tmp_text m2) + 3 * length (s_rest s2) <= T).
    { unfold tmp_text. rewrite T2, ET. destruct (h_text (before m c)); rewrite !app_length; rewrite ?CRLF_length; cbn [length] in *; lia. }
    specialize (IH m2 s2 T2' ltac:(congruence) T LE2).
    assert (K : (24 + 5 * T) * length (s_rest s2) + (24 + 5 * T) <= (24 + 5 * T) * length (s_rest s)) by nia.
    assert (K2 : (24 + 5 * T) * length (s_rest s2) + (24 + 5 * T) * (length (s_rest s) - length (s_rest s2)) = (24 + 5 * T) * length (s_rest s)) by nia.
    set (A := (24 + 5 * T) * length (s_rest s2)) in *. set (B := (24 + 5 * T) * length (s_rest s)) in *. set (d := length (s_rest s) - length (s_rest s2)) in *.
    assert (K3 : 24 * d + 5 * T <= (24 + 5 * T) * d) by nia. lia.
  - rewrite D, andb_false_r in *. nia.
Qed.
Lemma parse_quadratic t : parse_work t <= 1 + 39 * (length t * length t).
Proof.
  unfold parse_work. etransitivity; [apply (work_any _ new_message (open_str t) Logic.I eq_refl (3 * length t)); cbn [new_message tmp_text m_tmp open_str s_rest length]; lia|].
  cbn [open_str s_rest]. nia.
Qed.

(** ** And quadratic indeed *)
Definition blanks (n : nat) : bytes := concat (repeat [SP; LF] n).
Lemma blank_line : line_end [SP] [LF].
Proof. constructor. cbn. discriminate. Qed.
Lemma blanks_work n : forall f m s p T, St s p (blanks n) -> good s = true -> m_done m = false -> m_tmp m = Some (header_of T) -> T <> [] -> ~ In COLON T ->
  length (blanks n) < f -> n * length T + n * n <= work_loop f m s.
Proof.
  induction n as [|n IH]; intros f m s p T H G D TM NE NC L; [lia|]. destruct f as [|f]; [lia|]. cbn [work_loop].
  change (blanks (S n)) with ([SP] ++ [LF] ++ blanks n) in *.
  destruct (ParseLine_line m s p [SP] [LF] (blanks n) H ltac:(discriminate) ltac:(intros [X|[]]; discriminate) blank_line) as (s1 & P & H1 & G1).
  assert (TMP : tmp_ok m). { unfold tmp_ok. rewrite TM, header_of_text. auto. }
  assert (WK : length T + 3 <= ParseLine_work m s).
  { destruct (getline_lf s p [SP] (blanks n) H ltac:(intros [X|[]]; discriminate)) as (s2 & P2 & _). unfold ParseLine_work. rewrite P2.
    change (chop_cr [SP]) with [SP]. cbv iota beta. change (is_wsp SP) with true. cbv iota. rewrite TM. unfold line_work. rewrite header_more by auto. rewrite !header_of_text. cbv zeta.
    assert (V : h_voff (header_of T) = 0). { unfold header_of. destruct (find_char COLON T) eqn:F; auto. apply find_char_Some in F as (a & b & -> & _). destruct NC. apply in_or_app. right. left. reflexivity. }
    rewrite V. assert (F : find_char COLON (T ++ CRLF ++ [SP]) = None).
    { apply find_char_None. intros I. apply in_app_or in I as [I|[I|[I|[I|[]]]]]; [auto|discriminate..]. }
    rewrite F, !app_length, CRLF_length. cbn [length]. lia. }
  rewrite P. rewrite add_line_done, D. cbn [negb andb].
  assert (K : n * length (T ++ CRLF ++ [SP]) + n * n <= work_loop f (add_line m [SP]) s1).
  { apply (IH f (add_line m [SP]) s1 (rev ([SP] ++ [LF]) ++ p)).
    - exact H1.
    - exact G1.
    - rewrite add_line_done. exact D.
    - unfold add_line. change (is_wsp SP) with true. cbv iota zeta. cbn [m_tmp]. rewrite TM. rewrite header_more by auto. reflexivity.
    - destruct T; discriminate.
    - intros I. apply in_app_or in I as [I|[I|[I|[I|[]]]]]; [auto|discriminate..].
    - rewrite !app_length in L. cbn [length] in L. lia. }
  rewrite !app_length, CRLF_length in K. cbn [length] in K. nia.
Qed.
Definition long_field (n : nat) : bytes := chr 88 :: LF :: blanks n.
Lemma long_length n : length (long_field n) = 2 * n + 2.
Proof. unfold long_field, blanks. cbn [length]. induction n as [|n IH]; auto. cbn [repeat concat app length]. lia. Qed.
Lemma long_work n : n * n <= parse_work (long_field n).
Proof.
  unfold parse_work, long_field. cbn [fuel_of open_str s_rest length]. unfold fuel_of. cbn [open_str s_rest length].
  change (chr 88 :: LF :: blanks n) with ([chr 88] ++ [LF] ++ blanks n).
  destruct (ParseLine_line new_message (open_str ([chr 88] ++ [LF] ++ blanks n)) [] [chr 88] [LF] (blanks n)) as (s1 & P & H1 & G1).
  { apply St_open. } { discriminate. } { intros [X|[]]; discriminate. } { constructor. cbn. discriminate. }
  remember (S (S (length (blanks n)))) as f eqn:EF. cbn [work_loop]. rewrite P. rewrite add_line_done. cbn [new_message m_done negb andb].
  assert (K : n * length [chr 88] + n * n <= work_loop f (add_line new_message [chr 88]) s1).
  { eapply (blanks_work n); eauto; try reflexivity; try discriminate; [intros [X|[]]; discriminate|lia]. }
  lia.
Qed.
Lemma no_linear_bound k : exists t, k * length t < parse_work t.
Proof. exists (long_field (4 * k + 1)). rewrite long_length. pose proof (long_work (4 * k + 1)). nia. Qed.
