(** C22: the exact condition under which two sequences of fields give the same stream. *)
From Verif Require Import Bytes Outcome Stream MailParser Canonicalization Signature Validatory BytesFacts
  SpecText SpecMail SpecCanon SpecVerify SpecStream MailFacts HeaderFacts HeaderProps SelectFacts Examples.

Lemma wsp_b c : (c =?c SP) || (c =?c HT) = true <-> WSP c.
Proof.
  rewrite orb_true_iff, !ceqb_eq. unfold WSP. tauto.
Qed.
Lemma takes_on_cases x r : (exists c y ys, r = (c :: y) :: ys /\ WSP c /\ takes_on x r = (x ++ CRLF ++ c :: y) :: ys) \/
  (takes_on x r = x :: r /\ match r with [] => True | z :: _ => no_wsp_first z end).
Proof.
  destruct r as [|[|c y] ys]; cbn [takes_on]; [right; split; [reflexivity|exact I]|right; split; [reflexivity|exact I]|].
  destruct ((c =?c SP) || (c =?c HT)) eqn:W.
  - left. apply wsp_b in W. exists c, y, ys. auto.
  - right. split; [reflexivity|]. intros W'. apply wsp_b in W'. congruence.
Qed.
Lemma as_read_stream l : with_crlf (as_read l) = with_crlf l.
Proof.
  induction l as [|x l IH]; [reflexivity|]. change (as_read (x :: l)) with (takes_on x (as_read l)).
  destruct (takes_on_cases x (as_read l)) as [(c & y & ys & E & _ & ->)|[-> _]].
  - rewrite E in IH. unfold with_crlf in *. cbn [map concat] in *. rewrite <- IH, <- !app_assoc. reflexivity.
  - unfold with_crlf in *. cbn [map concat]. rewrite IH. reflexivity.
Qed.
Definition tail_ok (l : list bytes) : Prop := match l with [] => True | _ :: r => Forall no_wsp_first r end.
Lemma as_read_tail l : tail_ok (as_read l).
Proof.
  induction l as [|x l IH]; [exact I|]. change (as_read (x :: l)) with (takes_on x (as_read l)).
  destruct (takes_on_cases x (as_read l)) as [(c & y & ys & E & _ & ->)|[-> H]].
  - rewrite E in IH. exact IH.
  - cbn [tail_ok]. destruct (as_read l) as [|z r]; constructor; auto.
Qed.
Lemma folds_app x y : lf_folds x -> lf_folds y -> (exists c r, y = c :: r /\ WSP c) -> lf_folds (x ++ CRLF ++ y).
Proof.
  intros X Y (c & r & -> & W) a b E. destruct (app_split _ _ _ _ E) as [(k & EX & E')|(k & EA & E')].
  - destruct k as [|k0 k]; [discriminate E'|]. injection E' as <- ->. destruct (X a k EX) as (d & q & -> & W'). exists d, (q ++ CRLF ++ c :: r). auto.
  - destruct k as [|k0 [|k1 k]].
    + discriminate E'.
    + injection E' as _ E'. subst b. exists c, r. auto.
    + injection E' as _ _ E'. apply (Y k b). exact E'.
Qed.
Lemma as_read_folds l : Forall lf_folds l -> Forall lf_folds (as_read l).
Proof.
  induction 1 as [|x l X F IH]; [constructor|]. change (as_read (x :: l)) with (takes_on x (as_read l)).
  destruct (takes_on_cases x (as_read l)) as [(c & y & ys & E & W & ->)|[-> H]].
  - rewrite E in IH. inversion IH; subst. constructor; [|assumption]. apply folds_app; eauto.
  - constructor; auto.
Qed.
Lemma crlf_first xs : Forall no_wsp_first xs -> no_wsp_first (with_crlf xs).
Proof.
  intros F. destruct F as [|x xs H F]; [exact I|]. unfold with_crlf. cbn [map concat]. destruct x as [|c x]; cbn; [|exact H].
  unfold WSP. intros [K|K]; discriminate K.
Qed.
Lemma stream_read xs : forall ys, Forall lf_folds xs -> Forall lf_folds ys -> tail_ok xs -> tail_ok ys -> with_crlf xs = with_crlf ys -> xs = ys.
Proof.
  assert (N : forall y ys, with_crlf [] = with_crlf (y :: ys) -> False).
  { intros y ys. unfold with_crlf. cbn [map concat]. destruct y; discriminate. }
  induction xs as [|x xs IH]; intros [|y ys] FX FY TX TY E; [reflexivity|destruct (N _ _ E)|destruct (N _ _ (eq_sym E))|].
  change (with_crlf (x :: xs)) with ((x ++ CRLF) ++ with_crlf xs) in E. change (with_crlf (y :: ys)) with ((y ++ CRLF) ++ with_crlf ys) in E.
  rewrite <- !app_assoc in E. cbn [tail_ok] in TX, TY. inversion FX as [|? ? A FX']; subst. inversion FY as [|? ? B FY']; subst.
  destruct (boundary x y _ _ A B (crlf_first _ TX) (crlf_first _ TY) E) as [-> E']. f_equal.
  apply IH; auto; [destruct xs|destruct ys]; cbn [tail_ok]; auto; [inversion TX|inversion TY]; assumption.
Qed.
Lemma simple_out hs outs : Forall2 (canon_of false SIMPLE) hs outs -> outs = map h_text hs.
Proof. induction 1 as [|h o hs outs E F IH]; [reflexivity|]. unfold canon_of in E. cbn in E. injection E as <-. cbn [map]. f_equal. exact IH. Qed.
Lemma same_stream_simple strict t1 m1 s1 c1 d1 t2 m2 s2 c2 d2 names1 names2 :
  parse_all new_message (open_str t1) = Ok (m1, s1) -> parse_all new_message (open_str t2) = Ok (m2, s2) ->
  build_cache strict (m_headers m1) [] = Ok c1 -> hash_headers strict SIMPLE names1 c1 = Ok d1 ->
  build_cache strict (m_headers m2) [] = Ok c2 -> hash_headers strict SIMPLE names2 c2 = Ok d2 ->
  (d1 = d2 <-> as_read (map h_text (selection h_name (m_headers m1) [] names1)) =
               as_read (map h_text (selection h_name (m_headers m2) [] names2))).
Proof.
  intros P1 P2 B1 H1 B2 H2. destruct (hash_all _ _ _ _ _ _ B1 H1) as (o1 & F1 & ->). destruct (hash_all _ _ _ _ _ _ B2 H2) as (o2 & F2 & ->).
  rewrite (simple_out _ _ F1), (simple_out _ _ F2).
  assert (T : forall t m s names, parse_all new_message (open_str t) = Ok (m, s) -> Forall lf_folds (map h_text (selection h_name (m_headers m) [] names))).
  { intros t m s names P. destruct (message_texts _ _ _ P) as [T _]. apply (Forall_sel _ h_name _ names) in T. rewrite Forall_map. eapply Forall_impl; [|exact T]. cbn. tauto. }
  split; intros E.
  - apply stream_read; try apply as_read_tail; try (apply as_read_folds; eapply T; eauto). rewrite !as_read_stream. exact E.
  - rewrite <- (as_read_stream (map _ (selection _ (m_headers m1) _ _))), <- (as_read_stream (map _ (selection _ (m_headers m2) _ _))), E. reflexivity.
Qed.
Lemma same_stream_relaxed strict t1 m1 s1 c1 d1 t2 m2 s2 c2 d2 names1 names2 :
  parse_all new_message (open_str t1) = Ok (m1, s1) -> parse_all new_message (open_str t2) = Ok (m2, s2) ->
  build_cache strict (m_headers m1) [] = Ok c1 -> hash_headers strict RELAXED names1 c1 = Ok d1 ->
  build_cache strict (m_headers m2) [] = Ok c2 -> hash_headers strict RELAXED names2 c2 = Ok d2 ->
  (d1 = d2 <-> map (fun h => FilterHeader false RELAXED (h_text h)) (selection h_name (m_headers m1) [] names1) =
               map (fun h => FilterHeader false RELAXED (h_text h)) (selection h_name (m_headers m2) [] names2)).
Proof.
  intros P1 P2 B1 H1 B2 H2.
  assert (M : forall hs outs, Forall2 (canon_of false RELAXED) hs outs -> map (fun h => FilterHeader false RELAXED (h_text h)) hs = map Ok outs).
  { induction 1 as [|h o hs outs E F IH]; [reflexivity|]. cbn [map]. f_equal; [exact E|exact IH]. }
  destruct (hash_all _ _ _ _ _ _ B1 H1) as (o1 & F1 & ->). destruct (hash_all _ _ _ _ _ _ B2 H2) as (o2 & F2 & ->).
  rewrite (M _ _ F1), (M _ _ F2). split; intros E.
  - f_equal. apply (stream_unique RELAXED t1 m1 s1 t2 m2 s2 names1 names2 o1 o2 P1 P2); auto. discriminate.
  - f_equal. clear - E. revert o2 E. induction o1 as [|x o1 IH]; intros [|y o2] E; try discriminate E; [reflexivity|].
    injection E as -> E. f_equal. apply IH. exact E.
Qed.
(** Only the first field of a message can begin with whitespace. *)
Lemma first_alone t m s : parse_all new_message (open_str t) = Ok (m, s) ->
  match m_headers m with [] => True | _ :: r => Forall (fun h => begins_field (h_text h)) r end /\
  (~ starts_wsp t -> Forall (fun h => begins_field (h_text h)) (m_headers m)).
Proof.
  intros P. split; [|apply (message_begins _ _ _ P)]. destruct (message_texts _ _ _ P) as [_ T]. exact T.
Qed.
Lemma as_read_plain l : Forall begins_field l -> as_read l = l.
Proof.
  induction 1 as [|x l B F IH]; [reflexivity|]. change (as_read (x :: l)) with (takes_on x (as_read l)). rewrite IH.
  destruct (takes_on_cases x l) as [(c & y & ys & -> & W & _)|[-> _]]; [|reflexivity].
  inversion F as [|? ? (d & r & E & N) _]; subst. injection E as -> ->. contradiction.
Qed.
