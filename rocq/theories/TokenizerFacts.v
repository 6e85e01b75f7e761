(** The whitespace reader on the text that is left in the stream. *)
From Verif Require Import Bytes Outcome Stream Tokenizer BytesFacts StreamFacts.

(** ReadWhiteSpace(READ_FWS) as a function of the remaining text; [None] is an exception. *)
Definition l_fws (r : bytes) : option (bytes * bytes) :=
  let '(w, r1) := span is_wsp r in
  match r1 with
  | c :: r2 =>
      if c =?c CR then
        match r2 with
        | d :: r3 =>
            if d =?c LF then
              let '(w2, r4) := span is_wsp r3 in
              match w2 with
              | [] => Some ([], r)
              | _ => Some (w ++ CRLF ++ w2, r4)
              end
            else None
        | [] => None
        end
      else Some (w, r1)
  | [] => Some (w, r1)
  end.

Lemma read_wsp_yes s p c r :
  St s p (c :: r) -> is_wsp c = true -> exists s', read_wsp s = ([c], s') /\ St s' (c :: p) r.
Proof.
  intros H W. unfold read_wsp. peek_at H. rewrite W. get_at H. eauto.
Qed.
Lemma read_wsp_no s p r :
  St s p r -> match r with [] => True | c :: _ => is_wsp c = false end ->
  exists s', read_wsp s = ([], s') /\ St s' p r.
Proof.
  intros H W. unfold read_wsp. destruct r as [|c r]; peek_at H.
  - eauto.
  - rewrite W. eauto.
Qed.

Lemma read_loose_yes s p c r :
  St s p (c :: r) -> is_lwsp c = true -> exists s', read_wsp_loose s = ([c], s') /\ St s' (c :: p) r.
Proof.
  intros H W. unfold read_wsp_loose. peek_at H. rewrite W. get_at H. eauto.
Qed.
Lemma read_loose_no s p r :
  St s p r -> match r with [] => True | c :: _ => is_lwsp c = false end ->
  exists s', read_wsp_loose s = ([], s') /\ St s' p r /\ (r = [] -> good s' = false).
Proof.
  intros H W. unfold read_wsp_loose. destruct r as [|c r]; peek_at H.
  - eauto.
  - rewrite W. eexists. split; [reflexivity|]. split; auto. discriminate.
Qed.

Lemma read_crlf_yes s p r :
  St s p (CR :: LF :: r) -> exists s', read_crlf s = Ok (CRLF, s') /\ St s' (LF :: CR :: p) r.
Proof.
  intros H. unfold read_crlf. peek_at H. rewrite ceqb_refl. get_at H. peek_at H0.
  rewrite ceqb_refl. get_at H0. eauto.
Qed.
Lemma read_crlf_throw s p r :
  St s p (CR :: r) -> match r with [] => True | c :: _ => c <> LF end -> read_crlf s = perm.
Proof.
  intros H W. unfold read_crlf. peek_at H. rewrite ceqb_refl. get_at H.
  destruct r as [|d r]; peek_at H0; [reflexivity|]. apply ceqb_neq in W. rewrite W. reflexivity.
Qed.
Lemma read_crlf_no s p r :
  St s p r -> match r with [] => True | c :: _ => c <> CR end ->
  exists s', read_crlf s = Ok ([], s') /\ St s' p r.
Proof.
  intros H W. unfold read_crlf. destruct r as [|c r]; peek_at H.
  - eauto.
  - apply ceqb_neq in W. rewrite W. eauto.
Qed.

Lemma read_wsps_St f : forall s p r acc w r',
  St s p r -> span is_wsp r = (w, r') -> length r < f ->
  exists s', read_wsps f s acc = Ok (acc ++ w, s') /\ St s' (rev w ++ p) r'.
Proof.
  induction f as [|f IH]; intros s p r acc w r' H E L; [lia|]. cbn [read_wsps].
  destruct r as [|c r].
  - injection E as <- <-. destruct (read_wsp_no s p [] H I) as (s' & E & H'). rewrite E, app_nil_r. eauto.
  - cbn in E. destruct (is_wsp c) eqn:W.
    + destruct (span is_wsp r) as [w1 r1] eqn:E1. injection E as <- <-.
      destruct (read_wsp_yes s p c r H W) as (s' & E & H'). rewrite E.
      cbn in L. destruct (IH s' (c :: p) r (acc ++ [c]) w1 r1 H' E1 ltac:(lia)) as (s2 & E2 & H2).
      rewrite E2. exists s2. split.
      * rewrite <- app_assoc. reflexivity.
      * cbn. rewrite <- app_assoc. exact H2.
    + injection E as <- <-. destruct (read_wsp_no s p (c :: r) H W) as (s' & E & H'). rewrite E, app_nil_r. eauto.
Qed.

Lemma unwind_St : forall w s p r, St s (rev w ++ p) r -> St (unwind w s) p (w ++ r).
Proof.
  unfold unwind. intros w s p r H.
  enough (G : forall v s p r, St s (v ++ p) r -> good s = true ->
     let s' := fold_left (fun st c => putback c st) v s in St s' p (rev v ++ r) /\ good s' = true).
  { specialize (G (rev w) (clear s) p r). rewrite rev_involutive in G.
    apply G; [apply clear_St; exact H | reflexivity]. }
  clear. induction v as [|c v IH]; intros s p r H G; cbn -[putback].
  - split; auto.
  - destruct (putback_St s (v ++ p) c c r H G) as (H1 & G1).
    destruct (IH (putback c s) p (c :: r) H1 G1) as (H2 & G2).
    split; auto. rewrite <- app_assoc. exact H2.
Qed.

Lemma is_wsp_not_CR c : is_wsp c = true -> c <> CR.
Proof. intros H ->. discriminate. Qed.

Lemma read_fws_St s p r :
  St s p r ->
  match l_fws r with
  | Some (w, r') => exists s', read_fws s = Ok (w, s') /\ St s' (rev w ++ p) r'
  | None => read_fws s = perm
  end.
Proof.
  intros H. unfold l_fws, read_fws. rewrite (St_fuel _ _ _ H).
  destruct (span is_wsp r) as [w r1] eqn:E1.
  destruct (read_wsps_St (S (length r)) s p r [] w r1 H E1 ltac:(lia)) as (s1 & R1 & H1).
  rewrite R1. cbn [obind app].
  pose proof (span_app _ _ _ _ E1) as A1.
  destruct r1 as [|c r2].
  - destruct (read_crlf_no s1 _ _ H1 I) as (s2 & R2 & H2). rewrite R2. cbn. eauto.
  - destruct (c =?c CR) eqn:C.
    + apply ceqb_eq in C. subst c. destruct r2 as [|d r3].
      * rewrite (read_crlf_throw s1 _ _ H1 I). reflexivity.
      * destruct (d =?c LF) eqn:D.
        -- apply ceqb_eq in D. subst d.
           destruct (read_crlf_yes s1 _ _ H1) as (s2 & R2 & H2). rewrite R2. cbn [obind CRLF].
           destruct (span is_wsp r3) as [w2 r4] eqn:E2.
           pose proof (span_app _ _ _ _ E2) as A2.
           destruct r3 as [|c r3].
           { injection E2 as <- <-.
             destruct (read_wsp_no s2 _ _ H2 I) as (s3 & R3 & H3). rewrite R3.
             eexists. split; [reflexivity|]. cbn [rev app]. rewrite A1.
             pose proof (unwind_St (w ++ [CR; LF]) s3 p []) as U.
             rewrite rev_app_distr, app_nil_r in U. apply U. exact H3. }
           cbn in E2. destruct (is_wsp c) eqn:W.
           ++ destruct (span is_wsp r3) as [w3 r5] eqn:E3. injection E2 as <- <-.
              destruct (read_wsp_yes s2 _ _ _ H2 W) as (s3 & R3 & H3). rewrite R3.
              rewrite (St_fuel _ _ _ H3).
              destruct (read_wsps_St (S (length r3)) s3 _ r3 ((w ++ CRLF) ++ [c]) w3 r5 H3 E3 ltac:(lia))
                as (s4 & R4 & H4).
              rewrite R4. eexists. split.
              ** f_equal. f_equal. rewrite <- !app_assoc. reflexivity.
              ** cbn [app CRLF] in *. rewrite !rev_app_distr. cbn [rev]. rewrite <- !app_assoc. exact H4.
           ++ injection E2 as <- <-.
              destruct (read_wsp_no s2 _ (c :: r3) H2 W) as (s3 & R3 & H3). rewrite R3.
              eexists. split; [reflexivity|]. cbn [rev app]. rewrite A1.
              pose proof (unwind_St (w ++ [CR; LF]) s3 p (c :: r3)) as U.
              rewrite rev_app_distr, <- !app_assoc in U. apply U. exact H3.
        -- apply ceqb_neq in D. rewrite (read_crlf_throw s1 _ _ H1 D). reflexivity.
    + apply ceqb_neq in C. destruct (read_crlf_no s1 _ (c :: r2) H1 C) as (s2 & R2 & H2).
      rewrite R2. cbn. eauto.
Qed.

Lemma l_fws_app r w r' : l_fws r = Some (w, r') -> r = w ++ r'.
Proof.
  unfold l_fws. destruct (span is_wsp r) as [a b] eqn:E. pose proof (span_app _ _ _ _ E) as A.
  destruct b as [|c b].
  - intros [= <- <-]. exact A.
  - destruct (c =?c CR) eqn:C; [|intros [= <- <-]; exact A].
    apply ceqb_eq in C. subst c. destruct b as [|d b]; [discriminate|].
    destruct (d =?c LF) eqn:D; [|discriminate]. apply ceqb_eq in D. subst d.
    destruct (span is_wsp b) as [w2 r4] eqn:E2. pose proof (span_app _ _ _ _ E2) as A2.
    destruct w2 as [|x w2]; intros [= <- <-]; [reflexivity|].
    rewrite A, A2. rewrite <- app_assoc. reflexivity.
Qed.

Lemma l_fws_length r w r' : l_fws r = Some (w, r') -> length r = length w + length r'.
Proof. intros H. apply l_fws_app in H. subst. apply app_length. Qed.

(** A text starting with a byte that is neither WSP nor CR has no leading FWS. *)
Lemma l_fws_none c r : is_wsp c = false -> c <> CR -> l_fws (c :: r) = Some ([], c :: r).
Proof.
  intros W C. unfold l_fws. cbn [span]. rewrite W. apply ceqb_neq in C. rewrite C. reflexivity.
Qed.
Lemma l_fws_nil : l_fws [] = Some ([], []).
Proof. reflexivity. Qed.
