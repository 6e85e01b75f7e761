(** How much of the header is hashed: bounds. *)
From Verif Require Import Bytes Outcome Stream TagList MailParser Canonicalization Util Crypto Signature PublicKey SignatoryOptions Signatory Validatory
  SpecText SpecCanon SpecMail SpecOutcome SpecRelaxed RelaxedFacts SpecVerify BytesFacts MailFacts SelectFacts VerifyFacts HeadWork.

(** Canonical forms are not longer than the text. *)
Lemma unfolds_shorter t u : unfolds t u -> length u <= length t.
Proof.
  induction 1; cbn [length] in *; try lia. rewrite app_length. cbn [length]. destruct w; [contradiction|]. cbn [length]. lia.
Qed.
Lemma form_shorter strict mode t out : FilterHeader strict mode t = Ok out -> length out <= length t.
Proof.
  destruct mode; [cbn [FilterHeader]; intros [= <-]; lia|]. intros E. apply strict_text in E as [R _].
  destruct R as [n v y y' k z _ _ U _ T]. apply unfolds_shorter in U. rewrite !app_length in *. cbn [length] in *. rewrite app_length, map_length, repeat_length in U.
  assert (length y' <= length y) by (destruct T; rewrite ?app_length; lia). lia.
Qed.

(** What a field counts for, with its line end. *)
Definition fields_size (hs : list header) : nat := length (with_crlf (map h_text hs)).
Lemma fields_size_cons h hs : fields_size (h :: hs) = length (h_text h) + 2 + fields_size hs.
Proof. unfold fields_size, with_crlf. cbn [map concat]. rewrite !app_length. reflexivity. Qed.
Lemma fields_size_app a b : fields_size (a ++ b) = fields_size a + fields_size b.
Proof. induction a; cbn [app]; [reflexivity|]. rewrite !fields_size_cons, IHa. lia. Qed.
Lemma fields_size_rev a : fields_size (rev a) = fields_size a.
Proof. induction a; cbn [rev]; [reflexivity|]. rewrite fields_size_app, !fields_size_cons, IHa. change (fields_size []) with 0. lia. Qed.
Fixpoint cache_size (c : cache) : nat := match c with [] => 0 | (_, l) :: r => fields_size l + cache_size r end.
Lemma push_size n h c : cache_size (cache_push n h c) = cache_size c + (length (h_text h) + 2).
Proof.
  induction c as [|[m l] c IH]; cbn [cache_push cache_size]; [rewrite fields_size_cons; change (fields_size []) with 0; lia|].
  destruct beqb; cbn [cache_size]; [rewrite fields_size_app, fields_size_cons; change (fields_size []) with 0; lia|rewrite IH; lia].
Qed.
Lemma build_size strict hs : forall c c1, build_cache strict hs c = Ok c1 -> cache_size c1 = cache_size c + fields_size hs.
Proof.
  induction hs as [|h hs IH]; intros c c1; cbn [build_cache]; [intros [= <-]; change (fields_size []) with 0; lia|].
  destruct (lower_str strict (h_name h)); cbn [obind]; try discriminate. intros E. rewrite (IH _ _ E), push_size, fields_size_cons. lia.
Qed.
Lemma pop_size n c : forall h c1, cache_pop n c = Some (h, c1) -> cache_size c = cache_size c1 + (length (h_text h) + 2).
Proof.
  induction c as [|[m l] c IH]; intros h c1; cbn [cache_pop]; [discriminate|]. destruct (beqb m n).
  - destruct (rev l) as [|x p] eqn:R; [discriminate|]. intros [= <- <-]. cbn [cache_size]. rewrite <- (rev_involutive l), R. cbn [rev].
    rewrite fields_size_app, fields_size_cons. change (fields_size []) with 0. lia.
  - destruct (cache_pop n c) as [[h' r1]|]; [|discriminate]. intros [= <- <-]. cbn [cache_size]. rewrite (IH _ _ eq_refl). lia.
Qed.
Lemma fields_work_bound strict mode names : forall c, fields_work strict mode names c <= cache_size c.
Proof.
  induction names as [|n names IH]; intros c; cbn [fields_work]; [lia|]. destruct (lower_str strict n) as [name| | |]; try lia.
  destruct (cache_pop name c) as [[h c1]|] eqn:P; [|apply IH]. destruct (FilterHeader strict mode (h_text h)) as [x| | |] eqn:F; try lia.
  apply pop_size in P. apply form_shorter in F. rewrite app_length. change (length CRLF) with 2. specialize (IH c1). lia.
Qed.
Lemma own_shorter g h val val1 : substr_from (h_text h) (h_voff h) = Ok val -> strip_b g val = Ok val1 ->
  length (firstn (h_voff h) (h_text h) ++ val1) <= length (h_text h).
Proof.
  unfold substr_from. destruct (Nat.leb_spec (h_voff h) (length (h_text h))); [|discriminate]. intros [= <-]. unfold strip_b.
  destruct (GetTag _ _) as [e|]; [|discriminate]. cbv zeta. destruct orb; [discriminate|]. intros [= <-]. unfold erase_at.
  rewrite !app_length, firstn_length, firstn_length, !skipn_length. lia.
Qed.
Lemma header_work_bound strict h g p v : header_work strict h g p v <= fields_size (m_headers (v_msg v)) + length (h_text h).
Proof.
  unfold header_work. destruct key_allows; [|lia]. destruct (build_cache strict _ []) as [c| | |] eqn:B; try lia.
  apply build_size in B. change (cache_size []) with 0 in B. pose proof (fields_work_bound strict (sg_chead g) (sg_headers g) c).
  destruct (hash_headers _ _ _ _); try lia. destruct (substr_from _ _) as [val| | |] eqn:S; cbn [obind]; try lia.
  destruct (strip_b g val) as [val1| | |] eqn:T; cbn [obind]; try lia. destruct (FilterHeader _ _ _) as [x| | |] eqn:F; try lia.
  apply form_shorter in F. pose proof (own_shorter _ _ _ _ S T). lia.
Qed.
(** It is the length of what is hashed. *)
Lemma fields_work_exact strict mode names : forall c d, hash_headers strict mode names c = Ok d -> fields_work strict mode names c = length d.
Proof.
  induction names as [|n names IH]; intros c d; cbn [fields_work hash_headers]; [intros [= <-]; reflexivity|].
  destruct (lower_str strict n) as [name| | |]; cbn [obind]; try discriminate. destruct (cache_pop name c) as [[h c1]|]; [|apply IH].
  destruct (FilterHeader strict mode (h_text h)) as [x| | |]; cbn [obind]; try discriminate.
  destruct (hash_headers strict mode names c1) as [d1| | |] eqn:E; cbn [obind]; try discriminate. intros [= <-]. rewrite (IH _ _ E), !app_length. reflexivity.
Qed.
Lemma header_work_exact strict h g p v d : key_allows g p = true -> signed_data strict h g v = Ok d -> header_work strict h g p v = length d.
Proof.
  intros K. unfold header_work, signed_data. rewrite K. destruct (build_cache strict _ []) as [c| | |]; cbn [obind]; try discriminate.
  destruct (hash_headers _ _ _ c) as [d1| | |] eqn:E; cbn [obind]; try discriminate. rewrite (fields_work_exact _ _ _ _ _ E).
  destruct (substr_from _ _) as [val| | |]; cbn [obind]; try discriminate. destruct (strip_b g val) as [val1| | |]; cbn [obind]; try discriminate.
  destruct (FilterHeader _ _ _) as [x| | |]; cbn [obind]; try discriminate. intros [= <-]. rewrite app_length. reflexivity.
Qed.
(** Signing. *)
Lemma sign_work_bound strict mode toSign hs : sign_work strict mode toSign hs <= fields_size hs.
Proof.
  induction hs as [|h hs IH]; cbn [sign_work]; [lia|]. rewrite fields_size_cons. destruct (lower_str strict (h_name h)) as [[|a n]| | |]; try lia.
  destruct (_ && _); [lia|]. destruct (FilterHeader strict mode (h_text h)) as [x| | |] eqn:F; try lia. apply form_shorter in F. rewrite app_length. change (length CRLF) with 2. lia.
Qed.
Lemma sign_work_exact strict mode toSign hs : forall d names, sign_headers strict mode toSign hs = Ok (d, names) -> sign_work strict mode toSign hs = length d.
Proof.
  induction hs as [|h hs IH]; intros d names; cbn [sign_work sign_headers]; [intros [= <- <-]; reflexivity|].
  destruct (lower_str strict (h_name h)) as [[|a n]| | |]; cbn [obind]; try discriminate; [apply IH|].
  destruct (_ && _); [apply IH|]. destruct (FilterHeader strict mode (h_text h)) as [x| | |]; cbn [obind]; try discriminate.
  destruct (sign_headers strict mode toSign hs) as [[d1 ns]| | |] eqn:E; cbn [obind]; try discriminate. intros [= <- <-]. rewrite (IH _ _ eq_refl), !app_length. reflexivity.
Qed.
(** The fields of a message. *)
Lemma block_size ls h : header_block ls h -> length (with_crlf ls) <= 2 * length h.
Proof.
  induction 1 as [|l e ls t NE NL LE HB IH]; [cbn; lia|]. unfold with_crlf in *. cbn [map concat]. rewrite !app_length. change (length CRLF) with 2.
  assert (1 <= length e) by (inversion LE; unfold CRLF; cbn [length]; lia). lia.
Qed.
Lemma message_size t m s : parse_all new_message (open_str t) = Ok (m, s) -> fields_size (m_headers m) <= 2 * length t + 2.
Proof.
  intros P. destruct (message_shape (S (length t)) t ltac:(lia)) as (ls & h & rest & HB & -> & R).
  assert (F : forall hs, fields_size hs = length (rejoin hs)).
  { intros hs. unfold fields_size, with_crlf, rejoin. rewrite map_map. reflexivity. }
  rewrite F. pose proof (block_size _ _ HB). rewrite app_length. destruct R as [(e & body & LE & ->)|NL].
  - destruct (message_lossless ls h e body HB LE) as (m' & s' & P' & _ & L). rewrite P in P'. injection P' as <- <-. rewrite L. lia.
  - destruct (message_noblank' ls h rest (chop_cr rest) HB ltac:(apply last_line_chop; auto)) as (m' & s' & P' & _ & L). rewrite P in P'. injection P' as <- <-. rewrite L.
    rewrite with_crlf_app, app_length. unfold opt_line.
    assert (length (chop_cr rest) <= length rest). { destruct (proj2 (last_line_chop rest (chop_cr rest)) ltac:(auto)) as [_ [E|[E _]]]; rewrite E at 2; rewrite ?app_length; lia. }
    destruct (chop_cr rest) as [|a r]; cbn [length] in *; [change (length (with_crlf [])) with 0; lia|]. unfold with_crlf at 2. cbn [map concat]. rewrite app_nil_r, app_length. change (length CRLF) with 2. cbn [length]. lia.
Qed.
Lemma sign_work_both strict mode toSign hs : sign_work strict mode toSign hs <= fields_size hs /\
  forall d names, sign_headers strict mode toSign hs = Ok (d, names) -> sign_work strict mode toSign hs = length d.
Proof. exact (conj (sign_work_bound strict mode toSign hs) (sign_work_exact strict mode toSign hs)). Qed.
