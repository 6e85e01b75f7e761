(** Properties C20-C22, C24, C25: header canonicalization and selection of the signed fields.
    [strict] is the reading of ISO C in which tolower of a negative char is undefined. *)
From Verif Require Import Bytes Outcome Stream MailParser Canonicalization Signature Validatory
  SpecText SpecMail SpecCanon SpecVerify SpecStream HeaderFacts HeaderProps SelectFacts GlueFacts Examples.

(** C20.  [relaxed_field t n out]: [t] has the name [n] and the relaxed form [out]. *)
Theorem C20_relaxed : forall strict t n out, relaxed_field t n out -> strict && existsb is_8bit n = false ->
  FilterHeader strict RELAXED t = Ok out.
Proof. exact FilterHeader_relaxed. Qed.
Print Assumptions C20_relaxed.
Theorem C20_simple : forall strict t, FilterHeader strict SIMPLE t = Ok t.
Proof. exact FilterHeader_simple. Qed.
Print Assumptions C20_simple.
(** Every text in which each CRLF is a fold, such as every field of a message, either is refused
    or has the relaxed form that is returned (unless its name is blank). *)
Theorem C20_complete : forall t, crlf_folds t ->
  FilterHeader false RELAXED t = Throw (PermanentError AR_PERMERROR) \/
  exists out, FilterHeader false RELAXED t = Ok out /\ ((exists n, relaxed_field t n out) \/ blank_name t).
Proof. exact FilterHeader_shape. Qed.
Print Assumptions C20_complete.
Theorem C20_message_fields_fold : forall t m s, parse_all new_message (open_str t) = Ok (m, s) ->
  Forall (fun h => crlf_folds (h_text h)) (m_headers m).
Proof.
  exact (fun t m s P => Forall_impl _ (fun h H => lf_crlf_folds _ (proj1 H)) (proj1 (message_texts t m s P))).
Qed.
Print Assumptions C20_message_fields_fold.
Example C20_case : relaxed_field (esc "SUBject \t: \r\n\t a  b\r\n c \t") (esc "SUBject") (esc "subject:a b c") /\
  FilterHeader true RELAXED (esc "SUBject \t: \r\n\t a  b\r\n c \t") = Ok (esc "subject:a b c").
Proof.
  split; [|vm_compute; reflexivity].
  apply (rf_intro (esc "SUBject") (esc "subject") (esc " \t") (esc " \r\n\t ") (esc "a  b\r\n c \t") (esc "a b c")).
  - discriminate.
  - cbn. intros K. repeat (destruct K as [K|K]; [discriminate|]). destruct K.
  - not_wsp.
  - repeat (apply unf_char; [not_wsp|discriminate|]). apply unf_end. constructor.
  - one_run.
  - one_fold (esc " ") (esc "\t ").
  - not_wsp.
  - apply unf_char; [not_wsp|discriminate|].
    apply (unf_run (esc "  ")); [discriminate|one_run|not_wsp|discriminate|].
    apply unf_char; [not_wsp|discriminate|].
    apply (unf_run (esc "\r\n ")); [discriminate|one_fold (@nil ascii) (esc " ")|not_wsp|discriminate|].
    apply unf_char; [not_wsp|discriminate|]. apply unf_end. one_run.
Qed.
Example C20_case_refused : FilterHeader false RELAXED (esc "A: x\ry") = Throw (PermanentError AR_PERMERROR).
Proof. reflexivity. Qed.

(** C21. *)
Theorem C21_idempotent : forall strict t n out, relaxed_field t n out -> strict && existsb is_8bit n = false ->
  FilterHeader strict RELAXED out = Ok out.
Proof. exact header_idem. Qed.
Print Assumptions C21_idempotent.
Theorem C21_idempotent_all : forall strict t out, crlf_folds t -> FilterHeader strict RELAXED t = Ok out ->
  FilterHeader strict RELAXED out = Ok out.
Proof. exact header_idem_all. Qed.
Print Assumptions C21_idempotent_all.
(** Name case, folding, whitespace between words and around the colon do not matter. *)
Theorem C21_refolding : forall t t', same_field t t' ->
  exists out, FilterHeader false RELAXED t = Ok out /\ FilterHeader false RELAXED t' = Ok out.
Proof. exact header_refold. Qed.
Print Assumptions C21_refolding.
Example C21_case : same_field (esc "A:b c") (esc "a :\tb\r\n\tc ").
Proof.
  apply (sf_intro (esc "A") (esc "a") [] [] (esc " ") (esc "\t") (esc "b c") (esc "b\r\n\tc ")).
  all: try discriminate. all: try not_wsp. all: try apply FWSs_nil. all: try one_run.
  - intros [K|[]]; discriminate.
  - intros [K|[]]; discriminate.
  - apply re_char; [not_wsp|discriminate|]. apply re_end; constructor.
  - apply re_char; [not_wsp|discriminate|].
    apply (re_run [SP] (esc "\r\n\t")); [discriminate|discriminate|one_run|one_fold (@nil ascii) [HT]|not_wsp|discriminate|].
    apply re_char; [not_wsp|discriminate|]. apply re_end; [constructor|one_run].
Qed.

(** C24.  [selection] takes for the k-th occurrence of a name the k-th last field of that name. *)
Theorem C24_selection : forall strict h g v d, signed_data strict h g v = Ok d ->
  exists outs x,
    Forall2 (fun f out => FilterHeader false (sg_chead g) (h_text f) = Ok out)
      (selection h_name (m_headers (v_msg v)) [] (sg_headers g)) outs /\
    d = with_crlf outs ++ x.
Proof. exact signed_data_fields. Qed.
Print Assumptions C24_selection.
Theorem C24_iff : forall mode hs names c, build_cache false hs [] = Ok c -> forall d,
  hash_headers false mode names c = Ok d <->
  exists outs, Forall2 (fun f out => FilterHeader false mode (h_text f) = Ok out) (selection h_name hs [] names) outs /\
    d = with_crlf outs.
Proof. exact (fun mode hs names c B => hash_selection mode hs names [] c (cache_start hs c B)). Qed.
Print Assumptions C24_iff.
Theorem C24_once : forall hs names,
  NoDup (selection (fun p => h_name (snd p)) (numbered hs) [] names) /\
  map snd (selection (fun p => h_name (snd p)) (numbered hs) [] names) = selection h_name hs [] names.
Proof. exact selection_once. Qed.
Print Assumptions C24_once.
Example C24_case : exists m s c d, parse_all new_message (open_str (esc "A: 1\r\nB: 2\r\na: 3\r\n\r\n")) = Ok (m, s) /\
  build_cache true (m_headers m) [] = Ok c /\ hash_headers true RELAXED [esc "a"; esc "A"; esc "b"; esc "a"; esc "x"] c = Ok d /\
  d = esc "a:3\r\na:1\r\nb:2\r\n".
Proof.
  do 4 eexists. split; [vm_compute; reflexivity|]. split; [vm_compute; reflexivity|]. split; [vm_compute; reflexivity|]. vm_compute. reflexivity.
Qed.

(** C22.  Fully so in relaxed mode; in simple mode when neither message begins with whitespace. *)
Theorem C22_stream_partial : forall strict mode t1 m1 s1 c1 d1 t2 m2 s2 c2 d2 names1 names2,
  parse_all new_message (open_str t1) = Ok (m1, s1) -> parse_all new_message (open_str t2) = Ok (m2, s2) ->
  (mode = SIMPLE -> ~ (exists c r, t1 = c :: r /\ WSP c) /\ ~ (exists c r, t2 = c :: r /\ WSP c)) ->
  build_cache strict (m_headers m1) [] = Ok c1 -> hash_headers strict mode names1 c1 = Ok d1 ->
  build_cache strict (m_headers m2) [] = Ok c2 -> hash_headers strict mode names2 c2 = Ok d2 ->
  d1 = d2 ->
  exists outs,
    Forall2 (fun f out => FilterHeader false mode (h_text f) = Ok out) (selection h_name (m_headers m1) [] names1) outs /\
    Forall2 (fun f out => FilterHeader false mode (h_text f) = Ok out) (selection h_name (m_headers m2) [] names2) outs.
Proof. exact header_stream_unique. Qed.
Print Assumptions C22_stream_partial.
(** In simple mode without that condition, exactly: two selections give the same stream if and only if they are the
    same when a field that begins with whitespace is read as a continuation of the one hashed before it. *)
Theorem C22_simple_exact : forall strict t1 m1 s1 c1 d1 t2 m2 s2 c2 d2 names1 names2,
  parse_all new_message (open_str t1) = Ok (m1, s1) -> parse_all new_message (open_str t2) = Ok (m2, s2) ->
  build_cache strict (m_headers m1) [] = Ok c1 -> hash_headers strict SIMPLE names1 c1 = Ok d1 ->
  build_cache strict (m_headers m2) [] = Ok c2 -> hash_headers strict SIMPLE names2 c2 = Ok d2 ->
  (d1 = d2 <-> as_read (map h_text (selection h_name (m_headers m1) [] names1)) =
               as_read (map h_text (selection h_name (m_headers m2) [] names2))).
Proof. exact same_stream_simple. Qed.
Print Assumptions C22_simple_exact.
Theorem C22_relaxed_exact : forall strict t1 m1 s1 c1 d1 t2 m2 s2 c2 d2 names1 names2,
  parse_all new_message (open_str t1) = Ok (m1, s1) -> parse_all new_message (open_str t2) = Ok (m2, s2) ->
  build_cache strict (m_headers m1) [] = Ok c1 -> hash_headers strict RELAXED names1 c1 = Ok d1 ->
  build_cache strict (m_headers m2) [] = Ok c2 -> hash_headers strict RELAXED names2 c2 = Ok d2 ->
  (d1 = d2 <-> map (fun h => FilterHeader false RELAXED (h_text h)) (selection h_name (m_headers m1) [] names1) =
               map (fun h => FilterHeader false RELAXED (h_text h)) (selection h_name (m_headers m2) [] names2)).
Proof. exact same_stream_relaxed. Qed.
Print Assumptions C22_relaxed_exact.
(** Only the first field of a message can begin with whitespace, and only if the message does;
    fields that do not are read as they are. *)
Theorem C22_first_only : forall t m s, parse_all new_message (open_str t) = Ok (m, s) ->
  match m_headers m with [] => True | _ :: r => Forall (fun h => begins_field (h_text h)) r end /\
  (~ (exists c r, t = c :: r /\ WSP c) -> Forall (fun h => begins_field (h_text h)) (m_headers m)).
Proof. exact first_alone. Qed.
Print Assumptions C22_first_only.
Theorem C22_read_plain : forall texts, Forall begins_field texts -> as_read texts = texts.
Proof. exact as_read_plain. Qed.
Print Assumptions C22_read_plain.
(** A message that begins with whitespace moves a field boundary unnoticed in simple mode. *)
Theorem C22_leading_space_refuted : exists t1 m1 s1 c1 t2 m2 s2 c2 names1 names2 d,
  parse_all new_message (open_str t1) = Ok (m1, s1) /\ parse_all new_message (open_str t2) = Ok (m2, s2) /\
  build_cache true (m_headers m1) [] = Ok c1 /\ hash_headers true SIMPLE names1 c1 = Ok d /\
  build_cache true (m_headers m2) [] = Ok c2 /\ hash_headers true SIMPLE names2 c2 = Ok d /\
  map h_text (selection h_name (m_headers m1) [] names1) <> map h_text (selection h_name (m_headers m2) [] names2).
Proof. exact leading_space_ambiguous. Qed.
Print Assumptions C22_leading_space_refuted.
Example C22_case : exists m1 s1 c1 d, parse_all new_message (open_str (esc "A: b\r\n\r\n")) = Ok (m1, s1) /\
  build_cache true (m_headers m1) [] = Ok c1 /\ hash_headers true SIMPLE [esc "A"] c1 = Ok d /\ d = esc "A: b\r\n".
Proof. do 4 eexists. vm_compute. repeat split. Qed.
Example C22_read_case : as_read [esc "A: b"; esc " x: y"; esc "C: d"] = [esc "A: b\r\n x: y"; esc "C: d"].
Proof. vm_compute. reflexivity. Qed.

(** C25.  [n] is listed more often than the message has such fields; one more is added. *)
Theorem C25_oversigned : forall n names a b h,
  length (filter (fun h => same_name (h_name h) n) (a ++ b)) < occurrences n names -> same_name (h_name h) n = true ->
  length (selection h_name (a ++ h :: b) [] names) = S (length (selection h_name (a ++ b) [] names)).
Proof. exact (selection_length h_name). Qed.
Print Assumptions C25_oversigned.
Theorem C25_stream : forall strict mode t1 m1 s1 c1 d1 t2 m2 s2 c2 d2 names n a b h,
  parse_all new_message (open_str t1) = Ok (m1, s1) -> parse_all new_message (open_str t2) = Ok (m2, s2) ->
  (mode = SIMPLE -> ~ (exists c r, t1 = c :: r /\ WSP c) /\ ~ (exists c r, t2 = c :: r /\ WSP c)) ->
  m_headers m1 = a ++ b -> m_headers m2 = a ++ h :: b -> same_name (h_name h) n = true ->
  length (filter (fun h => same_name (h_name h) n) (a ++ b)) < occurrences n names ->
  build_cache strict (m_headers m1) [] = Ok c1 -> hash_headers strict mode names c1 = Ok d1 ->
  build_cache strict (m_headers m2) [] = Ok c2 -> hash_headers strict mode names c2 = Ok d2 ->
  d1 <> d2.
Proof. exact oversign_stream. Qed.
Print Assumptions C25_stream.
Example C25_case : exists m1 s1 m2 s2 a b h, parse_all new_message (open_str (esc "A: 1\r\nB: 2\r\n\r\n")) = Ok (m1, s1) /\
  parse_all new_message (open_str (esc "A: 1\r\nb: 3\r\nB: 2\r\n\r\n")) = Ok (m2, s2) /\
  m_headers m1 = a ++ b /\ m_headers m2 = a ++ h :: b /\ same_name (h_name h) (esc "B") = true /\
  length (filter (fun h => same_name (h_name h) (esc "B")) (a ++ b)) < occurrences (esc "B") [esc "B"; esc "b"].
Proof.
  do 4 eexists.
  exists [Header_ParseLine new_header (esc "A: 1")], [Header_ParseLine new_header (esc "B: 2")], (Header_ParseLine new_header (esc "b: 3")).
  vm_compute. repeat split; auto.
Qed.
