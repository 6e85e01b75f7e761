(** C93: together, and cases. *)
From Verif Require Import Bytes Outcome Stream Tokenizer QuotedPrintable TagList ErrorText SpecText SpecTags SpecSig SpecError
  BytesFacts StreamFacts TokenizerFacts QPFacts ListFacts TagListFacts ErrorFacts ErrorQP ErrorTags ErrorList Examples.

Lemma same_list t : match ValueList_says t with Fine vs => ValueList t = Ok vs | Says _ => ValueList t = perm | Endless => False end.
Proof.
  rewrite <- list_same. pose proof (loop_says (fuel_of (open_str t)) _ _ _ [] (St_open t) ltac:(rewrite (St_fuel _ _ _ (St_open t)); lia)) as X.
  fold (ValueList_says t) in X. destruct (ValueList_says t); [reflexivity|reflexivity|exact X].
Qed.
Lemma same_quoted us t : match qp_decode_says t us with Fine d => qp_decode t us = Ok d | Says _ => qp_decode t us = perm | Endless => False end.
Proof.
  rewrite <- qp_same. pose proof (qp_says_spec us (fuel_of (open_str t)) _ _ _ [] [] [] (St_open t) ltac:(rewrite (St_fuel _ _ _ (St_open t)); lia) (qe_end us) eq_refl (or_introl I)) as X.
  fold (qp_decode_says t us) in X. destruct (qp_decode_says t us); [reflexivity|reflexivity|exact X].
Qed.
Lemma same_tags l t : match TagList_says l t with Fine l' => TagList_Parse l t = (l', Ok tt) | Says _ => snd (TagList_Parse l t) = perm | Endless => False end.
Proof.
  pose proof (tags_same l t) as X. unfold tags_agree in X. destruct (TagList_says l t); auto.
  destruct (TagList_Parse_cases l t) as [(e & P & _)|((l' & P) & _)]; rewrite P in X; discriminate X.
Qed.
Lemma all_same : (forall l t, match TagList_says l t with Fine l' => TagList_Parse l t = (l', Ok tt) | Says _ => snd (TagList_Parse l t) = perm | Endless => False end) /\
  (forall t, match ValueList_says t with Fine vs => ValueList t = Ok vs | Says _ => ValueList t = perm | Endless => False end) /\
  (forall us t, match qp_decode_says t us with Fine d => qp_decode t us = Ok d | Says _ => qp_decode t us = perm | Endless => False end).
Proof. exact (conj same_tags (conj same_list same_quoted)). Qed.
Lemma tags_tell l t m : TagList_says l t = Says m -> tags_say (map fst l) t m.
Proof. apply tags_says. Qed.

Lemma tags_exact l t m : TagList_says l t = Says m <-> tags_say (map fst l) t m.
Proof.
  split; [apply tags_says|]. intros A. pose proof (same_tags l t) as X. destruct (TagList_says l t) as [l'|m'|] eqn:E; [|f_equal; eapply tags_say_fun; [apply tags_says; exact E|exact A]|contradiction].
  exfalso. apply (tags_say_bad _ _ _ A). destruct (TagList_Parse_cases l t) as [(ents & P & R & (ND & DJ) & _)|((l2 & P) & _)]; [|rewrite P in X; discriminate X].
  exists (nv ents). split; [exact R|]. split; [exact ND|]. intros n I J. exact (DJ n I J).
Qed.
Lemma quoted_exact us t m : qp_decode_says t us = Says m <-> qp_say us t m.
Proof.
  split; [apply qp_says|]. intros A. pose proof (same_quoted us t) as X. destruct (qp_decode_says t us) as [d|m'|] eqn:E; [|f_equal; eapply qp_say_fun; [apply qp_says; exact E|exact A]|contradiction].
  exfalso. apply (qp_say_bad _ _ _ A). exists d. apply qp_decode_grammar. exact X.
Qed.

Lemma ends_ff : (exists t, TagList_says [] t = Says (str "Invalid tag list; unexpected 0xff, expecting = at position -1") /\ ~ In (chr 255) t) /\
  exists t, qp_decode_says t false = Says (str "Quoted-printable decoding failed; unexpected 0xff, expecting HEX at position -1") /\ ~ In (chr 255) t.
Proof.
  split; [exists (str "a")|exists (str "a=")]; (split; [vm_compute; reflexivity|]); intros I; cbn in I; repeat destruct I as [I|I]; try discriminate I; exact I.
Qed.
Lemma blank_named : exists p c u m, qp_decode_says (p ++ c :: u) false = Says m /\ can_go_on (qp_ok false) (p ++ [c]) /\
  m = str "Quoted-printable decoding failed; unsafe character 0x20 at position 1" /\ c = SP /\ length p = 1.
Proof.
  exists (str "a"), SP, (esc "\r\nb"). eexists. split; [vm_compute; reflexivity|]. split; [|split; [vm_compute; reflexivity|split; reflexivity]].
  exists (str "b"). assert (Q : qp_decode (str "a b") false = Ok (str "ab")) by (vm_compute; reflexivity).
  apply qp_decode_grammar in Q. eexists. exact Q.
Qed.
Lemma tags_cases : TagList_says [] (str "a=b;=c") = Says (str "Invalid tag name (empty), expecting name at position 4") /\
  TagList_says [] (str "ab:c") = Says (str "Invalid tag list; unexpected 0x3a, expecting = at position 2") /\
  TagList_says [] (str "a=b" ++ [chr 7]) = Says (str "Invalid tag value (invalid data), unexpected 0x7 at position 3") /\
  TagList_says [] (str "a=b; a=c") = Says (str "Duplicate tag name (a)").
Proof. split; [|split; [|split]]; vm_compute; reflexivity. Qed.
Lemma list_cases : ValueList_says (str "a: :b") = Says (str "Invalid list value (empty), expecting value at position 3") /\
  ValueList_says (esc "a\rb") = Says (str "CR without matching LF, 0x62 at position 2") /\
  ValueList_says (esc "a\r") = Says (str "CR without matching LF, at the END").
Proof. split; [|split]; vm_compute; reflexivity. Qed.
Lemma quoted_cases : qp_decode_says (str "a=4g") false = Says (str "Quoted-printable decoding failed; unexpected 0x67, expecting HEX at position 3") /\
  qp_decode_says (str "a;b") false = Says (str "Quoted-printable decoding failed; unsafe character 0x3b at position 1") /\
  qp_decode_says (esc "a\rb") true = Says (str "CR without matching LF, 0x62 at position 2").
Proof. split; [|split]; vm_compute; reflexivity. Qed.
