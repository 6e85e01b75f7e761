(** Property C93. *)
From Verif Require Import Bytes Outcome Stream Tokenizer QuotedPrintable TagList ErrorText SpecText SpecTags SpecSig SpecError ErrorQP ErrorList ErrorCases Examples.

(** C93.  The texts of the exceptions: the byte with which a text cannot be continued to a good one any more, and its place. *)
Theorem C93_tags : forall l t m, TagList_says l t = Says m <-> tags_say (map fst l) t m.
Proof. exact tags_exact. Qed.
Print Assumptions C93_tags.
Example C93_case_tags : TagList_says [] (str "a=b;=c") = Says (str "Invalid tag name (empty), expecting name at position 4") /\
  TagList_says [] (str "ab:c") = Says (str "Invalid tag list; unexpected 0x3a, expecting = at position 2") /\
  TagList_says [] (str "a=b" ++ [chr 7]) = Says (str "Invalid tag value (invalid data), unexpected 0x7 at position 3") /\
  TagList_says [] (str "a=b; a=c") = Says (str "Duplicate tag name (a)").
Proof. exact tags_cases. Qed.
Theorem C93_list : forall t m, ValueList_says t = Says m <-> list_say t m.
Proof. exact list_says_exact. Qed.
Print Assumptions C93_list.
Example C93_case_list : ValueList_says (str "a: :b") = Says (str "Invalid list value (empty), expecting value at position 3") /\
  ValueList_says (esc "a\rb") = Says (str "CR without matching LF, 0x62 at position 2") /\
  ValueList_says (esc "a\r") = Says (str "CR without matching LF, at the END").
Proof. exact list_cases. Qed.
Theorem C93_quoted : forall us t m, qp_decode_says t us = Says m <-> qp_say us t m.
Proof. exact quoted_exact. Qed.
Print Assumptions C93_quoted.
Example C93_case_quoted : qp_decode_says (str "a=4g") false = Says (str "Quoted-printable decoding failed; unexpected 0x67, expecting HEX at position 3") /\
  qp_decode_says (str "a;b") false = Says (str "Quoted-printable decoding failed; unsafe character 0x3b at position 1") /\
  qp_decode_says (esc "a\rb") true = Says (str "CR without matching LF, 0x62 at position 2").
Proof. exact quoted_cases. Qed.
(** Something is said of the texts that are refused, and only of these. *)
Theorem C93_same : (forall l t, match TagList_says l t with Fine l' => TagList_Parse l t = (l', Ok tt) | Says _ => snd (TagList_Parse l t) = perm | Endless => False end) /\
  (forall t, match ValueList_says t with Fine vs => ValueList t = Ok vs | Says _ => ValueList t = perm | Endless => False end) /\
  (forall us t, match qp_decode_says t us with Fine d => qp_decode t us = Ok d | Says _ => qp_decode t us = perm | Endless => False end).
Proof. exact all_same. Qed.
Print Assumptions C93_same.
(** At the end of the text a byte 0xff at position -1 is named. *)
Theorem C93_end_refuted : (exists t, TagList_says [] t = Says (str "Invalid tag list; unexpected 0xff, expecting = at position -1") /\ ~ In (chr 255) t) /\
  exists t, qp_decode_says t false = Says (str "Quoted-printable decoding failed; unexpected 0xff, expecting HEX at position -1") /\ ~ In (chr 255) t.
Proof. exact ends_ff. Qed.
Print Assumptions C93_end_refuted.
(** In front of a line end that is no fold a blank is named, with which the text can be continued. *)
Theorem C93_blank_refuted : exists p c u m, qp_decode_says (p ++ c :: u) false = Says m /\ can_go_on (qp_ok false) (p ++ [c]) /\
  m = str "Quoted-printable decoding failed; unsafe character 0x20 at position 1" /\ c = SP /\ length p = 1.
Proof. exact blank_named. Qed.
Print Assumptions C93_blank_refuted.
