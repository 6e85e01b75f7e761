(** Properties C11-C13: tag lists. *)
From Verif Require Import Bytes Outcome TagList SpecText SpecTags TagListFacts Examples.

(** C11.  [tags] is what was there before the call (nothing after Reset). *)
Theorem C11_tag_value_at_offset : forall tags input tags' n e,
  TagList_Parse tags input = (tags', Ok tt) ->
  GetTag n tags = None -> GetTag n tags' = Some e -> te_value e <> [] ->
  tag_value (te_value e) /\ (0 <= te_offset e)%Z /\
  firstn (length (te_value e)) (skipn (Z.to_nat (te_offset e)) input) = te_value e.
Proof. exact TagList_offsets. Qed.
Print Assumptions C11_tag_value_at_offset.
(** It is the value of that tag, not just an equal string elsewhere. *)
Theorem C11_tag_position : forall tags input tags' n e,
  TagList_Parse tags input = (tags', Ok tt) ->
  GetTag n tags = None -> GetTag n tags' = Some e -> te_value e <> [] ->
  exists pre post, tag_at n input pre (te_value e) post /\ te_offset e = Z.of_nat (length pre).
Proof. exact TagList_positions. Qed.
Print Assumptions C11_tag_position.
Example C11_case : TagList_Parse [] (esc "v=1; b=\r\n ab cd ;x=") =
  ([(str "v", mkEntry (str "1") 2); (str "b", mkEntry (str "ab cd") 10); (str "x", mkEntry [] (-1))], Ok tt).
Proof. vm_compute. reflexivity. Qed.

Theorem C12_tag_list_render_parse : forall l input, rendered_tags l input -> NoDup (map fst l) ->
  exists tags, TagList_Parse [] input = (tags, Ok tt) /\
    (forall n v, In (n, v) l -> exists e, GetTag n tags = Some e /\ te_value e = v) /\
    (forall n, ~ In n (map fst l) -> GetTag n tags = None).
Proof. exact TagList_rendered. Qed.
Print Assumptions C12_tag_list_render_parse.
Example C12_case : rendered_tags [(str "a", str "x  y"); (str "A", [])]
  ([SP] ++ str "a" ++ [CR; LF] ++ EQUALS :: [HT] ++ str "x  y" ++ [SP] ++ SEMI ::
   ([] ++ str "A" ++ [SP] ++ EQUALS :: [] ++ [] ++ [LF] ++ SEMI :: [SP; SP])).
Proof. exact rendered_tags_example. Qed.
Example C12_case_parse : TagList_Parse [] (esc " a\r\n=\tx  y ;A =\n;  ") =
  ([(str "a", mkEntry (str "x  y") 6); (str "A", mkEntry [] 16)], Ok tt).
Proof. vm_compute. reflexivity. Qed.

(** C13.  What is accepted is exactly the grammar with names not used before; everything
    else ends in PermanentError. *)
Theorem C13_accepted_iff : forall tags input,
  (exists tags', TagList_Parse tags input = (tags', Ok tt)) <->
  (exists l, rendered_tags l input /\ NoDup (map fst l) /\
             (forall n, In n (map fst l) -> ~ In n (map fst tags))).
Proof. exact TagList_accepts_iff. Qed.
Print Assumptions C13_accepted_iff.
Theorem C13_total : forall tags input, exists tags',
  TagList_Parse tags input = (tags', Ok tt) \/
  TagList_Parse tags input = (tags', Throw (PermanentError AR_PERMERROR)).
Proof. exact TagList_total. Qed.
Print Assumptions C13_total.
Theorem C13_duplicate_refused : forall tags input l, rendered_tags l input ->
  (~ NoDup (map fst l) \/ exists n, In n (map fst l) /\ In n (map fst tags)) ->
  exists tags', TagList_Parse tags input = (tags', Throw (PermanentError AR_PERMERROR)).
Proof. exact TagList_refused. Qed.
Print Assumptions C13_duplicate_refused.
Example C13_case_dup : snd (TagList_Parse [] (esc "a=1;b=2;a=3")) = Throw (PermanentError AR_PERMERROR).
Proof. vm_compute. reflexivity. Qed.
Example C13_case_kept : snd (TagList_Parse [(str "a", mkEntry [] 0)] (esc "a=1")) = Throw (PermanentError AR_PERMERROR).
Proof. vm_compute. reflexivity. Qed.
