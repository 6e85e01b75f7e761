(** C119: address lists put one behind the other. *)
From Verif Require Import Bytes Outcome Stream Tokenizer SpecText SpecAddress SpecAddressAll SpecJoin JoinFacts.
Local Open Scope string_scope. Local Open Scope list_scope.

(** C119.  An address of the first list can disappear: here "joe@ example.com" in front of ",a@b". *)
Theorem C119_joined_refuted : exists a b la lb, forall cs, ParseAddressList cs a = Ok la /\ ParseAddressList cs b = Ok lb /\ In AT (concat la) /\
  ParseAddressList cs (a ++ chr 44 :: b) = Ok lb.
Proof. exact joined_lost. Qed.
Print Assumptions C119_joined_refuted.
(** Exactly what a list is read as behind another one and a ',' or ';': the addresses of both, without those of the last segment of
    the first when the last word of that segment has no '@'. *)
Theorem C119_exact : forall cs a la seg, ParseAddressList cs a = Ok la -> last_segment cs a seg -> exists l0 l1, la = l0 ++ l1 /\ yields (address_text cs) false seg l1 /\
  forall c b l, c = chr 44 \/ c = SEMI -> ParseAddressList cs (a ++ c :: b) = Ok l <->
    exists lb, ParseAddressList cs b = Ok lb /\ (counts seg /\ l = la ++ lb \/ ~ counts seg /\ l = l0 ++ lb).
Proof. exact joined. Qed.
Print Assumptions C119_exact.
(** Every list that is read has a last segment. *)
Theorem C119_segment : forall cs a la, ParseAddressList cs a = Ok la -> exists seg, last_segment cs a seg.
Proof. exact segment_exists. Qed.
Print Assumptions C119_segment.
(** Lists that end with an address as it should be: the claim. *)
Theorem C119_kept_partial : forall cs a b la lb c seg, ParseAddressList cs a = Ok la -> ParseAddressList cs b = Ok lb -> c = chr 44 \/ c = SEMI ->
  last_segment cs a seg -> counts seg -> ParseAddressList cs (a ++ c :: b) = Ok (la ++ lb).
Proof. exact joined_kept. Qed.
Print Assumptions C119_kept_partial.
(** The same for any number of lists. *)
Theorem C119_many_partial : forall cs ts ls, Forall2 (fun a la => ParseAddressList cs a = Ok la /\ exists seg, last_segment cs a seg /\ counts seg) ts ls ->
  ParseAddressList cs (with_commas ts) = Ok (concat ls).
Proof. exact joined_many. Qed.
Print Assumptions C119_many_partial.
(** A list that is refused is refused also behind another one. *)
Theorem C119_refused : forall cs a b la c, ParseAddressList cs a = Ok la -> c = chr 44 \/ c = SEMI -> (forall l, ParseAddressList cs b <> Ok l) ->
  forall l, ParseAddressList cs (a ++ c :: b) <> Ok l.
Proof. exact joined_refused. Qed.
Print Assumptions C119_refused.
Example C119_case : forall cs, ParseAddressList cs (str "Joe <joe@a>, x@y") = Ok [str "joe@a"; str "x@y"] /\
  ParseAddressList cs (str "Joe <joe@a>, x@y; ""p@q""") = Ok [str "joe@a"; str "x@y"; str "p@q"] /\ last_segment cs (str "Joe <joe@a>") [] /\ counts [].
Proof. exact joined_case. Qed.
Example C119_case_refused : forall cs l, ParseAddressList cs (str "<x") <> Ok l.
Proof. intros [|] l X; vm_compute in X; discriminate X. Qed.
