(** Specification vocabulary for C100: where a byte of 128 or more comes to tolower. *)
From Verif Require Import Bytes MailParser SpecText SpecTags SpecCanon SpecVerify SpecSig SpecParse SpecReason SpecPass SpecStop.
Local Open Scope string_scope. Local Open Scope list_scope.

(** The domain of i= has such a byte, which is written as =XX there. *)
Definition eight_identity (l : list (bytes * bytes)) : Prop :=
  exists i local raw, has l "i" i /\ qp_text false i (local ++ AT :: raw) /\ ~ In AT local /\ ~ ascii_text raw.

(** Reading the signature field [h]: its name has such a byte, or its i=, to which it comes when nothing in front of i=
    is a reason to refuse the field. *)
Definition field_leaves (now : Z) (e0 : bool) (h : header) : Prop :=
  let arc := same_name (h_name h) (str "arc-message-signature") in
  exists l, field_tags h l /\
    (~ ascii_text (h_name h) \/ arc = false /\ eight_identity l /\ forall k m, k < 8 -> ~ sig_reason now e0 arc l k m).

(** The part of a field in front of its first colon has such a byte. *)
Definition name_part_eight (t : bytes) : Prop := exists a b, t = a ++ COLON :: b /\ ~ In COLON a /\ ~ ascii_text a.

(** A message without such bytes in the names of its fields and in the domain of an i=. *)
Definition no_eight (t : bytes) : Prop :=
  forall fs, has_fields t fs -> Forall ascii_text (map h_name fs) /\ forall h l, In h fs -> field_tags h l -> ~ eight_identity l.
