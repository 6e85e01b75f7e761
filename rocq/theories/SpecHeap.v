(** When the signer leaves a digest context behind. *)
From Verif Require Import Bytes SpecText SpecMail SpecCanon SpecSign SpecOutcome MailParser Canonicalization SignatoryOptions.

(** No lone CR in the fields that are signed. *)
Definition fields_without_CR (o : options) (fs : list header) : Prop :=
  forall f, In f fs -> chosen o (h_name f) -> ~ has_lone_CR (h_text f).
