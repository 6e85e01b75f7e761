(** Specification for C110: locales. *)
From Verif Require Import Bytes MailParser Signature SignatoryOptions SpecStop Locale.

(** A locale with the ASCII letters and blanks of the "C" locale, in which no other byte becomes ASCII in lower case: all of ISO 8859 and
    UTF-8 but the Turkish ones. *)
Definition plain (L : locale) : Prop :=
  forall c, ((code c < 128)%N -> l_lower L c = tolower c /\ l_space L c = isspace c) /\ ((128 <= code c)%N -> (128 <= code (l_lower L c))%N).

(** The same object but for the domain of i=, which may differ if it is not ASCII. *)
Definition but_mail (g g' : signature) : Prop := exists md, g' = set_mail (sg_local g) md g /\ (ascii_text (sg_mdomain g) -> md = sg_mdomain g).

(** No other bytes in the names that are signed: in the lists of the options, and in the message if all fields are signed. *)
Definition seven (o : options) (fs : list header) : Prop :=
  Forall ascii_text (o_headers o) /\ Forall ascii_text (o_oversign o) /\ (o_headers o <> [] \/ Forall ascii_text (map h_name fs)).
