(** Property C99: what is said of texts that are no address lists. *)
From Verif Require Import Bytes Outcome Stream Tokenizer ErrorText AddressText SpecText SpecError SpecAddress SpecAddressAll SpecAddressError
  AddressErrors AddressRefused AddressPlaces Examples.

(** C99.  A text is read as addresses, refused with a text that states why, or (where plain char is unsigned) read for ever. *)
Theorem C99_exact : forall cs t,
  (forall l, AddressList_says cs t = Fine l <-> address_text cs t l) /\
  (forall m, AddressList_says cs t = Says m <-> refused cs (length t) [] t m) /\
  (AddressList_says cs t = Endless <-> cs = false /\ endless [] t).
Proof. exact address_exact. Qed.
Print Assumptions C99_exact.
Example C99_exact_case : AddressList_says true (str "Doe, J <a@b>, c@d") = Fine [str "a@b"; str "c@d"] /\
  AddressList_says true (str "Doe, J <a@b, c@d>") = Says (str "unclosed < addr-spec >") /\ AddressList_says false (str "a@b, " ++ [DQ]) = Endless.
Proof. exact endings. Qed.
Example C99_refused_cases :
  refusal true (esc "a@b, c\r d@e") (str "CR without matching LF, 0x20 at position 7") /\
  refusal false (esc "a@b \r") (str "CR without matching LF, at the END") /\
  refusal true (str "x@y ""a\""b@c") (str "unclosed string") /\
  refusal false (str "a <""\") (str "incomplete escape sequence") /\
  refusal true (esc "a@b (c (d)") (str "unclosed comment") /\
  refusal false (str "a@b, (c\") (str "incomplete escape sequence") /\
  refusal true (str "a@b," ++ [NUL]) (str "NUL character in address field") /\
  refusal true (str "Jo <a@b, c@d>") (str "unclosed < addr-spec >").
Proof. exact refusals. Qed.

(** The texts do not change what happens. *)
Theorem C99_same : forall cs t, silent (AddressList_says cs t) = ParseAddressList cs t.
Proof. exact address_same. Qed.
Print Assumptions C99_same.

(** Without quoted strings, the byte and the place that are named are those behind a CR of the text. *)
Theorem C99_place : forall cs t m x, ~ In DQ t -> AddressList_says cs t = Says m -> m = str "CR without matching LF, 0x" ++ x ->
  exists p c u, t = p ++ CR :: c :: u /\ c <> LF /\ byte_at "CR without matching LF, 0x" " at position " m c (S (length p)).
Proof. exact address_place. Qed.
Print Assumptions C99_place.
Example C99_place_case : ~ In DQ (esc "a@b, c\r d@e") /\ AddressList_says true (esc "a@b, c\r d@e") = Says (str "CR without matching LF, 0x20 at position 7").
Proof. exact place_case. Qed.

(** With a quoted string another byte can be at that place: it is one of the string. *)
Theorem C99_place_refuted : exists t m c k, AddressList_says true t = Says m /\ byte_at "CR without matching LF, 0x" " at position " m c k /\ nth_error t k <> Some c.
Proof. exact place_wrong. Qed.
Print Assumptions C99_place_refuted.
(** A string that is closed is called unclosed. *)
Theorem C99_closed_refuted : exists q r, ~ In DQ q /\ ~ In BS q /\ AddressList_says true (DQ :: q ++ DQ :: r) = Says (str "unclosed string").
Proof. exact closed_wrong. Qed.
Print Assumptions C99_closed_refuted.
