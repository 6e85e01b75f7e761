(** Properties C08 (termination), C10 (comments) and C75 (address lists, for every text). *)
From Verif Require Import Bytes Outcome Tokenizer SpecText SpecAddress SpecAddressAll AddressWide AddressEndless Examples.

(** C75. *)
Theorem C75_every_text : forall cs t l, ParseAddressList cs t = Ok l <-> address_text cs t l.
Proof. exact ParseAddressList_all. Qed.
Print Assumptions C75_every_text.
Example C75_case : address_text true odd_list [str "a@b"; str "p@q"; str "r@s"; str "c@d"; esc "\r\ne"].
Proof. exact odd_list_case. Qed.

(** C08.  Where plain char is unsigned: exactly the texts that lead to an unclosed quoted string are
    read for ever. *)
Theorem C08_unsigned_char_exact : forall t,
  (ParseAddressList false t = Diverge <-> endless [] t) /\
  (~ endless [] t -> ParseAddressList false t = Throw (PermanentError AR_PERMERROR) \/ exists l, ParseAddressList false t = Ok l).
Proof. exact unsigned_exact. Qed.
Print Assumptions C08_unsigned_char_exact.
(** Together the addresses are no longer than the text, whatever char is. *)
Theorem C08_addresses : forall cs t l, ParseAddressList cs t = Ok l ->
  Forall (fun a => ~ In (chr 0) a) l /\ length (concat l) <= length t.
Proof. exact addresses_made. Qed.
Print Assumptions C08_addresses.
(** Without a byte 0xff the other texts are read alike, and those are refused where char is signed. *)
Theorem C08_char_independent : forall t, ~ In (chr 255) t ->
  (~ endless [] t -> ParseAddressList false t = ParseAddressList true t) /\
  (endless [] t -> ParseAddressList true t = Throw (PermanentError AR_PERMERROR)).
Proof. exact (fun t N => conj (plain_agree t N) (plain_endless t N)). Qed.
Print Assumptions C08_char_independent.
Example C08_case_endless : endless [] open_inside /\ endless [] (str "Jo <a@b> ""x") /\ ~ endless [] (str "<""\""x"" ,""").
Proof. exact open_inside_case. Qed.

(** C10.  In front of any text, for exactly the comments of [skipped]. *)
Theorem C10_comment_front : forall cs a r, skipped false 1 (a ++ [RP]) -> ~ In NUL0 a ->
  ParseAddressList cs (LP :: a ++ RP :: r) = ParseAddressList cs r.
Proof. exact comment_front_any. Qed.
Print Assumptions C10_comment_front.
(** The comments of RFC 5322 in which no escape directly follows an escape are among them. *)
Theorem C10_comment_tame : forall a, comment_text true a -> skipped false 1 (a ++ [RP]) /\ ~ In NUL0 a.
Proof. exact (fun a T => conj (tame_comment a T) (comment_no_NUL true a T)). Qed.
Print Assumptions C10_comment_tame.
Example C10_case_front : comment_text false (str "\a\b\)") /\ skipped false 1 (str "\a\b\)" ++ [RP]) /\ ~ comment_text true (str "\a\b\)").
Proof. exact three_escapes. Qed.
