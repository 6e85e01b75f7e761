(** C106: the depth of comments. *)
From Verif Require Import Bytes Outcome Stream Tokenizer IntDepth SpecText SpecAddress SpecAddressAll SpecOverflow OverflowFacts OverflowMore.
Local Open Scope string_scope. Local Open Scope list_scope.

(** C106.  The first token of a text: undefined behaviour (signed overflow) exactly when 2^31 parentheses are open at a time, and
    otherwise the token that is read with unbounded numbers. *)
Theorem C106_token : forall cs t, (NextAddressListToken_int cs (open_str t) = UB UB_overflow <-> deep_comment t) /\
  (~ deep_comment t -> NextAddressListToken_int cs (open_str t) = NextAddressListToken cs (open_str t)).
Proof. exact token_text. Qed.
Print Assumptions C106_token.
(** Lists of less than 2 GiB. *)
Theorem C106_list : forall cs t, (Z.of_nat (length t) < 2147483648)%Z -> ParseAddressList_int cs t = ParseAddressList cs t.
Proof. exact short_same. Qed.
Print Assumptions C106_list.
Example C106_case : (forall cs, ParseAddressList_int cs (str "(a (b) c) d@e, f@g") = Ok [str "d@e"; str "f@g"]) /\ ~ deep_comment (str "(a (b) c) d@e").
Proof. exact int_cases. Qed.
(** Lists of any length: undefined behaviour exactly when the list leads to such a comment, in itself or in a quoted string that is
    read as a list. *)
Theorem C106_list_exact : forall cs t, (ParseAddressList_int cs t = UB UB_overflow <-> overdeep cs [] t) /\
  (~ overdeep cs [] t -> ParseAddressList_int cs t = ParseAddressList cs t).
Proof. exact list_exact. Qed.
Print Assumptions C106_list_exact.
Example C106_case_inside : forall cs n, (2147483648 <= Z.of_nat n)%Z -> ParseAddressList_int cs (LA :: RA :: DQ :: repeat LP n ++ [DQ]) = UB UB_overflow.
Proof. exact inside_overflow. Qed.
(** The bound is the best one: a text of 2^31 bytes. *)
Theorem C106_defined_refuted : exists t, Z.of_nat (length t) = 2147483648%Z /\
  forall cs, ParseAddressList cs t = perm /\ ParseAddressList_int cs t = UB UB_overflow.
Proof. exact overflow_exists. Qed.
Print Assumptions C106_defined_refuted.
(** A list that is otherwise well formed. *)
Theorem C106_well_formed_refuted : exists t, forall cs, ParseAddressList cs t = Ok [str "a@b"] /\ ParseAddressList_int cs t = UB UB_overflow.
Proof. exact closed_overflow. Qed.
Print Assumptions C106_well_formed_refuted.
