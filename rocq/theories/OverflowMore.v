(** A text that overflows the depth, and one token (C106). *)
From Verif Require Import Bytes Outcome Stream Tokenizer IntDepth BytesFacts StreamFacts TokenizerFacts SpecText SpecAddress SpecAddressAll SpecOverflow
  QPFacts ListFacts AddressFacts AddressParse AddressClean ListExact ListWide AddressWide AddressEndless SpecError SpecAddressError ErrorText AddressText AddressErrors AddressRefused AddressPlaces OverflowFacts OverflowList.
From Verif Require Import Outcome.

Lemma parens_bad n : forall d, comment_bad false (S d) (repeat LP n) (str "unclosed comment").
Proof. induction n as [|n IH]; intros d; [apply ob_end|]. cbn [repeat]. apply ob_open. apply IH. Qed.
Lemma parens_perm cs n : n <> 0 -> ParseAddressList cs (repeat LP n) = perm.
Proof.
  intros N. rewrite <- address_same. rewrite (proj2 (proj1 (proj2 (address_exact cs (repeat LP n))) (str "unclosed comment"))); [reflexivity|].
  apply rf_half. destruct n as [|n]; [congruence|]. apply (ht_comment _ _ _ _ [] (repeat LP n)); [|apply parens_bad].
  apply gap_none. cbn. split; [intros [X|X]; discriminate X|discriminate].
Qed.
Lemma overflow_exists : exists t, Z.of_nat (length t) = 2147483648%Z /\ forall cs, ParseAddressList cs t = perm /\ ParseAddressList_int cs t = UB UB_overflow.
Proof.
  assert (X : exists n, Z.of_nat n = 2147483648%Z) by (exists (Z.to_nat 2147483648); apply Z2Nat.id; lia). destruct X as (n & E).
  exists (repeat LP n). split; [rewrite repeat_length; exact E|]. intros cs. split; [|apply parens_overflow; lia]. apply parens_perm. intros ->. discriminate E.
Qed.
Lemma token_text cs t : (NextAddressListToken_int cs (open_str t) = UB UB_overflow <-> deep_comment t) /\
  (~ deep_comment t -> NextAddressListToken_int cs (open_str t) = NextAddressListToken cs (open_str t)).
Proof.
  destruct (next_either cs _ _ _ (St_open t)) as [[D E]|[N E]]; rewrite E.
  - split; [tauto|]. intros N. contradiction.
  - split; [|auto]. split; [|contradiction]. intros X. exfalso. destruct cs.
    + destruct (next_tok_any (S (length t)) (open_str t) [] t [] (St_open t) ltac:(lia)) as [P|(ty & tk & s' & p' & r' & P & _)]; unfold NextAddressListToken in X; rewrite (St_fuel _ _ _ (St_open t)), P in X; discriminate X.
    + destruct (next_unsigned _ _ _ (St_open t)) as [[_ P]|[_ [P|(a & P)]]]; rewrite P in X; discriminate X.
Qed.
Lemma int_cases : (forall cs, ParseAddressList_int cs (str "(a (b) c) d@e, f@g") = Ok [str "d@e"; str "f@g"]) /\ ~ deep_comment (str "(a (b) c) d@e").
Proof. split; [intros [|]; vm_compute; reflexivity|]. apply short_comment. vm_compute. reflexivity. Qed.
(** A list. *)
Lemma list_exact cs t : (ParseAddressList_int cs t = UB UB_overflow <-> overdeep cs [] t) /\ (~ overdeep cs [] t -> ParseAddressList_int cs t = ParseAddressList cs t).
Proof.
  destruct (list_either cs t) as [[D E]|[N E]]; rewrite E.
  - split; [tauto|]. intros N. contradiction.
  - split; [|auto]. split; [|contradiction]. intros X. exfalso. destruct cs.
    + destruct (ParseAddressList_any t) as [P|(l & P & _)]; rewrite P in X; discriminate X.
    + destruct (unsigned_runs t) as [[_ P]|[_ [P|(a & P)]]]; rewrite P in X; discriminate X.
Qed.
(** 2^31 parentheses in a quoted string, behind an empty pair of angle brackets. *)
Lemma parens_quoted cs n : quoted cs (repeat LP n) (repeat LP n).
Proof. induction n as [|n IH]; cbn [repeat]; constructor; auto; discriminate. Qed.
Lemma inside_overflow cs n : (2147483648 <= Z.of_nat n)%Z -> ParseAddressList_int cs (LA :: RA :: DQ :: repeat LP n ++ [DQ]) = UB UB_overflow.
Proof.
  intros L. apply list_exact. apply (od_token _ _ _ Open (RA :: DQ :: repeat LP n ++ [DQ])); [|discriminate|discriminate|].
  { apply (one_open _ _ []). apply gap_none. cbn. split; [intros [X|X]; discriminate X|discriminate]. }
  apply (od_close _ _ _ (DQ :: repeat LP n ++ [DQ]) []).
  { apply (one_close _ _ []). apply gap_none. cbn. split; [intros [X|X]; discriminate X|discriminate]. }
  { apply y_none. reflexivity. }
  apply (od_token _ _ _ (Word true (repeat LP n)) []); [|discriminate|discriminate|].
  { apply (one_quoted _ _ [] (repeat LP n)); [|apply parens_quoted|].
    - apply gap_none. cbn. split; [intros [X|X]; discriminate X|discriminate].
    - intros X. apply repeat_spec in X. discriminate X. }
  apply (od_inside _ _ _ None [] (repeat LP n)).
  - apply (one_end _ _ []). apply gap_none. exact I.
  - right. split; [auto|]. intros [X|[]]. discriminate X.
  - discriminate.
  - split; [reflexivity|]. exists []. reflexivity.
  - apply od_comment. destruct n as [|n]; [lia|]. exists [], (repeat LP n). split; [apply gap_none; cbn; split; [intros [X|X]; discriminate X|discriminate]|].
    rewrite <- (app_nil_r (repeat LP n)). apply parens_deep; [lia|]. intros ->. cbn in L. lia.
Qed.
Lemma parens_skipped n : forall a, skipped false 1 a -> skipped false (S n) (repeat RP n ++ a).
Proof. induction n as [|n IH]; intros a S; [exact S|]. cbn [repeat app]. apply sk_close. apply IH, S. Qed.
Lemma parens_closed n : forall d, skipped false (S (n + d)) (repeat RP (n + d) ++ [RP]) -> skipped false (S d) (repeat LP n ++ repeat RP (n + d) ++ [RP]).
Proof.
  induction n as [|n IH]; intros d S; [exact S|]. change (repeat LP (Datatypes.S n)) with (LP :: repeat LP n). rewrite <- app_comm_cons. apply sk_open.
  replace (Datatypes.S n + d) with (n + Datatypes.S d) in * by lia. apply IH, S.
Qed.
(** The parentheses are closed again, and an address follows: the list is well formed. *)
Lemma closed_overflow : exists t, forall cs, ParseAddressList cs t = Ok [str "a@b"] /\ ParseAddressList_int cs t = UB UB_overflow.
Proof.
  assert (X : exists n, Z.of_nat n = 2147483648%Z) by (exists (Z.to_nat 2147483648); apply Z2Nat.id; lia). destruct X as (n & E).
  exists (LP :: (repeat LP n ++ repeat RP n) ++ RP :: str "a@b"). intros cs. split.
  - rewrite comment_front_any.
    + destruct cs; vm_compute; reflexivity.
    + rewrite <- app_assoc. rewrite <- (Nat.add_0_r n) at 2. apply (parens_closed n 0). apply parens_skipped. constructor.
    + intros I. apply in_app_or in I as [I|I]; apply repeat_spec in I; discriminate I.
  - apply list_exact. apply od_comment. exists [], ((repeat LP n ++ repeat RP n) ++ RP :: str "a@b"). split; [apply gap_none; cbn; split; [intros [X|X]; discriminate X|discriminate]|].
    rewrite <- app_assoc. apply parens_deep; [lia|]. intros ->. cbn in E. lia.
Qed.
