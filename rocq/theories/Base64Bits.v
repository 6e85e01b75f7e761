(** Base64 encodes as RFC 4648 says: proofs. *)
From Verif Require Import Bytes Base64 BytesFacts SpecText SpecBase64 Base64Facts.

Lemma letter_char n : (n < 64)%N -> letter_value (b64_char n) n.
Proof.
  intros L. assert (E : (let c := code (b64_char n) in
    ((65 <=? c) && (c <=? 90) && (n =? c - 65)) || ((97 <=? c) && (c <=? 122) && (n =? c - 71)) ||
    ((48 <=? c) && (c <=? 57) && (n =? c + 4)) || ((c =? 43) && (n =? 62)) || ((c =? 47) && (n =? 63)))%N = true).
  { revert n L. apply (upto_sweep 64). vm_compute. reflexivity. }
  cbv zeta in E. unfold letter_value.
  repeat first [rewrite orb_true_iff in E | rewrite andb_true_iff in E | rewrite N.leb_le in E | rewrite N.eqb_eq in E]. tauto.
Qed.
Lemma code_inj a b : code a = code b -> a = b.
Proof. intros E. rewrite <- (chr_code a), <- (chr_code b), E. reflexivity. Qed.
Lemma letter_inj a b n : letter_value a n -> letter_value b n -> a = b.
Proof. unfold letter_value. intros A B. apply code_inj. lia. Qed.
Lemma letter_bound a n : letter_value a n -> (n < 64)%N.
Proof. unfold letter_value. lia. Qed.
Lemma letter_not_eq n : ~ letter_value EQUALS n.
Proof. unfold letter_value. change (code EQUALS) with 61%N. lia. Qed.

Lemma bits_length w n : length (bits w n) = w.
Proof. induction w; cbn [bits length]; auto. Qed.
Fixpoint beqb (a b : list bool) : bool :=
  match a, b with [], [] => true | x :: a, y :: b => Bool.eqb x y && beqb a b | _, _ => false end.
Lemma beqb_eq a : forall b, beqb a b = true -> a = b.
Proof.
  induction a as [|x a IH]; intros [|y b]; cbn [beqb]; intros H; try discriminate; auto.
  apply andb_true_iff in H as [A B]. apply eqb_prop in A. f_equal; auto.
Qed.
Lemma byte_bits (f : N -> list bool) : forallb (fun n => beqb (bits 8 n) (f n)) (upto 256) = true -> forall c, bits 8 (code c) = f (code c).
Proof. intros H c. apply beqb_eq. apply (upto_sweep 256 (fun n => beqb (bits 8 n) (f n))); auto. apply code_bound. Qed.
Lemma split62 c : bits 8 (code c) = bits 6 (code c / 4) ++ bits 2 (code c mod 4).
Proof. revert c. apply (byte_bits (fun n => bits 6 (n / 4) ++ bits 2 (n mod 4))). vm_compute. reflexivity. Qed.
Lemma split44 c : bits 8 (code c) = bits 4 (code c / 16) ++ bits 4 (code c mod 16).
Proof. revert c. apply (byte_bits (fun n => bits 4 (n / 16) ++ bits 4 (n mod 16))). vm_compute. reflexivity. Qed.
Lemma split26 c : bits 8 (code c) = bits 2 (code c / 64) ++ bits 6 (code c mod 64).
Proof. revert c. apply (byte_bits (fun n => bits 2 (n / 64) ++ bits 6 (n mod 64))). vm_compute. reflexivity. Qed.
Lemma join24 x y : (x < 4)%N -> (y < 16)%N -> bits 6 (x * 16 + y) = bits 2 x ++ bits 4 y.
Proof.
  intros A B. apply beqb_eq. revert y B. apply (upto_sweep 16). revert x A. apply (upto_sweep 4). vm_compute. reflexivity.
Qed.
Lemma join42 x y : (x < 16)%N -> (y < 4)%N -> bits 6 (x * 4 + y) = bits 4 x ++ bits 2 y.
Proof.
  intros A B. apply beqb_eq. revert y B. apply (upto_sweep 4). revert x A. apply (upto_sweep 16). vm_compute. reflexivity.
Qed.
Lemma bits_inj6 x y : (x < 64)%N -> (y < 64)%N -> bits 6 x = bits 6 y -> x = y.
Proof.
  intros A B E. assert (K : (implb (beqb (bits 6 x) (bits 6 y)) (x =? y)%N) = true).
  { clear E. revert y B. apply (upto_sweep 64). revert x A. apply (upto_sweep 64). vm_compute. reflexivity. }
  rewrite E in K. replace (beqb (bits 6 y) (bits 6 y)) with true in K.
  - cbn [implb] in K. apply N.eqb_eq. exact K.
  - symmetry. generalize (bits 6 y). clear. induction l as [|b l IH]; cbn [beqb]; auto. rewrite eqb_reflx, IH. reflexivity.
Qed.

Lemma encode_bits_aux k : forall d, length d <= k -> b64_text d (Base64_Encode d).
Proof.
  assert (D4 : forall n, (n < 256 -> n / 16 < 16)%N) by (intros; apply N.div_lt_upper_bound; lia).
  assert (D64 : forall n, (n < 256 -> n / 64 < 4)%N) by (intros; apply N.div_lt_upper_bound; lia).
  assert (M4 : forall n, (n mod 4 < 4)%N) by (intros; apply N.mod_lt; lia). assert (M16 : forall n, (n mod 16 < 16)%N) by (intros; apply N.mod_lt; lia).
  induction k as [|k IH]; intros d L.
  { destruct d; [|cbn in L; lia]. exists [], [], 0. repeat split; auto. }
  destruct d as [|a [|b [|c d]]]; cbn [Base64_Encode].
  - exists [], [], 0. repeat split; auto.
  - pose proof (code_bound a). exists [b64_char (code a / 4); b64_char (code a mod 4 * 16)], [code a / 4; code a mod 4 * 16]%N, 2.
    split; [lia|]. split; [reflexivity|]. split; [repeat (constructor; [apply letter_char; auto using six1, six2'|]); constructor|].
    cbn [flat_map]. rewrite split62, !app_nil_r, <- (N.add_0_r (code a mod 4 * 16)), join24 by (auto; lia). rewrite <- app_assoc. reflexivity.
  - pose proof (code_bound a). pose proof (code_bound b).
    exists [b64_char (code a / 4); b64_char (code a mod 4 * 16 + code b / 16); b64_char (code b mod 16 * 4)], [code a / 4; code a mod 4 * 16 + code b / 16; code b mod 16 * 4]%N, 1.
    split; [lia|]. split; [reflexivity|]. split; [repeat (constructor; [apply letter_char; auto using six1, six2, six3'|]); constructor|].
    cbn [flat_map]. rewrite (split62 a), (split44 b), !app_nil_r, <- (N.add_0_r (code b mod 16 * 4)), join24, join42 by (auto; lia).
    rewrite <- !app_assoc. reflexivity.
  - pose proof (code_bound a). pose proof (code_bound b). pose proof (code_bound c).
    destruct (IH d) as (ls & ns & p & P & E & F & B); [cbn in L; lia|].
    exists (b64_char (code a / 4) :: b64_char (code a mod 4 * 16 + code b / 16) :: b64_char (code b mod 16 * 4 + code c / 64) :: b64_char (code c mod 64) :: ls),
      ((code a / 4) :: (code a mod 4 * 16 + code b / 16) :: (code b mod 16 * 4 + code c / 64) :: (code c mod 64) :: ns)%N, p.
    split; auto. split; [rewrite E; reflexivity|]. split; [repeat (constructor; [apply letter_char; auto using six1, six2, six3, six4|]); auto|].
    cbn [flat_map]. rewrite (split62 a), (split44 b), (split26 c), B, join24, join42 by auto. rewrite <- !app_assoc. reflexivity.
Qed.
Lemma encode_bits d : b64_text d (Base64_Encode d). Proof. eapply encode_bits_aux. apply Nat.le_refl. Qed.

Lemma flat_bits_length {A} (f : A -> list bool) k l : (forall x, length (f x) = k) -> length (flat_map f l) = k * length l.
Proof. intros H. induction l as [|x l IH]; cbn [flat_map length]; [lia|]. rewrite app_length, H, IH. lia. Qed.
Lemma same_length_app {A} (a : list A) : forall b x y, length a = length b -> a ++ x = b ++ y -> a = b.
Proof.
  induction a as [|c a IH]; intros [|d b] x y L E; try discriminate; auto. cbn [app length] in *. injection E as -> E. f_equal. eapply IH; [|exact E]. lia.
Qed.
Lemma flat_bits_inj ns : forall ms, Forall (fun n => (n < 64)%N) ns -> Forall (fun n => (n < 64)%N) ms ->
  flat_map (bits 6) ns = flat_map (bits 6) ms -> ns = ms.
Proof.
  induction ns as [|n ns IH]; intros [|m ms] A B E; auto; try (cbn [flat_map bits app] in E; discriminate).
  inversion A; inversion B; subst. cbn [flat_map] in E.
  assert (E1 : bits 6 n = bits 6 m) by (eapply same_length_app; [|exact E]; rewrite !bits_length; reflexivity).
  rewrite E1 in E. apply app_inv_head in E. apply bits_inj6 in E1; auto. subst m. f_equal. auto.
Qed.
Lemma letters_inj ls : forall ks ns, Forall2 letter_value ls ns -> Forall2 letter_value ks ns -> ls = ks.
Proof.
  induction ls as [|l ls IH]; intros ks ns A B; inversion A; subst; inversion B; subst; auto. f_equal; [eapply letter_inj; eauto|eauto].
Qed.
Lemma b64_text_unique d t t' : b64_text d t -> b64_text d t' -> t = t'.
Proof.
  intros (ls & ns & p & P & -> & F & B) (ls' & ns' & p' & P' & -> & F' & B').
  assert (LN : 6 * length ns = 8 * length d + 2 * p).
  { rewrite <- (flat_bits_length (bits 6) 6) by apply bits_length. rewrite B, app_length, repeat_length, (flat_bits_length _ 8) by (intros; apply bits_length). reflexivity. }
  assert (LN' : 6 * length ns' = 8 * length d + 2 * p').
  { rewrite <- (flat_bits_length (bits 6) 6) by apply bits_length. rewrite B', app_length, repeat_length, (flat_bits_length _ 8) by (intros; apply bits_length). reflexivity. }
  assert (p = p') by lia. subst p'. rewrite <- B in B'.
  assert (BD : forall l k, Forall2 letter_value l k -> Forall (fun n => (n < 64)%N) k) by (induction 1; constructor; eauto using letter_bound).
  apply flat_bits_inj in B'; eauto. subst ns'. f_equal. eapply letters_inj; eauto.
Qed.
Lemma b64_exact d t : b64_text d t <-> t = Base64_Encode d.
Proof. split; [intros H; eapply b64_text_unique; [exact H|apply encode_bits]|intros ->; apply encode_bits]. Qed.
