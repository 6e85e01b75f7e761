(** Streams with a known content: the flags may only be set at the end of the data. *)
From Verif Require Import Bytes Outcome Stream BytesFacts.

(** [St s p r]: [p] (reversed) has been read, [r] is left. *)
Definition St (s : istream) (p r : bytes) : Prop :=
  s_prev s = p /\ s_rest s = r /\ (good s = true \/ r = []).

Lemma St_open r : St (open_str r) [] r.
Proof. repeat split; auto. Qed.

Lemma St_rest s p r : St s p r -> s_rest s = r.
Proof. intros (_ & H & _). exact H. Qed.

Lemma St_fuel s p r : St s p r -> fuel_of s = S (length r).
Proof. intros H. unfold fuel_of. rewrite (St_rest _ _ _ H). reflexivity. Qed.

Lemma peek_cons s p c r : St s p (c :: r) -> peek s = (Some c, s).
Proof.
  intros (H1 & H2 & [H3|H3]); [|discriminate]. unfold peek. rewrite H3, H2. reflexivity.
Qed.

Lemma peek_nil s p : St s p [] -> exists s', peek s = (None, s') /\ St s' p [] /\ good s' = false.
Proof.
  intros (H1 & H2 & H3). unfold peek. destruct (good s).
  - rewrite H2. eexists. split; [reflexivity|]. repeat split; cbn; auto.
  - eexists. split; [reflexivity|]. repeat split; cbn; auto.
    unfold good. cbn. apply andb_false_r.
Qed.

Lemma get_cons s p c r :
  St s p (c :: r) -> exists s', get s = (Some c, s') /\ St s' (c :: p) r.
Proof.
  intros (H1 & H2 & [H3|H3]); [|discriminate]. unfold get. rewrite H3, H2, H1.
  eexists. split; [reflexivity|]. repeat split; cbn; auto.
Qed.

Lemma get_nil s p : St s p [] -> exists s', get s = (None, s') /\ St s' p [].
Proof.
  intros (H1 & H2 & H3). unfold get. destruct (good s).
  - rewrite H2. eexists. split; [reflexivity|]. repeat split; cbn; auto.
  - eexists. split; [reflexivity|]. repeat split; cbn; auto.
Qed.

Lemma clear_St s p r : St s p r -> St (clear s) p r.
Proof. intros (H1 & H2 & H3). repeat split; cbn; auto. Qed.
Lemma clear_good s : good (clear s) = true.
Proof. reflexivity. Qed.

Lemma putback_St s p c d r :
  St s (d :: p) r -> good s = true -> St (putback c s) p (c :: r) /\ good (putback c s) = true.
Proof.
  intros (H1 & H2 & H3) G. unfold putback.
  assert (s_fail s = false) as ->.
  { unfold good in G. destruct (s_fail s); auto. rewrite andb_false_r in G. discriminate. }
  rewrite H1, H2. repeat split; cbn; auto.
Qed.

(** Case analysis on what a peek sees. *)
Ltac peek_at H :=
  match type of H with
  | St ?s ?p (?c :: ?r) => rewrite (peek_cons s p c r H)
  | St ?s ?p [] =>
      let s' := fresh "s" in let E := fresh "E" in let G := fresh "G" in
      destruct (peek_nil s p H) as (s' & E & ? & G); rewrite E
  end.
Ltac get_at H :=
  match type of H with
  | St ?s ?p (?c :: ?r) =>
      let s' := fresh "s" in let E := fresh "E" in
      destruct (get_cons s p c r H) as (s' & E & ?); rewrite E
  | St ?s ?p [] =>
      let s' := fresh "s" in let E := fresh "E" in
      destruct (get_nil s p H) as (s' & E & ?); rewrite E
  end.

Lemma tellg_cons s p c r : St s p (c :: r) -> tellg s = (Z.of_nat (length p), s).
Proof.
  intros (H1 & H2 & [H3|H3]); [|discriminate]. unfold tellg. rewrite H3, H1. reflexivity.
Qed.
