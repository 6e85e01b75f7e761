(** Specification vocabulary for DNS responses (RFC 1035 3.1, 3.2, 3.3.14, 4.1).  Nothing here
    refers to the model's functions. *)
From Verif Require Import Bytes.

(** A 16 bit number in network order. *)
Inductive two_bytes : N -> bytes -> Prop :=
| tb_intro a b : two_bytes (256 * code a + code b) [a; b].

(** A domain name: labels, then the root or a pointer. *)
Inductive dns_name : bytes -> Prop :=
| dn_root : dns_name [chr 0]
| dn_pointer a b : (192 <= code a)%N -> dns_name [a; b]
| dn_label a l r : (1 <= code a <= 63)%N -> length l = N.to_nat (code a) -> dns_name r -> dns_name (a :: l ++ r).

(** A question: name, type, class. *)
Inductive question : bytes -> Prop :=
| question_intro n f : dns_name n -> length f = 4 -> question (n ++ f).

(** [strings ss d]: [d] are the character strings [ss]. *)
Inductive strings : list bytes -> bytes -> Prop :=
| str_nil : strings [] []
| str_cons a s ss d : length s = N.to_nat (code a) -> strings ss d -> strings (s :: ss) (a :: s ++ d).

(** [record txt d]: [d] is a resource record; [txt] is its text if its type is TXT, nothing
    otherwise. *)
Inductive record : bytes -> bytes -> Prop :=
| rec_txt n cls rdlen rd ss : dns_name n -> length cls = 6 -> two_bytes (N.of_nat (length rd)) rdlen -> strings ss rd ->
    record (concat ss) (n ++ [chr 0; chr 16] ++ cls ++ rdlen ++ rd)
| rec_other n ty t cls rdlen rd : dns_name n -> two_bytes t ty -> t <> 16%N -> length cls = 6 ->
    two_bytes (N.of_nat (length rd)) rdlen -> record [] (n ++ ty ++ cls ++ rdlen ++ rd).

(** [response texts d]: [d] is a response with the texts [texts] in its answer section; anything
    may follow that section. *)
Inductive response : list bytes -> bytes -> Prop :=
| response_intro id qd an rest qs txts rrs more :
    length id = 4 -> two_bytes (N.of_nat (length qs)) qd -> two_bytes (N.of_nat (length rrs)) an -> length rest = 4 ->
    Forall question qs -> Forall2 record txts rrs ->
    response txts (id ++ qd ++ an ++ rest ++ concat qs ++ concat rrs ++ more).

(** [broken_off d]: a resource record that ends behind its name, before the end of its data. *)
Inductive broken_off : bytes -> Prop :=
| broken_off_intro n ty t cls rdlen rd have missing : dns_name n -> two_bytes t ty -> length cls = 6 ->
    two_bytes (N.of_nat (length rd)) rdlen -> ty ++ cls ++ rdlen ++ rd = have ++ missing -> missing <> [] -> broken_off (n ++ have).
(** [broken_response texts d]: a response that ends in such a record; [texts] precede it. *)
Inductive broken_response : list bytes -> bytes -> Prop :=
| broken_response_intro id qd an count rest qs txts rrs last :
    length id = 4 -> two_bytes (N.of_nat (length qs)) qd -> two_bytes count an -> (N.of_nat (length rrs) < count)%N -> length rest = 4 ->
    Forall question qs -> Forall2 record txts rrs -> broken_off last ->
    broken_response txts (id ++ qd ++ an ++ rest ++ concat qs ++ concat rrs ++ last).

(** *** What is read from any packet *)
(** [behind lax d r]: [d] starts with a name and [r] follows; where [lax], the end of [d] ends a name too. *)
Inductive behind (lax : bool) : bytes -> bytes -> Prop :=
| bh_root r : behind lax (chr 0 :: r) r
| bh_pointer a b r : (192 <= code a)%N -> behind lax (a :: b :: r) r
| bh_label a l d r : (1 <= code a <= 63)%N -> length l = N.to_nat (code a) -> behind lax d r -> behind lax (a :: l ++ d) r
| bh_end : lax = true -> behind lax [] [].
(** [text_of d t]: [t] are the character strings at the front of [d] that are whole. *)
Inductive text_of : bytes -> bytes -> Prop :=
| to_all ss d : strings ss d -> text_of d (concat ss)
| to_some ss d a s : strings ss d -> length s < N.to_nat (code a) -> text_of (d ++ a :: s) (concat ss).
(** [rr_fields d t rd more]: type, class, time to live, length and data of a record, and what follows. *)
Definition rr_fields (d : bytes) (t : N) (rd more : bytes) : Prop := exists ty cls len,
  d = ty ++ cls ++ len ++ rd ++ more /\ two_bytes t ty /\ length cls = 6 /\ two_bytes (N.of_nat (length rd)) len.
(** [answers_read lax n d ok t]: of [n] records in [d] the texts [t] are used; [ok] is false if one of them is cut off behind its name. *)
Inductive answers_read (lax : bool) : nat -> bytes -> bool -> bytes -> Prop :=
| ar_done d : answers_read lax 0 d true []
| ar_no_name n d : (forall r, ~ behind lax d r) -> answers_read lax (S n) d true []
| ar_cut n d r : behind lax d r -> (forall t rd more, ~ rr_fields r t rd more) -> answers_read lax (S n) d false []
| ar_txt n d r rd more x ok y : behind lax d r -> rr_fields r 16 rd more -> text_of rd x -> answers_read lax n more ok y ->
    answers_read lax (S n) d ok (x ++ y)
| ar_other n d r t rd more ok y : behind lax d r -> rr_fields r t rd more -> t <> 16%N -> answers_read lax n more ok y ->
    answers_read lax (S n) d ok y.
(** [questions_read lax n d (Some r)]: [r] follows [n] questions at the front of [d]; [None]: they are not there. *)
Inductive questions_read (lax : bool) : nat -> bytes -> option bytes -> Prop :=
| qr_done d : questions_read lax 0 d (Some d)
| qr_one n d f r x : behind lax d (f ++ r) -> length f = 4 -> questions_read lax n r x -> questions_read lax (S n) d x
| qr_lost n d : (forall f r, behind lax d (f ++ r) -> length f <> 4) -> questions_read lax (S n) d None.
(** [packet_read lax d ok t]: [t] are the texts used from the packet [d]. *)
Inductive packet_read (lax : bool) : bytes -> bool -> bytes -> Prop :=
| pr_short d : length d < 12 -> packet_read lax d true []
| pr_lost id q qd an rest d : length id = 4 -> two_bytes q qd -> length an = 2 -> length rest = 4 -> questions_read lax (N.to_nat q) d None ->
    packet_read lax (id ++ qd ++ an ++ rest ++ d) true []
| pr_read id q qd n an rest d r ok t : length id = 4 -> two_bytes q qd -> two_bytes n an -> length rest = 4 ->
    questions_read lax (N.to_nat q) d (Some r) -> answers_read lax (N.to_nat n) r ok t -> packet_read lax (id ++ qd ++ an ++ rest ++ d) ok t.
