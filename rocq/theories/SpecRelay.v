(** A message on its way: signed by one party after the other, with lines put in front in between. *)
From Verif Require Import Bytes Outcome Stream MailParser Crypto SignatoryOptions Signatory SpecText SpecMail SpecVerify SpecOptions SpecSign SelectFacts MailFacts.

Inductive station :=
| Signer (o : options) (clock : nat -> Z) (H : bytes)     (* the fields H, made with the options o, stand in front *)
| Putter (ls : list bytes) (p : bytes).                   (* the lines ls, with line ends as in p, stand in front *)

(** [t] has passed the stations [l], the latest first, and is [u] now.  The options of a signer fit
    the message that reached it. *)
Inductive passed (C : crypto) (strict : bool) (t : bytes) : list station -> bytes -> Prop :=
| passed_none : passed C strict t [] t
| passed_signer l u o clock H y m s : passed C strict t l u -> ~ starts_wsp u -> parse_all new_message (open_str u) = Ok (m, s) ->
    CreateSignature C strict clock o (new_signatory (open_str u)) = (y, Ok H) ->
    Forall (sound_options strict o) (all_signatures o) -> sound_fields h_name o (m_headers m) ->
    passed C strict t (Signer o clock H :: l) (H ++ CRLF ++ u)
| passed_putter l u ls p : passed C strict t l u -> header_block ls p -> passed C strict t (Putter ls p :: l) (p ++ u).

(** What the stations [l] put in front, with CRLF as the line end. *)
Definition put_by (a : station) : bytes := match a with Signer _ _ H => H ++ CRLF | Putter ls _ => with_crlf ls end.
Definition put_front (l : list station) : bytes := concat (map put_by l).

Definition only_signers (l : list station) : Prop := Forall (fun a => exists o clock H, a = Signer o clock H) l.
(** None of the signers [l] makes fields with a name that is oversigned in [o]. *)
Definition spared (o : options) (l : list station) : Prop :=
  forall n o1 clock1 H1, In n (o_oversign o) -> In (Signer o1 clock1 H1) l -> same_name (field_name o1) n = false.
