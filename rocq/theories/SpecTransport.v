(** What "a signed message is accepted where it arrives" means. *)
From Verif Require Import Bytes Outcome Stream MailParser Util Crypto Signature PublicKey SignatoryOptions Signatory Validatory SpecText SpecTags SpecMail
  SpecCanon SpecVerify SpecSig SpecOptions SpecSign MailFacts VerifyProps VerifyFacts SignRound.

(** [v'] reads the message [t2], which arrived; its fields are those of the lines [ls] put in
    front, the signature fields [fields], and [hs].  The signature fields are accepted, each with
    its own key, unless a field in front has an oversigned name. *)
Definition arrives_signed (C : crypto) (strict : bool) (clock : nat -> Z) (o : options) (t2 : bytes) (ls fields : list bytes) (hs : list header)
  (v' : validatory) : Prop :=
  exists added more,
    m_headers (v_msg v') = added ++ map header_of fields ++ hs /\ concat (map (fun f => h_text f ++ CRLF) added) = with_crlf ls /\
    v_sigs v' = more ++ map header_of fields ++ filter (wanted (sig_type o)) hs /\ incl more added /\
    ((forall f n, In f added -> In n (o_oversign o) -> same_name (h_name f) n = false) ->
     forall i q, nth_error (rev (all_signatures o)) i = Some q ->
     exists h, nth_error (v_sigs v') (length more + i) = Some h /\ nth_error (map header_of fields) i = Some h /\
     forall w k now e0, in_use strict (sig_type o) t2 w -> serves C o q k -> small_field h ->
       (o_exsign o = true -> (now <= expiry o (clock i))%Z) -> (o_signlen o = true -> e0 = false) ->
     exists w2 g e1, GetSignature C strict now h (new_signature, e0) w = (w2, (g, e1), Ok tt) /\
       CheckSignature C strict h g k w2 = Ok tt /\
       key_query g = so_selector q ++ str "._domainkey." ++ map low (so_domain q)).
