(** Property C108: a message signed by one party after the other. *)
From Verif Require Import Bytes Outcome Stream Base64 TagList MailParser Canonicalization Util Crypto Signature PublicKey SignatoryOptions Signatory
  Validatory SpecText SpecTags SpecMail SpecCanon SpecVerify SpecSig SpecKey SpecOptions SpecSign SpecTransit SpecTransport SpecRelay SelectFacts MailFacts VerifyFacts
  VerifyProps SignRound VerifyExamples SignExamples TransitExamples RelayFacts RelayExamples Examples.

(** C108.  [passed C strict t l u]: [t] has passed the stations [l], the latest first, and has
    become [u].  A signature made on the way is accepted at the end with its own key, unless a
    later field has a name that its signer oversigned. *)
Theorem C108_kept : forall C strict t l1 o clock H l2 u v, passed C strict t (l1 ++ Signer o clock H :: l2) u ->
  new_validatory strict (sig_type o) (open_str u) = Ok v ->
  exists u1 m1 s1 ls fields, passed C strict t l2 u1 /\ parse_all new_message (open_str u1) = Ok (m1, s1) /\ H = joined fields /\ length fields = length (all_signatures o) /\
    with_crlf ls = put_front l1 /\ arrives_signed C strict clock o u ls fields (m_headers m1) v.
Proof. exact way_kept. Qed.
Print Assumptions C108_kept.
Example C108_case : exists ls, passed toy true letter
  [Signer sealer at5 by_sealer; Signer list_server at5 by_list; Putter ls trace; Signer full at5 by_author] way4.
Proof. exact way_letter. Qed.
Example C108_case_run : accepts toy true V_DKIM 5 way4 0 rsa_pub = Ok tt /\ accepts toy true V_DKIM 5 way4 1 rsa_pub <> Ok tt /\
  accepts toy true V_DKIM 5 way4 2 rsa_pub = Ok tt /\ accepts toy true V_DKIM 5 way4 3 rsa_pub = Ok tt /\ accepts toy true V_ARC 5 way4 0 rsa_pub = Ok tt.
Proof. exact way_accepted. Qed.

(** When only signers follow, and none of them makes fields with a name that is oversigned, all is well. *)
Theorem C108_signers : forall C strict t l1 o clock H l2 u, passed C strict t (l1 ++ Signer o clock H :: l2) u -> only_signers l1 -> spared o l1 ->
  exists v fields before after, new_validatory strict (sig_type o) (open_str u) = Ok v /\ H = joined fields /\ length fields = length (all_signatures o) /\
    v_sigs v = before ++ map header_of fields ++ after /\
    forall i q, nth_error (rev (all_signatures o)) i = Some q ->
    exists h, nth_error (map header_of fields) i = Some h /\
    forall w k now e0, in_use strict (sig_type o) u w -> serves C o q k -> small_field h ->
       (o_exsign o = true -> (now <= expiry o (clock i))%Z) -> (o_signlen o = true -> e0 = false) ->
    exists w2 g e1, GetSignature C strict now h (new_signature, e0) w = (w2, (g, e1), Ok tt) /\ CheckSignature C strict h g k w2 = Ok tt /\
      key_query g = so_selector q ++ str "._domainkey." ++ map low (so_domain q).
Proof. exact way_signers. Qed.
Print Assumptions C108_signers.
Example C108_case_signers : passed toy true letter [Signer list_server at5 by_list1; Signer full at5 by_author] twice /\
  only_signers [Signer list_server at5 by_list1] /\ spared full [Signer list_server at5 by_list1].
Proof. exact twice_letter. Qed.
Example C108_case_signers_run : accepts toy true V_DKIM 5 twice 0 rsa_pub = Ok tt /\ accepts toy true V_DKIM 5 twice 1 rsa_pub = Ok tt /\ accepts toy true V_DKIM 5 twice 2 rsa_pub = Ok tt.
Proof. exact twice_accepted. Qed.

(** Without that condition it is false: the author oversigned ARC-Message-Signature, and then somebody put such a field in front. *)
Theorem C108_unspared_refuted : exists t o1 o2 H1 H2 u, passed toy true t [Signer o2 at5 H2; Signer o1 at5 H1] u /\
  (forall q, In q (all_signatures o1) -> serves toy o1 q rsa_pub) /\
  accepts toy true V_DKIM 5 (H1 ++ CRLF ++ t) 0 rsa_pub = Ok tt /\ accepts toy true V_DKIM 5 u 0 rsa_pub = perm_fail.
Proof. exact not_spared. Qed.
Print Assumptions C108_unspared_refuted.
