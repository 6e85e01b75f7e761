(** Properties C38, C39: the resolver.  [lax]: dn_skipname of glibc before 2.35. *)
From Verif Require Import Bytes Outcome Crypto Signature PublicKey Validatory Resolver SpecDns ResolverFacts ResolverCut ResolverExact VerifyFacts VerifyProps Examples ResolverExamples.

(** C38.  No read outside the 64 KiB buffer ([UB UB_oob_read]), no endless loop ([Diverge]). *)
Theorem C38_in_bounds : forall lax q, exists ok text, GetTXT lax q = Ok (ok, text).
Proof. exact GetTXT_ok. Qed.
Print Assumptions C38_in_bounds.
(** So GetPublicKey with this resolver ends as C36 says, whatever is received. *)
Theorem C38_lookup : forall C strict lax (answer : bytes -> query_result) g p,
  dkim_end strict (snd (GetPublicKey C strict (fun name => GetTXT lax (answer name)) g p)).
Proof.
  exact (fun C strict lax answer g p => GetPublicKey_ends C strict _ g p
    (match GetTXT_ok lax (answer (key_query g)) with ex_intro _ ok (ex_intro _ text E) => ex_intro _ (ok, text) E end)).
Qed.
Print Assumptions C38_lookup.
Example C38_case : GetTXT true (QAnswer (repeat (chr 255) 40)) = Ok (true, []) /\ GetTXT false (QAnswer []) = Ok (true, []).
Proof. split; vm_compute; reflexivity. Qed.

(** C39.  [response texts pkt]: [pkt] is a response with these texts in its answer section. *)
Theorem C39_reassembled : forall lax texts pkt, response texts pkt -> (N.of_nat (length pkt) <= 65536)%N ->
  GetTXT lax (QAnswer pkt) = Ok (true, concat texts).
Proof. exact GetTXT_response. Qed.
Print Assumptions C39_reassembled.
Example C39_case : let pkt := esc "IDff\0" ++ [chr 1; chr 0; chr 2] ++ esc "aabb" ++ [chr 1] ++ esc "a\0qtqc" ++
    [chr 192; chr 12; chr 0; chr 5] ++ esc "ccTTTT" ++ [chr 0; chr 2; chr 192; chr 12] ++
    [chr 192; chr 12; chr 0; chr 16] ++ esc "ccTTTT" ++ [chr 0; chr 7; chr 3] ++ esc "abc" ++ [chr 0; chr 1] ++ esc "dmore" in
  response [[]; esc "abcd"] pkt /\ GetTXT false (QAnswer pkt) = Ok (true, esc "abcd").
Proof.
  cbv zeta. split; [|vm_compute; reflexivity].
  apply (response_intro (esc "IDff") (esc "\0" ++ [chr 1]) [chr 0; chr 2] (esc "aabb") [[chr 1] ++ esc "a\0qtqc"] [[]; esc "abcd"]
    [[chr 192; chr 12; chr 0; chr 5] ++ esc "ccTTTT" ++ [chr 0; chr 2; chr 192; chr 12];
     [chr 192; chr 12; chr 0; chr 16] ++ esc "ccTTTT" ++ [chr 0; chr 7; chr 3] ++ esc "abc" ++ [chr 0; chr 1; chr 100]] (esc "more")).
  - reflexivity.
  - apply (tb_intro (chr 0) (chr 1)).
  - apply (tb_intro (chr 0) (chr 2)).
  - reflexivity.
  - constructor; [|constructor]. apply (question_intro ([chr 1] ++ esc "a\0") (esc "qtqc")); [|reflexivity].
    apply (dn_label (chr 1) (esc "a") [chr 0]); [vm_compute; intuition discriminate|reflexivity|apply dn_root].
  - constructor; [|constructor; [|constructor]].
    + apply (rec_other [chr 192; chr 12] [chr 0; chr 5] 5 (esc "ccTTTT") [chr 0; chr 2] [chr 192; chr 12]); try reflexivity.
      * apply dn_pointer. vm_compute. discriminate.
      * apply (tb_intro (chr 0) (chr 5)).
      * discriminate.
      * apply (tb_intro (chr 0) (chr 2)).
    + apply (rec_txt [chr 192; chr 12] (esc "ccTTTT") [chr 0; chr 7] ([chr 3] ++ esc "abc" ++ [chr 0; chr 1; chr 100]) [esc "abc"; []; esc "d"]).
      * apply dn_pointer. vm_compute. discriminate.
      * reflexivity.
      * apply (tb_intro (chr 0) (chr 7)).
      * apply (str_cons (chr 3) (esc "abc") _ [chr 0; chr 1; chr 100]); [reflexivity|].
        apply (str_cons (chr 0) [] _ [chr 1; chr 100]); [reflexivity|].
        apply (str_cons (chr 1) [chr 100] [] []); [reflexivity|apply str_nil].
Qed.

(** C37, down to the query: which failures are temporary. *)
Theorem C37_query_failed : forall C strict lax answer g p,
  let r := GetPublicKey C strict (fun name => GetTXT lax (answer name)) g p in
  match answer (sg_selector g ++ str "._domainkey." ++ sg_domain g) with
  | QFail HOST_NOT_FOUND | QFail NO_DATA | QFail NO_RECOVERY => r = (p, Throw (PermanentError AR_PERMERROR))
  | QFail _ => r = (p, Throw (TemporaryError AR_TEMPERROR))
  | QAnswer pkt => (65536 < N.of_nat (length pkt))%N -> r = (p, Throw (TemporaryError AR_TEMPERROR))
  end.
Proof. exact query_failed. Qed.
Print Assumptions C37_query_failed.
Theorem C37_query_answered : forall C strict lax answer g p texts pkt,
  answer (sg_selector g ++ str "._domainkey." ++ sg_domain g) = QAnswer pkt -> (N.of_nat (length pkt) <= 65536)%N ->
  (response texts pkt -> GetPublicKey C strict (fun name => GetTXT lax (answer name)) g p =
     match concat texts with [] => (p, Throw (PermanentError AR_PERMERROR)) | r => PublicKey_Parse C strict r p end) /\
  (broken_response texts pkt -> GetPublicKey C strict (fun name => GetTXT lax (answer name)) g p = (p, Throw (TemporaryError AR_TEMPERROR))).
Proof. exact query_answered. Qed.
Print Assumptions C37_query_answered.

(** C64.  A response that is cut off yields the texts of its first records or fails; never part of
    a record. *)
Theorem C64_whole_records : forall lax texts have missing, response texts (have ++ missing) -> (N.of_nat (length have) <= 65536)%N ->
  exists ok k, GetTXT lax (QAnswer have) = Ok (ok, concat (firstn k texts)).
Proof. exact GetTXT_cut. Qed.
Print Assumptions C64_whole_records.
(** Partial: it fails if the cut is behind the name of a record; *)
Theorem C64_failure_partial : forall lax texts pkt, broken_response texts pkt -> (N.of_nat (length pkt) <= 65536)%N ->
  GetTXT lax (QAnswer pkt) = Ok (false, concat texts).
Proof. exact GetTXT_broken. Qed.
Print Assumptions C64_failure_partial.
(** a cut in front of or inside of the name goes unnoticed, *)
Theorem C64_failure_refuted : exists texts have missing, response texts (have ++ missing) /\
  GetTXT false (QAnswer have) = Ok (true, esc "p=A") /\ concat texts = esc "p=ABC".
Proof. exact cut_unnoticed. Qed.
Print Assumptions C64_failure_refuted.
(** and so does a character string that is longer than its record. *)
Theorem C64_strings_refuted : exists pre rd, (forall ss, ~ strings ss rd) /\
  GetTXT false (QAnswer (pre ++ rd)) = Ok (true, esc "p=A").
Proof. exact overlong_string. Qed.
Print Assumptions C64_strings_refuted.
Example C64_case : broken_response [esc "p=A"] broken_packet /\ GetTXT true (QAnswer broken_packet) = Ok (false, esc "p=A").
Proof. exact broken_case. Qed.
(** Exactly what is read from any packet, well-formed or not.  What the buffer holds behind the packet has no part in it. *)
Theorem C64_exact : forall lax pkt ok text, (N.of_nat (length pkt) <= 65536)%N ->
  GetTXT lax (QAnswer pkt) = Ok (ok, text) <-> packet_read lax pkt ok text.
Proof. exact GetTXT_exact. Qed.
Print Assumptions C64_exact.
Example C64_exact_case : packet_read true broken_packet false (esc "p=A") /\ packet_read false (firstn 11 broken_packet) true [].
Proof. split; apply GetTXT_exact; vm_compute; congruence. Qed.
