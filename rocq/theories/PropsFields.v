(** Properties C56 (reading) and C66-C70: the fields that signing returns, and the name that verifying looks up. *)
From Verif Require Import Bytes Outcome Stream Base64 TagList MailParser Canonicalization Util Crypto Signature PublicKey SignatoryOptions Signatory
  Validatory SpecText SpecTags SpecMail SpecCanon SpecVerify SpecSig SpecKey SpecOptions SpecSign SpecBase64 SpecFields SpecLegible MailFacts BodyFacts BodyProps SigProps SignRound SignProps FieldsProps FieldsExamples ReadBack ReadBackExamples
  SenderFacts VerifyExamples SignExamples MoreFacts SpecPass FieldLines Examples.
Local Open Scope string_scope.
Local Open Scope list_scope.

(** C66.  The fields are returned last signature first. *)
Theorem C66_tags : forall C strict clock o t y H m s b out, signs_something C -> parse_all new_message (open_str t) = Ok (m, s) ->
  CreateSignature C strict clock o (new_signatory (open_str t)) = (y, Ok H) ->
  Forall (plain_options o) (all_signatures o) -> Forall signable_name (listed_names h_name o (m_headers m)) ->
  message_body t b -> canonical_body (is_relaxed (o_cbody o)) b out ->
  exists fields, H = joined fields /\ length fields = length (all_signatures o) /\
  forall i q x, nth_error (rev (all_signatures o)) i = Some q -> nth_error fields i = Some x ->
  exists tags d z, field_tags (header_of x) tags /\ h_name (header_of x) = field_name o /\ make_signature C o q d = Ok z /\
    says o q (clock i) (listed_names h_name o (m_headers m)) (digest C (o_digest o) (cut (o_signlen o) (o_bodylen o) out)) z tags.
Proof. exact fields_say. Qed.
Print Assumptions C66_tags.
(** The hypothesis on the options holds after any calls of the setters, unless they make the options
    those of a forwarder with an identity. *)
Theorem C66_options : forall C l, let o := run_ops C l new_options in (o_arc o <> 0%N -> o_identity o = []) -> Forall (plain_options o) (all_signatures o).
Proof. exact plain_history. Qed.
Print Assumptions C66_options.
(** Then the fields have two tags i=, and nothing reads them. *)
Theorem C66_two_instances : forall C strict clock l t y H m s, let o := run_ops C l new_options in o_arc o <> 0%N -> o_identity o <> [] ->
  signs_something C -> parse_all new_message (open_str t) = Ok (m, s) ->
  CreateSignature C strict clock o (new_signatory (open_str t)) = (y, Ok H) ->
  Forall signable_name (listed_names h_name o (m_headers m)) ->
  exists fields, H = joined fields /\ length fields = length (all_signatures o) /\
  Forall (fun x => h_name (header_of x) = field_name o /\
    forall C' strict' now e0, snd (Signature_Parse C' strict' now (header_of x) (new_signature, e0)) = Throw (PermanentError AR_PERMERROR)) fields.
Proof. exact fields_two_instances. Qed.
Print Assumptions C66_two_instances.
Example C66_case : exists y H m s, parse_all new_message (open_str letter) = Ok (m, s) /\
  CreateSignature toy true (fun _ => 5%Z) full (new_signatory (open_str letter)) = (y, Ok H) /\
  Forall (plain_options full) (all_signatures full) /\ Forall signable_name (listed_names h_name full (m_headers m)) /\
  tag_order full = map str ["v"; "a"; "c"; "t"; "x"; "d"; "s"; "i"; "l"; "h"; "bh"; "b"].
Proof. exact full_says. Qed.

(** C56.  Exactly when each of the fields is read, with any base64 decoder and on any platform. *)
Theorem C56_read_exact : forall C strict clock o t y H m s, signs_something C -> parse_all new_message (open_str t) = Ok (m, s) ->
  CreateSignature C strict clock o (new_signatory (open_str t)) = (y, Ok H) ->
  Forall (plain_options o) (all_signatures o) -> Forall signable_name (listed_names h_name o (m_headers m)) ->
  exists fields, H = joined fields /\ length fields = length (all_signatures o) /\
  forall i q x, nth_error (rev (all_signatures o)) i = Some q -> nth_error fields i = Some x ->
  forall C' strict' now e0, snd (Signature_Parse C' strict' now (header_of x) (new_signature, e0)) = Ok tt <->
    legible strict' o q (listed_names h_name o (m_headers m)) (clock i) now e0.
Proof. exact fields_read. Qed.
Print Assumptions C56_read_exact.
Example C56_read_case : exists y H m s, parse_all new_message (open_str letter) = Ok (m, s) /\
  CreateSignature toy true (fun _ => 5%Z) full (new_signatory (open_str letter)) = (y, Ok H) /\
  Forall (plain_options full) (all_signatures full) /\ Forall signable_name (listed_names h_name full (m_headers m)) /\
  Forall (fun q => legible true full q (listed_names h_name full (m_headers m)) 5 15 false /\
                   ~ legible true full q (listed_names h_name full (m_headers m)) 5 16 false /\
                   ~ legible true full q (listed_names h_name full (m_headers m)) 5 15 true) (all_signatures full).
Proof. exact full_legible. Qed.

(** C67.  With a relative expiry in the future. *)
Theorem C67_later_partial : forall C strict clock o t y H m s, signs_something C -> parse_all new_message (open_str t) = Ok (m, s) ->
  CreateSignature C strict clock o (new_signatory (open_str t)) = (y, Ok H) ->
  Forall (plain_options o) (all_signatures o) -> Forall signable_name (listed_names h_name o (m_headers m)) ->
  o_tssign o = true -> o_exsign o = true -> o_exabs o = false -> (0 < o_ex o)%Z ->
  (forall i, 0 <= if (o_ts o =? -1)%Z then clock i else o_ts o)%Z ->
  exists fields, H = joined fields /\ length fields = length (all_signatures o) /\
  forall i x, nth_error fields i = Some x -> exists tags a b, field_tags (header_of x) tags /\ has_number tags "t" a /\ has_number tags "x" b /\
    (a < b)%N /\ (o_ts o = (-1)%Z -> (clock i < Z.of_N b)%Z).
Proof. exact fields_times. Qed.
Print Assumptions C67_later_partial.
Example C67_case : stamped (with_rsa [SetTimestamp (-1); SetExpiration 10 false]) 5 15.
Proof. exact stamp_good. Qed.
(** Exactly when: [made] is the time of signing, [ends] the time of expiry, both of type time_t. *)
Theorem C67_exact : forall C strict clock o t y H m s, signs_something C -> parse_all new_message (open_str t) = Ok (m, s) ->
  CreateSignature C strict clock o (new_signatory (open_str t)) = (y, Ok H) ->
  Forall (plain_options o) (all_signatures o) -> Forall signable_name (listed_names h_name o (m_headers m)) ->
  o_tssign o = true -> o_exsign o = true ->
  exists fields, H = joined fields /\ length fields = length (all_signatures o) /\
  forall i x, nth_error fields i = Some x ->
  let made := (if o_ts o =? -1 then clock i else o_ts o)%Z in let ends := (if o_exabs o then o_ex o else made + o_ex o)%Z in
  (- 9223372036854775808 <= made < 9223372036854775808)%Z ->
  exists tags a b, field_tags (header_of x) tags /\ has_number tags "t" a /\ has_number tags "x" b /\
    ((a < b)%N <-> (0 <= made /\ (ends < 0 \/ made < ends) \/ made < 0 /\ ends < 0 /\ made < ends)%Z).
Proof. exact fields_times_exact. Qed.
Print Assumptions C67_exact.
(** An absolute expiry before the time of signing, which no verifier accepts. *)
Theorem C67_absolute_refuted : exists l, stamped (with_rsa l) 100 3 /\ unverifiable (with_rsa l) letter V_DKIM 0 rsa_pub.
Proof. exact (ex_intro (fun l => stamped (with_rsa l) 100 3 /\ unverifiable (with_rsa l) letter V_DKIM 0 rsa_pub) _ (conj stamp_absolute absolute_expired)). Qed.
Print Assumptions C67_absolute_refuted.
Theorem C67_zero_refuted : exists l, stamped (with_rsa l) 5 5.
Proof. exact (ex_intro (fun l => stamped (with_rsa l) 5 5) _ stamp_zero). Qed.
Print Assumptions C67_zero_refuted.
Theorem C67_back_refuted : exists l, stamped (with_rsa l) 100 90.
Proof. exact (ex_intro (fun l => stamped (with_rsa l) 100 90) _ stamp_back). Qed.
Print Assumptions C67_back_refuted.
(** Negative times wrap around. *)
Theorem C67_negative_refuted : exists l, stamped (with_rsa l) 18446744073709551614 8.
Proof. exact (ex_intro (fun l => stamped (with_rsa l) 18446744073709551614 8) _ stamp_negative). Qed.
Print Assumptions C67_negative_refuted.

(** C68.  Whatever the message and the calls of the setters, but for line breaks in oversigned names:
    lines begin with a blank, a colon or a semicolon. *)
Theorem C68_lines_partial : forall C strict clock l t y H, let o := run_ops C l new_options in
  (forall n, In n (o_oversign o) -> ~ In LF n) -> CreateSignature C strict clock o (new_signatory (open_str t)) = (y, Ok H) ->
  exists fields, H = joined fields /\ length fields = length (all_signatures o) /\
  Forall (fun x => (exists r, x = field_name o ++ COLON :: r) /\ line_starts (fun c => WSP c \/ c = COLON \/ c = SEMI) x) fields.
Proof. exact fields_no_injection. Qed.
Print Assumptions C68_lines_partial.
(** With a blank, if no name of a signed field ends in a fold. *)
Theorem C68_folded_partial : forall C strict clock l t y H m s, let o := run_ops C l new_options in
  (forall n, In n (o_oversign o) -> ~ In LF n) -> parse_all new_message (open_str t) = Ok (m, s) ->
  (forall h, In h (m_headers m) -> chosen o (h_name h) -> forall a, h_name h <> a ++ [LF]) ->
  CreateSignature C strict clock o (new_signatory (open_str t)) = (y, Ok H) ->
  exists fields, H = joined fields /\ length fields = length (all_signatures o) /\
  Forall (fun x => (exists r, x = field_name o ++ COLON :: r) /\ line_starts WSP x) fields.
Proof. exact fields_unbroken'. Qed.
Print Assumptions C68_folded_partial.
Example C68_case : exists H a b, sign toy (with_rsa []) letter = Ok H /\ H = a ++ CRLF ++ HT :: b.
Proof. exact letter_folds. Qed.
(** Exactly: what is returned are header fields of their own if and only if no name of a signed field ends in a fold and all lines of
    the oversigned names begin with a blank. *)
Theorem C68_exact : forall C strict clock l t fs y H, let o := run_ops C l new_options in has_fields t fs ->
  CreateSignature C strict clock o (new_signatory (open_str t)) = (y, Ok H) ->
  exists fields, H = joined fields /\ length fields = length (all_signatures o) /\
  Forall (fun x => (exists r, x = field_name o ++ COLON :: r) /\
    (line_starts WSP x <-> (forall h, In h fs -> chosen o (h_name h) -> forall a, h_name h <> a ++ [LF]) /\ Forall (line_starts WSP) (o_oversign o))) fields.
Proof. exact fields_exact. Qed.
Print Assumptions C68_exact.
Example C68_exact_case : exists fs h a, has_fields folded_name fs /\ In h fs /\ h_name h = a ++ [LF].
Proof. exact folded_fields. Qed.
(** A name ending in a fold breaks the field and the signature. *)
Theorem C68_message_refuted : exists t, (exists H a b, sign toy (with_rsa [SetHeaders []]) t = Ok H /\ H = a ++ CRLF ++ COLON :: b) /\
  unverifiable (with_rsa [SetHeaders []]) t V_DKIM 0 rsa_pub.
Proof. exact (ex_intro _ folded_name (conj folded_name_breaks folded_name_fails)). Qed.
Print Assumptions C68_message_refuted.
(** A line break in an oversigned name adds a header field. *)
Theorem C68_oversign_refuted : exists l H a b, sign toy (with_rsa l) letter = Ok H /\ H = a ++ esc "\r\nbcc: b@ex.org;\r\n" ++ b.
Proof. exact (ex_intro _ [SetOversignHeaders [esc "x\r\nBcc: b@ex.org"]] oversign_breaks). Qed.
Print Assumptions C68_oversign_refuted.

(** C69.  Signing, unless SHA1 is asked for; verifying, if the record lists other hashes: C34_hash_partial. *)
Theorem C69_signing_partial : forall C strict clock l t y H m s, let o := run_ops C l new_options in
  (forall x, In x l -> x <> SetDigestAlgorithm SHA1) -> signs_something C -> parse_all new_message (open_str t) = Ok (m, s) ->
  CreateSignature C strict clock o (new_signatory (open_str t)) = (y, Ok H) ->
  (o_arc o <> 0%N -> o_identity o = []) -> Forall signable_name (listed_names h_name o (m_headers m)) ->
  exists fields, H = joined fields /\ length fields = length (all_signatures o) /\
  Forall (fun x => exists tags, field_tags (header_of x) tags /\ (has tags "a" (str "rsa-sha256") \/ has tags "a" (str "ed25519-sha256"))) fields.
Proof. exact fields_sha256. Qed.
Print Assumptions C69_signing_partial.
Theorem C69_sha1_refuted : exists H tags, sign toy (with_rsa [SetDigestAlgorithm SHA1]) letter = Ok H /\ field_tags (header_of H) tags /\ has tags "a" (str "rsa-sha1") /\
  accepts toy true V_DKIM 6%Z (H ++ CRLF ++ letter) 0 rsa_pub = Ok tt.
Proof. exact sha1_accepted. Qed.
Print Assumptions C69_sha1_refuted.

(** C70.  The answer for one name is used, made of the values of s= and d=. *)
Theorem C70_name_partial : forall C strict now h e0 g e1, Signature_Parse C strict now h (new_signature, e0) = ((g, e1), Ok tt) ->
  exists l d s, field_tags h l /\ has l "d" d /\ has l "s" s /\
  forall resolve resolve' p, resolve (s ++ str "._domainkey." ++ map low d) = resolve' (s ++ str "._domainkey." ++ map low d) ->
    GetPublicKey C strict resolve g p = GetPublicKey C strict resolve' g p.
Proof. exact looked_up. Qed.
Print Assumptions C70_name_partial.
(** A line break and blanks in the name. *)
Theorem C70_blank_refuted : exists h l g, field_tags h l /\ has l "d" (esc "ex \r\n ample.org") /\ Signature_Parse toy true 1 h (new_signature, false) = ((g, false), Ok tt) /\
  key_query g = esc "s1._domainkey.ex \r\n ample.org".
Proof. exact blank_domain. Qed.
Print Assumptions C70_blank_refuted.
Theorem C70_selector_refuted : exists h l g, field_tags h l /\ has l "s" (esc "a.b,*/c") /\ Signature_Parse toy true 1 h (new_signature, false) = ((g, false), Ok tt) /\
  key_query g = esc "a.b,*/c._domainkey.ex.org".
Proof. exact other_selector. Qed.
Print Assumptions C70_selector_refuted.
Example C70_case : exists h l g, field_tags h l /\ has l "d" [] /\ Signature_Parse toy true 1 h (new_signature, false) = ((g, false), Ok tt) /\
  key_query g = esc "s1._domainkey.".
Proof. exact empty_domain. Qed.
