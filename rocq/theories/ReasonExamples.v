(** Concrete reasons for the examples beside C96, and reasons that are not the ones stated. *)
From Verif Require Import Bytes Outcome Stream TagList MailParser Canonicalization Util Crypto Signature PublicKey Validatory ErrorText Reasons BytesFacts SpecText SpecTags SpecSig SpecKey SpecError SpecReason
  TagListFacts SigFacts SigProps VerifyProps SignFacts Examples VerifyExamples.
Local Open Scope string_scope. Local Open Scope list_scope.

Definition says_of (now : Z) (e : bool) (h : header) : option bytes := Signature_what toy false now h (new_signature, e).
Ltac tags_here := apply field_tags_nv; [apply Nat.leb_le; vm_compute; reflexivity|vm_compute; reflexivity].
Ltac here := vm_compute; intuition congruence.

(** l= that is a positive number. *)
Lemma positive_length : exists h l, field_tags h l /\ has l "l" (str "9223372036854775808") /\
  says_of 1 false h = Some (str "Invalid body signed length; must be a positive number (l)").
Proof. exists (dkim_field (base_sig ++ "; l=9223372036854775808")). eexists. split; [tags_here|]. split; [here|vm_compute; reflexivity]. Qed.
(** l= that is small; errno is still set by an earlier call. *)
Lemma small_length : exists h l, field_tags h l /\ has l "l" (str "5") /\ says_of 1 false h = None /\
  says_of 1 true h = Some (str "Invalid body signed length; exceeds available storage size of unsigned long (l)").
Proof. exists (dkim_field (base_sig ++ "; l=5")). eexists. split; [tags_here|]. split; [here|split; vm_compute; reflexivity]. Qed.
(** l= of two digits. *)
Definition two_digits : string := "1                                                                              2".
Lemma few_digits : exists h l, field_tags h l /\ has l "l" (str two_digits) /\ length (filter (fun c => (48 <=? code c)%N && (code c <=? 57)%N) (str two_digits)) = 2 /\
  says_of 1 false h = Some (str "Invalid body signed length; exceeds 76 digits (l)").
Proof. exists (dkim_field (base_sig ++ "; l=" ++ two_digits)). eexists. split; [tags_here|]. split; [here|split; vm_compute; reflexivity]. Qed.
(** x= that is no time. *)
Lemma no_time : exists h l, field_tags h l /\ has l "x" (str "never") /\ says_of 1 false h = Some (str "Signature has expired (x)").
Proof. exists (dkim_field (base_sig ++ "; x=never")). eexists. split; [tags_here|]. split; [here|vm_compute; reflexivity]. Qed.
(** i= that is a local part. *)
Lemma no_at : exists h l, field_tags h l /\ has l "i" (str "joe") /\ says_of 1 false h = Some (str "Missing a local-part (i)").
Proof. exists (dkim_field (base_sig ++ "; i=joe")). eexists. split; [tags_here|]. split; [here|vm_compute; reflexivity]. Qed.
(** Two domains shown as the same. *)
Lemma shown_same : exists h l d, field_tags h l /\ says_of 1 false h = Some (str "Domain " ++ d ++ str " is not a (sub)domain of " ++ d ++ str " (i does not match d)").
Proof. exists (dkim_field (base_sig ++ "; i=joe@example.com=00evil")). eexists. exists (str "example.com"). split; [tags_here|]. vm_compute. reflexivity. Qed.
Lemma sig_cases :
  says_of 1 false (dkim_field "v=1; a=rsa-md5") = Some (str "Missing domain of the signing entity (d)") /\
  says_of 1 false (dkim_field "v=2; a=rsa-md5; d=a") = Some (str "Unsupported version 2 (v supports 1)") /\
  says_of 1 false (dkim_field "v=1; a=rsa-md5; d=a") = Some (str "Unsupported signature algorithm rsa-md5 (a supports rsa-sha1, rsa-sha256 and ed25519-sha256)") /\
  says_of 1 false (dkim_field "v=1; a=rsa-sha1; d=a; b=; bh=") = Some (str "Missing header signature (b)") /\
  says_of 1 false (dkim_field "v=1; a=rsa-sha1; d=a; b=YQ==; bh=; c=relaxed/strict") = Some (str "Unsupported canonicalization type strict (c supports simple, relaxed)") /\
  says_of 1 false (dkim_field "v=1; a=rsa-sha1; d=a; b=YQ==; bh=; h=to:cc") = Some (str "From: header must be included in signature") /\
  says_of 1 false (dkim_field "v=1; a=rsa-sha1; d=a; b=YQ==; bh=; h=to:: cc") = Some (str "Invalid list value (empty), expecting value at position 3") /\
  says_of 1 false (dkim_field "v=1; a=rsa-sha1; d=a; b=YQ==; bh=; h=from; i=x@b") = Some (str "Domain b is not a (sub)domain of a (i does not match d)") /\
  says_of 1 false (dkim_field "v=1; a=rsa-sha1; d=a; b=YQ==; bh=; h=from; l=5a") = Some (str "Invalid body signed length; failed numeric parsing (l)") /\
  says_of 1 false (dkim_field "v=1; a=rsa-sha1; d=a; b=YQ==; bh=; h=from; q=http") = Some (str "Unsupported query method http (q supports dns/txt)") /\
  says_of 1 false (dkim_field "v=1; a=rsa-sha1; d=a; b=YQ==; bh=; h=from") = Some (str "Missing query selector (s)") /\
  says_of 9 false (dkim_field "v=1; a=rsa-sha1; d=a; b=YQ==; bh=; h=from; s=k; x=8") = Some (str "Signature has expired (x)") /\
  says_of 8 false (dkim_field "v=1; a=rsa-sha1; d=a; b=YQ==; bh=; h=from; s=k; x=8") = None /\
  says_of 8 false (arc_field "i=51; a=rsa-sha1; d=a; b=YQ==; bh=; h=from; s=k; x=8") = Some (str "ARC instance (i) out of range 1-50").
Proof. repeat split; vm_compute; reflexivity. Qed.
Lemma tags_case : says_of 1 false (dkim_field "v=1; a=rsa-sha1; v=1") = Some (str "Duplicate tag name (v)").
Proof. vm_compute. reflexivity. Qed.
Definition key_says (r : bytes) : option bytes := PublicKey_what toy false r new_public_key.
Lemma key_cases :
  key_says (str "v=DKIM2; h=; p=") = Some (str "Unsupported version DKIM2 (v supports DKIM1)") /\
  key_says (str "h=; p=") = Some (str "Acceptable hash algorithms is empty (h)") /\
  key_says (str "h=sha1::sha256; p=") = Some (str "Invalid list value (empty), expecting value at position 5") /\
  key_says (str "k=dsa; p=") = Some (str "Unsupported key type dsa (k supports rsa and ed25519)") /\
  key_says (str "k=rsa; p=") = Some (str "Public key is revoked (p)") /\
  key_says (str "k=rsa; s=") = Some (str "Missing public key (p)") /\
  key_says (str "k=ed25519; p=YQ==; s=") = Some (str "Public ed25519 key could not be loaded") /\
  key_says (rsa_record ++ str "; s=") = Some (str "Service type is empty (s)") /\
  key_says (rsa_record ++ str "; t=y::s") = Some (str "Invalid list value (empty), expecting value at position 2").
Proof. repeat split; vm_compute; reflexivity. Qed.
(** The first signature of a message, as the tool meets it. *)
Definition tried (t : bytes) (answer : outcome (bool * bytes)) : option (option bytes) :=
  match new_validatory false V_DKIM (open_str t) with
  | Ok v => match v_sigs v with h :: _ => Some (try_what toy false 5 (fun _ => answer) h false v) | [] => None end
  | _ => None
  end.
Definition good_mail : bytes := sample_message "rsa-sha256" rsa_b.
Lemma tried_cases :
  tried good_mail (Ok (true, rsa_record)) = Some None /\
  tried good_mail (Ok (false, [])) = Some (Some (str "DNS query failed for s1._domainkey.ex.org")) /\
  tried good_mail (Ok (true, [])) = Some (Some (str "No key for signature s1._domainkey.ex.org")) /\
  tried good_mail (Ok (true, rsa_record ++ str "; h=sha1")) = Some (Some (str "Algorithm is not allowed")) /\
  tried good_mail (Ok (true, ed_record)) = Some (Some (str "Signature algorithm type mismatch")) /\
  tried good_mail (Ok (true, str "v=DKIM1; p=")) = Some (Some (str "Public key is revoked (p)")) /\
  tried (sample_message "rsa-sha256" (str "YQ==")) (Ok (true, rsa_record)) = Some (Some (str "Signature did not verify")) /\
  tried (good_mail ++ str "more") (Ok (true, rsa_record)) = Some (Some (str "Body hash did not verify")).
Proof. repeat split; vm_compute; reflexivity. Qed.
Lemma field_cases : filter_what false (esc "a\rb: c") = str "CR without matching LF, 0x62 at position 2" /\
  filter_what false (esc "a\rB: c") = str "CR without matching LF, 0x62 at position 2" /\ filter_what false (esc "a: \rB") = str "CR without matching LF, 0x42 at position 4" /\
  filter_what false (esc "abc") = str "Header field abc is missing the colon separator".
Proof. repeat split; vm_compute; reflexivity. Qed.
(** A capital letter behind a CR in the name is named as the small one. *)
Lemma case_named : exists t, ~ In "b"%char t /\ FilterHeader false RELAXED t = perm /\ filter_what false t = str "CR without matching LF, 0x62 at position 2".
Proof. exists (esc "a\rB: c"). split; [|split; vm_compute; reflexivity]. vm_compute. intuition discriminate. Qed.
