(** Properties C40, C41: the signing options. *)
From Verif Require Import Bytes Outcome Util Canonicalization Crypto SignatoryOptions SpecText SpecOptions OptionsFacts SigOptFacts Examples.

(** C40. *)
Theorem C40_domain : forall d s, (snd (so_setdomain d s) = Ok tt <-> dotted d) /\
  (dotted d -> fst (so_setdomain d s) = put_domain d s) /\
  (~ dotted d -> so_setdomain d s = (s, Throw (PermanentError AR_PERMERROR))).
Proof. exact domain_iff. Qed.
Print Assumptions C40_domain.
Theorem C40_selector : forall d s, (snd (so_setselector d s) = Ok tt <-> dotted d) /\
  (dotted d -> fst (so_setselector d s) = put_selector d s) /\
  (~ dotted d -> so_setselector d s = (s, Throw (PermanentError AR_PERMERROR))).
Proof. exact selector_iff. Qed.
Print Assumptions C40_selector.
Example C40_case : snd (so_setdomain (esc "a-b.example") new_sig_options) = Ok tt /\
  snd (so_setdomain (esc "a-.example") new_sig_options) = perm /\ snd (so_setselector (esc "a..b") new_sig_options) = perm /\
  snd (so_setselector [] new_sig_options) = perm /\ snd (so_setselector (esc "_a") new_sig_options) = perm.
Proof. vm_compute. auto. Qed.

(** C41.  [run_ops C l new_options]: the object after the calls [l]; DKIM errors are caught.
    [getters] is in SpecOptions.v. *)
Theorem C41_getters : forall C l, getters l (run_ops C l new_options).
Proof. exact options_getters. Qed.
Print Assumptions C41_getters.
(** The first of the signatures is the main one; a call on one of them changes no other. *)
Theorem C41_main_first : forall o, nth_error (all_signatures o) 0 = Some (o_main o).
Proof. exact (fun o => eq_refl). Qed.
Print Assumptions C41_main_first.
Theorem C41_on_main : forall C m o, o_main (fst (run_op C (OnMain m) o)) = fst (run_sig_op C m (o_main o)) /\
  o_more (fst (run_op C (OnMain m) o)) = o_more o.
Proof. exact on_main. Qed.
Print Assumptions C41_on_main.
Theorem C41_on_more : forall C n m o s, nth_error (o_more o) n = Some s ->
  o_main (fst (run_op C (OnMore n m) o)) = o_main o /\
  forall k, nth_error (o_more (fst (run_op C (OnMore n m) o))) k =
    if Nat.eqb k n then Some (fst (run_sig_op C m s)) else nth_error (o_more o) k.
Proof. exact on_more. Qed.
Print Assumptions C41_on_more.
(** Each signature, main or additional, is what the calls on it say, keys included. *)
Theorem C41_signatures : forall C l n s, refs_known 0 l -> nth_error (all_signatures (run_ops C l new_options)) n = Some s ->
  sig_getters C (calls_on n l) s.
Proof. exact signature_getters. Qed.
Print Assumptions C41_signatures.
Example C41_signatures_case : let l := [AddAdditionalSignature; OnMore 0 (SetRSAPrivateKey (Some (esc "k"))); OnMain (SetDomain (esc "a.b"));
    OnMore 0 (SetSignatureAlgorithm ED25519); OnMore 0 (SetPrivateKey (repeat (chr 65) 64))] in
  refs_known 0 l /\ map so_rsa (all_signatures (run_ops toy l new_options)) = [None; Some (esc "k")] /\
  map (fun s => length (so_ed s)) (all_signatures (run_ops toy l new_options)) = [0; 64] /\ length (calls_on 1 l) = 3.
Proof. split; [repeat (constructor; try discriminate); auto|vm_compute; auto]. Qed.
(** Which keys are loaded, and what is changed then. *)
Theorem C41_key : forall C key s s1, so_SetPrivateKey C key s = Ok s1 <->
  match so_alg s with
  | RSA => exists k, s1 = mkSO (Some k) (so_ed s) RSA (so_domain s) (so_selector s) /\
             (if is_pem key then c_pem_private C key = Some (Some k) else c_der_private C (b64d C key) = Some k)
  | ED25519 => exists k, s1 = mkSO (so_rsa s) k ED25519 (so_domain s) (so_selector s) /\
             (ed_octets C key k \/ length key <> 64 /\ length key <> 32 /\ ed_octets C (b64d C key) k)
  end.
Proof. exact key_loaded. Qed.
Print Assumptions C41_key.
(** A call that fails changes nothing, except loading an RSA key that is not PEM. *)
Theorem C41_failed_partial : forall C x o, snd (run_op C x o) <> Ok tt -> ~ der_call x o -> fst (run_op C x o) = o.
Proof. exact op_failed. Qed.
Print Assumptions C41_failed_partial.
Theorem C41_failed_refuted : exists C x o, snd (run_op C x o) <> Ok tt /\ fst (run_op C x o) <> o /\
  so_rsa (o_main o) <> None /\ so_rsa (o_main (fst (run_op C x o))) = None.
Proof. exact failed_key_dropped. Qed.
Print Assumptions C41_failed_refuted.
Example C41_case : let o := run_ops toy [SetDigestAlgorithm SHA1; OnMain (SetDomain (esc "a..b")); AddHeaders [esc "x"]; SetDigestAlgorithm SHA256;
    DelHeaders [esc "from"]; OnMain (SetDomain (esc "a.b")); AddAdditionalSignature; OnMore 0 (SetDomain (esc "c"))] new_options in
  o_digest o = SHA256 /\ so_domain (o_main o) = esc "a.b" /\ map so_domain (all_signatures o) = [esc "a.b"; esc "c"] /\
  hd [] (o_headers o) = esc "sender" /\ last (o_headers o) [] = esc "x".
Proof. vm_compute. auto. Qed.
