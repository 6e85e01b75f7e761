(** The texts of the exceptions of Signatory and SignatoryOptions, and what tools/src/main.cpp prints when it signs. *)
From Verif Require Import Bytes Outcome Stream MailParser Canonicalization Util CStdlib Crypto SignatoryOptions Signatory Tool Reasons.

(** ** Signatory::CreateSignature *)
(** Signatory.cpp:119-134. *)
Fixpoint fields_what (strict : bool) (mode : canon_mode) (toSign : list bytes) (hs : list header) : bytes :=
  match hs with
  | [] => []
  | h :: r =>
      match lower_str strict (h_name h) with
      | Ok name =>
          let skip := fields_what strict mode toSign r in
          match name with
          | [] => skip
          | _ => if negb (match toSign with [] => true | _ => false end) && negb (memb name toSign) then skip
                 else match FilterHeader strict mode (h_text h) with
                      | Ok _ => skip
                      | _ => filter_what strict (h_text h)
                      end
          end
      | _ => []
      end
  end.
(** Signatory.cpp:214-215, 227-231, 240-245. *)
Definition make_what (s : sig_options) : bytes :=
  match so_alg s, so_rsa s with RSA, None => str "No RSA key provided" | _, _ => str "Message could not be signed" end.
(** Signatory.cpp:196-249. *)
Definition one_what (strict : bool) (o : options) (now : Z) (names : list bytes) (bh : bytes) (s : sig_options) : bytes :=
  match sig_template o s now names bh with
  | Ok t => match FilterHeader strict (o_chead o) t with Ok _ => make_what s | _ => filter_what strict t end
  | _ => []
  end.
Fixpoint sigs_what (C : crypto) (strict : bool) (o : options) (clock : nat -> Z) (n : nat)
  (hashed : bytes) (names : list bytes) (bh : bytes) (sigs : list sig_options) : bytes :=
  match sigs with
  | [] => []
  | s :: r => match one_signature C strict o (clock n) hashed names bh s with
              | Ok _ => sigs_what C strict o clock (S n) hashed names bh r
              | _ => one_what strict o (clock n) names bh s
              end
  end.
(** The text, when CreateSignature throws; Signatory.cpp:72-80 first. *)
Definition create_what (C : crypto) (strict : bool) (clock : nat -> Z) (o : options) (y : signatory) : bytes :=
  match parse_all (y_msg y) (y_file y) with
  | Ok (m, s) =>
      match CanonicalizationBody s (o_cbody o) (m_offset m) (o_signlen o) (o_bodylen o) with
      | Ok (chunks, false, _) => str "Body sign limit exceed the size of the canonicalized message length"
      | Ok (chunks, true, _) =>
          match omap (lower_str strict) (o_headers o) with
          | Ok toSign =>
              match sign_headers strict (o_chead o) toSign (rev (m_headers m)) with
              | Ok (hashed, names) =>
                  match omap (lower_str strict) (o_oversign o) with
                  | Ok over => sigs_what C strict o clock 0 hashed (names ++ over) (digest_chunks C (o_digest o) chunks) (rev (all_signatures o))
                  | _ => []
                  end
              | _ => fields_what strict (o_chead o) toSign (rev (m_headers m))
              end
          | _ => []
          end
      | _ => []
      end
  | _ => []
  end.

(** ** The setters *)
(** SignatoryOptions.cpp:90-160, 320-390; that BIO_new fails (100, 330) is not modelled. *)
Definition key_what (C : crypto) (key : bytes) (s : sig_options) : bytes :=
  match so_alg s with
  | RSA => if beqb (firstn 5 key) (str "-----") then
             match c_pem_private C key with
             | Some _ => str "Private key could not be loaded (key type must be RSA/RSA2)"
             | None => str "RSA key could not be loaded from PEM"
             end
           else str "RSA key could not be loaded from DER"
  | ED25519 => str "ED25519 key could not be loaded as Base64"
  end.
(** And 169-185, 296-312. *)
Definition sig_op_what (C : crypto) (m : sig_op) (s : sig_options) : bytes :=
  match m with
  | SetPrivateKey k => key_what C k s
  | SetDomain _ => str "Invalid domain (d=)"
  | SetSelector _ => str "Invalid selector (s=)"
  | SetRSAPrivateKey _ | SetSignatureAlgorithm _ => []
  end.
Definition op_what (C : crypto) (x : op) (o : options) : bytes :=
  match x with
  | OnMain m => sig_op_what C m (o_main o)
  | OnMore n m => match nth_error (o_more o) n with Some s => sig_op_what C m s | None => [] end
  | _ => []
  end.
Fixpoint chain_what (C : crypto) (l : list op) (o : options) : bytes :=
  match l with
  | [] => []
  | x :: r => match run_op C x o with (o1, Ok _) => chain_what C r o1 | _ => op_what C x o end
  end.

(** ** The tool, main.cpp:131-164: what is written to standard error. *)
Definition sign_err (C : crypto) (strict : bool) (clock : nat -> Z) (a : tool_args) (key message : option bytes) : bytes :=
  match key with
  | None => str "keyfile " ++ c_str (a_keyfile a) ++ str " could not be open" ++ [LF]
  | Some k =>
      match chain C (tool_ops a k) new_options with
      | Ok o =>
          match snd (CreateSignature C strict clock o (new_signatory (open_file message))) with
          | Throw (PermanentError _) | Throw (TemporaryError _) => c_str (create_what C strict clock o (new_signatory (open_file message))) ++ [LF]
          | _ => []
          end
      | Throw (PermanentError _) | Throw (TemporaryError _) => c_str (chain_what C (tool_ops a k) new_options) ++ [LF]
      | _ => []
      end
  end.
