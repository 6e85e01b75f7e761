(** Model of src/Signatory.cpp. *)
From Verif Require Import Bytes Outcome Stream QuotedPrintable Base64 MailParser Canonicalization
  Util CStdlib Crypto SignatoryOptions.

(** DKIM::Signatory, Signatory.hpp: the message being parsed and the stream. *)
Record signatory := mkSignatory { y_msg : message; y_file : istream }.
Definition new_signatory (s : istream) : signatory := mkSignatory new_message s.

Fixpoint omap {A B} (f : A -> outcome B) (l : list A) : outcome (list B) :=
  match l with
  | [] => Ok []
  | a :: r => let* b := f a in let* bs := omap f r in Ok (b :: bs)
  end.

(** The loop over the headers in reverse, Signatory.cpp:119-134: what is hashed and
    signedHeaders. *)
Fixpoint sign_headers (strict : bool) (mode : canon_mode) (toSign : list bytes) (hs : list header)
  : outcome (bytes * list bytes) :=
  match hs with
  | [] => Ok ([], [])
  | h :: r =>
      let* name := lower_str strict (h_name h) in
      let skip := sign_headers strict mode toSign r in
      match name with
      | [] => skip
      | _ =>
          if negb (match toSign with [] => true | _ => false end) && negb (memb name toSign) then skip
          else
            let* c := FilterHeader strict mode (h_text h) in
            let* (d, names) := sign_headers strict mode toSign r in
            Ok ((c ++ CRLF) ++ d, name :: names)
      end
  end.

Definition in_int64 (z : Z) : bool := ((LONG_MIN <=? z) && (z <=? LONG_MAX))%Z.

(** The t= and x= tags, Signatory.cpp:153-165.  [now] is what time(nullptr) returns; it is
    called at most once. *)
Definition time_tags (o : options) (now : Z) : outcome bytes :=
  let timestamp := if o_tssign o then (if (o_ts o =? -1)%Z then now else o_ts o) else (-1)%Z in
  let t := if o_tssign o then str " t=" ++ fmt_lu_time timestamp ++ str ";" else [] in
  if o_exsign o then
    let base := if o_exabs o then 0%Z else if (timestamp =? -1)%Z then now else timestamp in
    let e := (base + o_ex o)%Z in
    if in_int64 e then Ok (t ++ str " x=" ++ fmt_lu_time e ++ str ";") else UB UB_overflow
  else Ok t.

(** The h= list, Signatory.cpp:179-191: [out] is what went to dkimHeader, [cur] is headerlist. *)
Fixpoint h_list (first : bool) (names : list bytes) (cur out : bytes) : bytes * bytes :=
  match names with
  | [] => (out, cur)
  | i :: r =>
      let colon := if first then [] else [COLON] in
      if Nat.ltb 80 (length cur + length i + length colon)
      then h_list false r (HT :: SP :: i) (out ++ cur ++ colon ++ CRLF)
      else h_list false r (cur ++ colon ++ i) out
  end.

(** dkimHeader up to and including "\tb=", Signatory.cpp:144-194. *)
Definition sig_template (o : options) (s : sig_options) (now : Z) (names : list bytes) (bh : bytes)
  : outcome bytes :=
  let start :=
    (if (o_arc o =? 0)%N then str "DKIM-Signature: v=1; a="
     else str "ARC-Message-Signature: i=" ++ fmt_lu (o_arc o) ++ str "; a=")
    ++ Algorithm2String (so_alg (o_main o)) (o_digest o) ++ str "; c="
    ++ CanonMode2String (o_chead o) ++ str "/" ++ CanonMode2String (o_cbody o) ++ str ";" in
  let* tx := time_tags o now in
  let limit := if o_signlen o then str "; l=" ++ fmt_lu (o_bodylen o) else [] in
  let identity := match o_identity o with
                  | [] => []
                  | i => str "; i=" ++ c_str (qp_encode i)
                  end in
  let '(hl, cur) := h_list true names (HT :: str "h=") [] in
  Ok (start ++ tx ++ CRLF
      ++ [HT] ++ str "d=" ++ so_domain s ++ str "; s=" ++ so_selector s ++ identity ++ limit ++ str ";" ++ CRLF
      ++ hl ++ cur ++ str ";" ++ CRLF
      ++ [HT] ++ str "bh=" ++ Base64_Encode bh ++ str ";" ++ CRLF
      ++ [HT] ++ str "b=").

(** The signing call, Signatory.cpp:208-249. *)
Definition make_signature (C : crypto) (o : options) (s : sig_options) (md : bytes) : outcome bytes :=
  match so_alg s with
  | RSA => match so_rsa s with
           | None => perm
           | Some k => match c_rsa_sign C (o_digest o) md k with Some x => Ok x | None => perm end
           end
  | ED25519 =>
      let* k := c_read 64 (so_ed s) in
      match c_ed_sign C md k with Some x => Ok x | None => perm end
  end.

(** The folding of b=, Signatory.cpp:251-260. *)
Fixpoint fold_b (fuel : nat) (offset : nat) (split : bytes) : bytes :=
  match fuel with
  | O => []
  | S f =>
      match split with
      | [] => []
      | _ => let rest := skipn (80 - offset) split in
             firstn (80 - offset) split
             ++ match rest with [] => [] | _ => CRLF ++ [HT; SP] ++ fold_b f 2 rest end
      end
  end.

(** One signature, Signatory.cpp:143-261. *)
Definition one_signature (C : crypto) (strict : bool) (o : options) (now : Z) (hashed : bytes)
  (names : list bytes) (bh : bytes) (s : sig_options) : outcome bytes :=
  let* t := sig_template o s now names bh in
  let* c := FilterHeader strict (o_chead o) t in
  let md := digest C (o_digest o) (hashed ++ c) in
  let* x := make_signature C o s md in
  let e := Base64_Encode x in
  Ok (t ++ fold_b (S (length e)) 3 e).

(** The loop over the signatures, Signatory.cpp:140-265; [sigs] is already reversed; [n] numbers
    the readings of the clock. *)
Fixpoint all_sigs (C : crypto) (strict : bool) (o : options) (clock : nat -> Z) (n : nat)
  (hashed : bytes) (names : list bytes) (bh : bytes) (sigs : list sig_options) (acc : bytes)
  : outcome bytes :=
  match sigs with
  | [] => Ok acc
  | s :: r =>
      let* h := one_signature C strict o (clock n) hashed names bh s in
      all_sigs C strict o clock (S n) hashed names bh r
        (match acc with [] => h | _ => acc ++ CRLF ++ h end)
  end.

(** Signatory::CreateSignature, Signatory.cpp:55-267. *)
Definition CreateSignature (C : crypto) (strict : bool) (clock : nat -> Z) (o : options)
  (y : signatory) : signatory * outcome bytes :=
  match parse_all (y_msg y) (y_file y) with
  | Ok (m, s) =>
      match CanonicalizationBody s (o_cbody o) (m_offset m) (o_signlen o) (o_bodylen o) with
      | Ok (chunks, ok, s1) =>
          (mkSignatory m s1,
           if (ok : bool) then
             let bh := digest_chunks C (o_digest o) chunks in
             let* toSign := omap (lower_str strict) (o_headers o) in
             let* (hashed, names) := sign_headers strict (o_chead o) toSign (rev (m_headers m)) in
             let* over := omap (lower_str strict) (o_oversign o) in
             all_sigs C strict o clock 0 hashed (names ++ over) bh (rev (all_signatures o)) []
           else perm)
      | Throw e => (mkSignatory m s, Throw e)
      | UB k => (mkSignatory m s, UB k)
      | Diverge => (mkSignatory m s, Diverge)
      end
  | Throw e => (y, Throw e)
  | UB k => (y, UB k)
  | Diverge => (y, Diverge)
  end.
