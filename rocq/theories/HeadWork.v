(** How much of the header is hashed while signatures are checked or made: the bytes given to EVP_DigestUpdate for
    fields, also when the call fails later. *)
From Verif Require Import Bytes Outcome Stream MailParser Canonicalization Util Crypto Signature PublicKey SignatoryOptions Signatory Validatory.

(** The loop over h=, Validatory.cpp:218-238. *)
Fixpoint fields_work (strict : bool) (mode : canon_mode) (names : list bytes) (c : cache) : nat :=
  match names with
  | [] => 0
  | n :: r =>
      match lower_str strict n with
      | Ok name =>
          match cache_pop name c with
          | None => fields_work strict mode r c
          | Some (h, c1) =>
              match FilterHeader strict mode (h_text h) with
              | Ok x => length (x ++ CRLF) + fields_work strict mode r c1
              | _ => 0
              end
          end
      | _ => 0
      end
  end.
(** CheckSignature, Validatory.cpp:172-252. *)
Definition header_work (strict : bool) (h : header) (g : signature) (p : public_key) (v : validatory) : nat :=
  if key_allows g p then
    match build_cache strict (m_headers (v_msg v)) [] with
    | Ok c =>
        fields_work strict (sg_chead g) (sg_headers g) c +
        match hash_headers strict (sg_chead g) (sg_headers g) c with
        | Ok _ =>
            match (let* val := substr_from (h_text h) (h_voff h) in
                   let* val1 := strip_b g val in
                   FilterHeader strict (sg_chead g) (firstn (h_voff h) (h_text h) ++ val1)) with
            | Ok x => length x
            | _ => 0
            end
        | _ => 0
        end
    | _ => 0
    end
  else 0.

(** GetSignature, GetPublicKey and CheckSignature for one field after the other, as in main.cpp:175-184. *)
Fixpoint headers_work (C : crypto) (strict : bool) (clock : nat -> Z) (resolve : bytes -> outcome (bool * bytes)) (hs : list header)
  (v : validatory) (n : nat) (errno : bool) : nat :=
  match hs with
  | [] => 0
  | h :: r =>
      let '(v1, st, o) := GetSignature C strict (clock n) h (new_signature, errno) v in
      match o with
      | Ok _ =>
          match GetPublicKey C strict resolve (fst st) new_public_key with
          | (p, Ok _) => header_work strict h (fst st) p v1
          | _ => 0
          end
      | _ => 0
      end + headers_work C strict clock resolve r v1 (S n) (snd st)
  end.
Definition message_header_work (C : crypto) (strict : bool) (clock : nat -> Z) (resolve : bytes -> outcome (bool * bytes)) (ty : validator_type)
  (errno : bool) (t : bytes) : nat :=
  match new_validatory strict ty (open_str t) with
  | Ok v => headers_work C strict clock resolve (v_sigs v) v 0 errno
  | _ => 0
  end.

(** CreateSignature: the loop over the fields, Signatory.cpp:119-134; the digest is copied for every signature. *)
Fixpoint sign_work (strict : bool) (mode : canon_mode) (toSign : list bytes) (hs : list header) : nat :=
  match hs with
  | [] => 0
  | h :: r =>
      match lower_str strict (h_name h) with
      | Ok [] => sign_work strict mode toSign r
      | Ok name =>
          if negb (match toSign with [] => true | _ => false end) && negb (memb name toSign) then sign_work strict mode toSign r
          else match FilterHeader strict mode (h_text h) with
               | Ok x => length (x ++ CRLF) + sign_work strict mode toSign r
               | _ => 0
               end
      | _ => 0
      end
  end.
