(** The OpenSSL and libsodium primitives, as arguments.  Keys are byte strings (the RSA* of the
    code stands for the key it points to).  Nothing is assumed of these functions here; theorems
    that need a law (such as "verify accepts what sign produced") take it as a hypothesis. *)
From Verif Require Import Bytes Outcome Util Base64.

Record crypto := mkCrypto {
  c_sha1 : bytes -> bytes;
  c_sha256 : bytes -> bytes;
  c_rsa_sign : digest_alg -> bytes -> bytes -> option bytes;      (* nid, digest, key; None: r != 1 *)
  c_rsa_verify : digest_alg -> bytes -> bytes -> bytes -> bool;   (* nid, digest, signature, key *)
  c_ed_sign : bytes -> bytes -> option bytes;                     (* digest, 64 byte secret key *)
  c_ed_verify : bytes -> bytes -> bytes -> bool;                  (* 64 byte signature, digest, 32 byte key *)
  c_seed_keypair : bytes -> bytes;                                (* 32 byte seed -> secret key *)
  c_d2i_pubkey : bytes -> option (option bytes);                  (* None: null; Some None: not RSA *)
  c_pem_private : bytes -> option (option bytes);                 (* same *)
  c_der_private : bytes -> option bytes;
  c_b64_junk : bytes -> bytes }.                                  (* see Base64.v *)

(** EVP_DigestInit_ex .. EVP_DigestFinal_ex over the concatenated updates. *)
Definition digest (C : crypto) (a : digest_alg) (data : bytes) : bytes :=
  match a with SHA1 => c_sha1 C data | SHA256 => c_sha256 C data end.

(** EVPDigest::update is called once per chunk (Canonicalization.hpp:36-46). *)
Definition digest_chunks (C : crypto) (a : digest_alg) (chunks : list bytes) : bytes :=
  digest C a (concat chunks).

Definition b64d (C : crypto) : bytes -> bytes := Base64_Decode (c_b64_junk C).
