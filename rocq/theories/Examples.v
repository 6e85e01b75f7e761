(** Support for concrete examples: byte literals with C escapes, and toy primitives. *)
From Verif Require Import Bytes Outcome Util Crypto CStdlib.

(** A byte string literal with the escapes \r \n \t \0 \\ and \f (the byte 255). *)
Fixpoint unescape (s : bytes) : bytes :=
  match s with
  | [] => []
  | c :: r =>
      if c =?c chr 92 then
        match r with
        | d :: r2 =>
            (if d =?c chr 114 then CR else if d =?c chr 110 then LF else if d =?c chr 116 then HT
             else if d =?c chr 48 then chr 0 else if d =?c chr 102 then chr 255 else d) :: unescape r2
        | [] => [c]
        end
      else c :: unescape r
  end.
Definition esc (s : string) : bytes := unescape (str s).

(** A checksum standing in for a hash: [n] bytes. *)
Fixpoint le_bytes (n : nat) (v : N) : bytes :=
  match n with
  | O => []
  | S m => chr (v mod 256) :: le_bytes m (v / 256)
  end.
Definition toy_hash (n : nat) (d : bytes) : bytes :=
  let mask := N.ones (8 * N.of_nat n) in
  le_bytes n (fold_left (fun h c => N.land (1000003 * h + (code c + 1)) mask)%N d 7%N).

Definition pad (n : nat) (s : bytes) : bytes := firstn n (s ++ repeat (chr 0) n).

(** Toy primitives: the public key equals the private key (RSA) or its first half (Ed25519),
    a signature is the tagged digest followed by the key. *)
Definition toy : crypto := {|
  c_sha1 := toy_hash 20;
  c_sha256 := toy_hash 32;
  c_rsa_sign a d k := Some ((match a with SHA1 => chr 1 | SHA256 => chr 2 end) :: d ++ k);
  c_rsa_verify a d s k := beqb s ((match a with SHA1 => chr 1 | SHA256 => chr 2 end) :: d ++ k);
  c_ed_sign d k := Some (pad 32 d ++ pad 32 k);
  c_ed_verify s d k := beqb s (pad 32 d ++ pad 32 k);
  c_seed_keypair s := s ++ s;
  c_d2i_pubkey d := match d with [] => None | _ => Some (Some d) end;
  c_pem_private d := Some (Some (skipn 5 d));
  c_der_private d := match d with [] => None | _ => Some d end;
  c_b64_junk s := [] |}.
