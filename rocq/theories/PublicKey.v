(** Model of src/PublicKey.cpp and src/PublicKey.hpp. *)
From Verif Require Import Bytes Outcome Stream Tokenizer Base64 TagList Util Crypto.

(** PublicKey.hpp:38. *)
Inductive service_type := S_EMAIL.

(** DKIM::PublicKey, PublicKey.hpp:79-86; [pk_rsa = None] is the null pointer. *)
Record public_key := mkPub {
  pk_tags : taglist;
  pk_digests : list digest_alg;
  pk_rsa : option bytes;
  pk_ed : bytes;
  pk_alg : sig_alg;
  pk_service : list service_type;
  pk_flags : list bytes }.

(** PublicKey::Reset, PublicKey.cpp:36-51, and the constructor. *)
Definition new_public_key : public_key := mkPub [] [] None [] RSA [] [].
Definition PublicKey_Reset (p : public_key) : public_key :=
  mkPub (TagList_Reset (pk_tags p)) [] None [] RSA [] [].

Definition kset_tags t p := mkPub t (pk_digests p) (pk_rsa p) (pk_ed p) (pk_alg p) (pk_service p) (pk_flags p).
Definition kset_digests d p := mkPub (pk_tags p) d (pk_rsa p) (pk_ed p) (pk_alg p) (pk_service p) (pk_flags p).
Definition kset_rsa r p := mkPub (pk_tags p) (pk_digests p) r (pk_ed p) (pk_alg p) (pk_service p) (pk_flags p).
Definition kset_ed e p := mkPub (pk_tags p) (pk_digests p) (pk_rsa p) e (pk_alg p) (pk_service p) (pk_flags p).
Definition kset_alg a p := mkPub (pk_tags p) (pk_digests p) (pk_rsa p) (pk_ed p) a (pk_service p) (pk_flags p).
Definition kset_service s p := mkPub (pk_tags p) (pk_digests p) (pk_rsa p) (pk_ed p) (pk_alg p) s (pk_flags p).
Definition kset_flags f p := mkPub (pk_tags p) (pk_digests p) (pk_rsa p) (pk_ed p) (pk_alg p) (pk_service p) f.

Definition ktag (name : string) (p : public_key) : option tag_entry := GetTag (str name) (pk_tags p).

(** v=, PublicKey.cpp:62-70. *)
Definition key_v (p : public_key) : public_key * outcome unit :=
  match ktag "v" p with
  | None => (p, Ok tt)
  | Some v => if beqb (te_value v) (str "DKIM1") then (p, Ok tt) else (p, perm)
  end.

(** The names in h= that are known, PublicKey.cpp:80-87. *)
Definition known_digests (l : list bytes) : list digest_alg :=
  flat_map (fun a => if beqb a (str "sha256") then [SHA256]
                     else if beqb a (str "sha1") then [SHA1] else []) l.

(** h=, PublicKey.cpp:73-88. *)
Definition key_h (p : public_key) : public_key * outcome unit :=
  match ktag "h" p with
  | None => (p, Ok tt)
  | Some h =>
      match te_value h with
      | [] => (p, perm)
      | v => lift p as l <- ValueList v ;;
             (kset_digests (pk_digests p ++ known_digests l) p, Ok tt)
      end
  end.

(** k=, PublicKey.cpp:91-103. *)
Definition key_k (p : public_key) : public_key * outcome unit :=
  match ktag "k" p with
  | None => (p, Ok tt)
  | Some k => if beqb (te_value k) (str "rsa") then (kset_alg RSA p, Ok tt)
              else if beqb (te_value k) (str "ed25519") then (kset_alg ED25519 p, Ok tt)
              else (p, perm)
  end.

(** p=, PublicKey.cpp:106-149. *)
Definition key_p (C : crypto) (strict : bool) (p : public_key) : public_key * outcome unit :=
  match ktag "p" p with
  | None => (p, perm)
  | Some e =>
      match te_value e with
      | [] => (p, perm)
      | v =>
          lift p as x <- strip_space strict v ;;
          match pk_alg p with
          | RSA => match c_d2i_pubkey C (b64d C x) with
                   | None => (p, perm)
                   | Some None => (p, perm)
                   | Some (Some k) => (kset_rsa (Some k) p, Ok tt)
                   end
          | ED25519 => if Nat.eqb (length (b64d C x)) 32 then (kset_ed (b64d C x) p, Ok tt)
                       else (p, perm)
          end
      end
  end.

(** The loop over the service types, PublicKey.cpp:159-169. *)
Fixpoint service_loop (l : list bytes) (acc : list service_type) : list service_type :=
  match l with
  | [] => acc
  | a :: r => if beqb a (str "email") then service_loop r (acc ++ [S_EMAIL])
              else if beqb a (str "*") then []
              else service_loop r acc
  end.

(** s=, PublicKey.cpp:152-170. *)
Definition key_s (p : public_key) : public_key * outcome unit :=
  match ktag "s" p with
  | None => (p, Ok tt)
  | Some s =>
      match te_value s with
      | [] => (p, perm)
      | v => lift p as l <- ValueList v ;;
             (kset_service (service_loop l (pk_service p)) p, Ok tt)
      end
  end.

(** t=, PublicKey.cpp:173-177. *)
Definition key_t (p : public_key) : public_key * outcome unit :=
  match ktag "t" p with
  | None => (p, Ok tt)
  | Some t => lift p as l <- ValueList (te_value t) ;; (kset_flags l p, Ok tt)
  end.

(** PublicKey::Parse, PublicKey.cpp:53-180. *)
Definition PublicKey_Parse (C : crypto) (strict : bool) (record : bytes) (p : public_key)
  : public_key * outcome unit :=
  do p1 <- (let '(t, r) := TagList_Parse (pk_tags p) record in (kset_tags t p, r)) ;;
  do p2 <- key_v p1 ;;
  do p3 <- key_h p2 ;;
  do p4 <- key_k p3 ;;
  do p5 <- key_p C strict p4 ;;
  do p6 <- key_s p5 ;;
  key_t p6.

(** PublicKey::SoftFail, PublicKey.hpp:70-75. *)
Definition SoftFail (p : public_key) : bool := memb (str "y") (pk_flags p).
