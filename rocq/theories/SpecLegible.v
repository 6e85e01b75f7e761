(** Specification vocabulary for C56: when a field that signing produced can be read. *)
From Verif Require Import Bytes SpecText SpecTags SpecCanon SpecVerify SpecSig SpecSign Canonicalization Util Crypto SignatoryOptions.
Local Open Scope string_scope. Local Open Scope list_scope.

(** [legible strict o q names made now e0]: with the options [o] and [q], the names [names] in h=,
    signed at time [made] and read at time [now]; [e0] says whether errno is ERANGE before, [strict]
    whether the reading platform only knows the lower case of bytes below 128. *)
Record legible (strict : bool) (o : options) (q : sig_options) (names : list bytes) (made now : Z) (e0 : bool) : Prop := {
  lg_algorithm : so_alg (o_main o) = ED25519 -> o_digest o = SHA256;
  lg_from : exists n, In n names /\ same_name n (str "from") = true;
  lg_instance : (o_arc o <= 50)%N;
  lg_identity : o_identity o <> [] -> exists loc dom, o_identity o = loc ++ AT :: dom /\ ~ In AT loc /\
    in_domain (map low dom) (map low (so_domain q)) /\ (strict = true -> Forall (fun c => (code c < 128)%N) dom);
  lg_length : o_signlen o = true -> (o_bodylen o < 9223372036854775808)%N /\ e0 = false;
  lg_time : o_exsign o = true -> (now <= if expiry o made <? 0 then 9223372036854775807 else expiry o made)%Z }.
