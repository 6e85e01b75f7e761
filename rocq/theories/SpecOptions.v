(** Specification vocabulary for the signing options.  Of the model only the types of calls are used. *)
From Verif Require Import Bytes SpecText Util Canonicalization Crypto SignatoryOptions.

(** Host names (RFC 1123 2.1): labels of letters, digits and hyphens joined by dots. *)
Definition letter_digit (c : ascii) : Prop := between 65 90 c \/ between 97 122 c \/ between 48 57 c.
Definition label (l : bytes) : Prop :=
  l <> [] /\ Forall (fun c => letter_digit c \/ c = chr 45) l /\ first_ok letter_digit l /\ last_ok letter_digit l.
Inductive dotted : bytes -> Prop :=
| dotted_one l : label l -> dotted l
| dotted_more l r : label l -> dotted r -> dotted (l ++ DOT :: r).

(** [latest sets d calls a]: [a] is the value given by the last of the [calls] that sets one, [d]
    when none does. *)
Inductive latest {O A} (sets : O -> A -> Prop) (d : A) : list O -> A -> Prop :=
| latest_none l : (forall x a, In x l -> ~ sets x a) -> latest sets d l d
| latest_some l1 x l2 a : sets x a -> (forall y b, In y l2 -> ~ sets y b) -> latest sets d (l1 ++ x :: l2) a.

(** The list of header names after a sequence of calls. *)
Inductive headers_after : list bytes -> list op -> list bytes -> Prop :=
| ha_nil h : headers_after h [] h
| ha_set h l calls r : headers_after l calls r -> headers_after h (SetHeaders l :: calls) r
| ha_add h l calls r : headers_after (h ++ l) calls r -> headers_after h (AddHeaders l :: calls) r
| ha_del h l calls h' r : (forall n, count_occ (list_eq_dec ascii_dec) h' n = if in_dec (list_eq_dec ascii_dec) n l then 0 else count_occ (list_eq_dec ascii_dec) h n) ->
    (exists p, h' = filter p h) -> headers_after h' calls r -> headers_after h (DelHeaders l :: calls) r
| ha_other h x calls r : (forall l, x <> SetHeaders l /\ x <> AddHeaders l /\ x <> DelHeaders l) -> headers_after h calls r ->
    headers_after h (x :: calls) r.

(** The names that are signed unless told otherwise: those of RFC 6376 5.4.1, those of RFC 8058 4
    and RFC 9477 3.1, and some more. *)
Definition recommended_headers : list bytes := map str
  ["from"; "reply-to"; "subject"; "date"; "to"; "cc"; "resent-date"; "resent-from"; "resent-to"; "resent-cc"; "in-reply-to"; "references";
   "list-id"; "list-help"; "list-unsubscribe"; "list-subscribe"; "list-post"; "list-owner"; "list-archive"]%string.
Definition usual_headers : list bytes := map str
  ["from"; "sender"; "reply-to"; "subject"; "date"; "message-id"; "to"; "cc"; "mime-version"; "content-type"; "content-transfer-encoding";
   "content-id"; "content-description"; "resent-date"; "resent-from"; "resent-sender"; "resent-to"; "resent-cc"; "resent-message-id";
   "in-reply-to"; "references"; "list-id"; "list-help"; "list-unsubscribe"; "list-unsubscribe-post"; "list-subscribe"; "list-post";
   "list-owner"; "list-archive"; "cfbl-address"; "cfbl-feedback-id"]%string.

(** The same for the calls on the first signature. *)
Definition sets_main {A} (what : sig_op -> A -> Prop) (x : op) (a : A) : Prop := exists m, x = OnMain m /\ what m a.
(** What the getters of the options return after the calls [l] on a fresh object. *)
Record getters (l : list op) (o : options) : Prop := {
  g_digest : latest (fun x a => x = SetDigestAlgorithm a) SHA256 l (o_digest o);
  g_oversign : latest (fun x a => x = SetOversignHeaders a) [] l (o_oversign o);
  g_bodylen : latest (fun x a => x = SetSignBodyLength a) 0%N l (o_bodylen o);
  g_signlen : o_signlen o = true <-> exists n, In (SetSignBodyLength n) l;
  g_arc : latest (fun x a => x = SetARCInstance a) 0%N l (o_arc o);
  g_chead : latest (fun x a => x = SetCanonModeHeader a) SIMPLE l (o_chead o);
  g_cbody : latest (fun x a => x = SetCanonModeBody a) SIMPLE l (o_cbody o);
  g_ts : latest (fun x a => x = SetTimestamp a) (-1)%Z l (o_ts o);
  g_tssign : o_tssign o = true <-> exists t, In (SetTimestamp t) l;
  g_ex : latest (fun x a => x = SetExpiration (fst a) (snd a)) (-1, true)%Z l (o_ex o, o_exabs o);
  g_exsign : o_exsign o = true <-> exists t a, In (SetExpiration t a) l;
  g_identity : latest (fun x a => x = SetIdentity a) [] l (o_identity o);
  g_domain : latest (sets_main (fun m d => m = SetDomain d /\ dotted d)) [] l (so_domain (o_main o));
  g_selector : latest (sets_main (fun m d => m = SetSelector d /\ dotted d)) [] l (so_selector (o_main o));
  g_alg : latest (sets_main (fun m a => m = SetSignatureAlgorithm a)) RSA l (so_alg (o_main o));
  g_headers : headers_after usual_headers l (o_headers o);
  g_more : length (o_more o) = length (filter (fun x => match x with AddAdditionalSignature => true | _ => false end) l) }.

Definition is_pem (key : bytes) : bool := beqb (firstn 5 key) (str "-----").
(** A call that may clear the key although it fails. *)
Definition der_key (m : sig_op) (s : sig_options) : Prop := exists key, m = SetPrivateKey key /\ so_alg s = RSA /\ is_pem key = false.
Definition der_call (x : op) (o : options) : Prop :=
  (exists m, x = OnMain m /\ der_key m (o_main o)) \/ (exists n m s, x = OnMore n m /\ nth_error (o_more o) n = Some s /\ der_key m s).

(** Only the domain, only the selector replaced. *)
Definition put_domain d s := mkSO (so_rsa s) (so_ed s) (so_alg s) d (so_selector s).
Definition put_selector x s := mkSO (so_rsa s) (so_ed s) (so_alg s) (so_domain s) x.

(** *** One signature among several *)
(** The calls on signature [n]: 0 is the main one, [n + 1] the [n]-th additional one. *)
Fixpoint calls_on (n : nat) (l : list op) : list sig_op :=
  match l with
  | [] => []
  | OnMain m :: r => if Nat.eqb n 0 then m :: calls_on n r else calls_on n r
  | OnMore k m :: r => if Nat.eqb n (S k) then m :: calls_on n r else calls_on n r
  | _ :: r => calls_on n r
  end.
(** Only signatures that were added are addressed; [k] have been. *)
Inductive refs_known : nat -> list op -> Prop :=
| nb_nil k : refs_known k []
| nb_add k l : refs_known (S k) l -> refs_known k (AddAdditionalSignature :: l)
| nb_more k n m l : n < k -> refs_known k l -> refs_known k (OnMore n m :: l)
| nb_other k x l : x <> AddAdditionalSignature -> (forall n m, x <> OnMore n m) -> refs_known k l -> refs_known k (x :: l).

(** As [latest], where what a call sets depends on the calls before it. *)
Inductive latest_at {O A} (sets : list O -> O -> A -> Prop) (d : A) : list O -> A -> Prop :=
| la_none l : (forall l1 x l2 a, l = l1 ++ x :: l2 -> ~ sets l1 x a) -> latest_at sets d l d
| la_some l1 x l2 a : sets l1 x a -> (forall m1 y m2 b, l2 = m1 ++ y :: m2 -> ~ sets (l1 ++ x :: m1) y b) ->
    latest_at sets d (l1 ++ x :: l2) a.
Definition algorithm_is (l : list sig_op) (a : sig_alg) : Prop := latest (fun m a => m = SetSignatureAlgorithm a) RSA l a.
(** The RSA key: the last one given, or loaded while the algorithm is RSA; one which is not PEM and cannot be read leaves none. *)
Definition sets_rsa (C : crypto) (before : list sig_op) (m : sig_op) (k : option bytes) : Prop := m = SetRSAPrivateKey k \/
  exists key, m = SetPrivateKey key /\ algorithm_is before RSA /\
    (if is_pem key then k <> None /\ c_pem_private C key = Some k else c_der_private C (b64d C key) = k).
(** The Ed25519 key: the last one loaded while the algorithm is Ed25519, as 64 or 32 octets or as base64 of that. *)
Definition ed_octets (C : crypto) (x k : bytes) : Prop := length x = 64 /\ k = x \/ length x = 32 /\ k = c_seed_keypair C x.
Definition sets_ed (C : crypto) (before : list sig_op) (m : sig_op) (k : bytes) : Prop :=
  exists key, m = SetPrivateKey key /\ algorithm_is before ED25519 /\
    (ed_octets C key k \/ length key <> 64 /\ length key <> 32 /\ ed_octets C (b64d C key) k).
(** What a signature's options are after the calls [l] on it. *)
Record sig_getters (C : crypto) (l : list sig_op) (s : sig_options) : Prop := {
  gs_domain : latest (fun m d => m = SetDomain d /\ dotted d) [] l (so_domain s);
  gs_selector : latest (fun m d => m = SetSelector d /\ dotted d) [] l (so_selector s);
  gs_alg : algorithm_is l (so_alg s);
  gs_rsa : latest_at (sets_rsa C) None l (so_rsa s);
  gs_ed : latest_at (sets_ed C) [] l (so_ed s) }.
