(** How CheckSignature ends for fields of any length (for C103). *)
From Verif Require Import Bytes Outcome MailParser Canonicalization Util Crypto Signature PublicKey Validatory SpecMail SpecVerify SpecKey SpecFar VerifyProps.

(** [forms mode ts outs]: [outs] are the canonical forms of the texts [ts]. *)
Definition forms (mode : canon_mode) (ts outs : list bytes) : Prop := Forall2 (fun t out => FilterHeader false mode t = Ok out) ts outs.
(** The fields that are hashed, and the signature field itself as it is hashed. *)
Definition hashed_fields (g : signature) (v : validatory) : list bytes := map h_text (selection h_name (m_headers (v_msg v)) [] (sg_headers g)).
Definition own_field (h : header) (pre b : bytes) : bytes :=
  firstn (h_voff h) (h_text h) ++ without (skipn (h_voff h) (h_text h)) (Z.to_nat (int_place pre)) (length b).

(** [checked C h g p v pre b o]: the check of the field [h], whose b= value [b] stands behind [pre], ends with [o]. *)
Inductive checked (C : crypto) (h : header) (g : signature) (p : public_key) (v : validatory) (pre b : bytes) : outcome unit -> Prop :=
| ck_key : ~ permits p g -> checked C h g p v pre b (Throw (PermanentError AR_PERMERROR))
| ck_fields : permits p g -> (~ exists outs, forms (sg_chead g) (hashed_fields g v) outs) -> checked C h g p v pre b (Throw (PermanentError AR_PERMERROR))
| ck_place outs : permits p g -> forms (sg_chead g) (hashed_fields g v) outs -> (2147483648 <= int_place pre)%Z -> checked C h g p v pre b (Throw StdOutOfRange)
| ck_own outs : permits p g -> forms (sg_chead g) (hashed_fields g v) outs -> (int_place pre < 2147483648)%Z ->
    (~ exists x, FilterHeader false (sg_chead g) (own_field h pre b) = Ok x) -> checked C h g p v pre b (Throw (PermanentError AR_PERMERROR))
| ck_data outs x o : permits p g -> forms (sg_chead g) (hashed_fields g v) outs -> (int_place pre < 2147483648)%Z ->
    FilterHeader false (sg_chead g) (own_field h pre b) = Ok x ->
    (short_ed g /\ o = UB UB_oob_read \/
     ~ short_ed g /\ ~ accepted C g p (digest C (sg_digest g) (with_crlf outs ++ x)) /\ o = Throw (PermanentError AR_FAIL) \/
     accepted C g p (digest C (sg_digest g) (with_crlf outs ++ x)) /\ o = Ok tt) -> checked C h g p v pre b o.
