(** The DKIM-Signature and ARC-Message-Signature fields that the library takes, and what the
    getters return for them (RFC 6376 3.5 with the deviations of C31).  Of the model only the
    types of the results are used, and base64 (C04). *)
From Verif Require Import Bytes Canonicalization Util MailParser Crypto Base64 Signature SpecText SpecTags SpecCanon SpecVerify SpecSig.

(** l=: nothing is 0, a number may have a sign and wraps around. *)
Inductive limit_value : bytes -> N -> Prop :=
| lv_empty : limit_value [] 0
| lv_number v neg m : signed_number v neg m -> (m < 18446744073709551616)%N -> limit_value v (ul_value neg m).

(** x=: the number the text starts with, kept within 64 bits; 0 if there is none.  The flag says
    whether it had to be kept within. *)
Inductive time_value : bytes -> Z -> bool -> Prop :=
| tv_number v neg m : starts_number v neg m -> (-9223372036854775808 <= l_value neg m < 9223372036854775808)%Z -> time_value v (l_value neg m) false
| tv_large v neg m : starts_number v neg m -> (9223372036854775808 <= l_value neg m)%Z -> time_value v 9223372036854775807 true
| tv_small v neg m : starts_number v neg m -> (l_value neg m < -9223372036854775808)%Z -> time_value v (-9223372036854775808) true
| tv_none v : (forall neg m, ~ starts_number v neg m) -> time_value v 0 false.

(** [taken C now h l e0 g e1]: the field [h] with the tags [l] is taken at time [now] and the
    getters are those of [g]; [e0], [e1] say whether errno is ERANGE before and after. *)
Definition taken (C : crypto) (now : Z) (h : header) (l : list (bytes * bytes)) (e0 : bool) (g : signature) (e1 : bool) : Prop :=
  (exists d, has l "d" d /\ sg_domain g = map low d) /\
  has l "s" (sg_selector g) /\
  (exists a, has l "a" a /\ a_value a (sg_digest g) (sg_alg g)) /\
  (exists b, has l "b" b /\ b <> [] /\ sg_b g = b64d C (unspaced b)) /\
  (exists bh, has l "bh" bh /\ sg_bh g = b64d C (unspaced bh)) /\
  (exists hv, has l "h" hv /\ list_wide (sg_headers g) hv /\ exists n, In n (sg_headers g) /\ same_name n (str "from") = true) /\
  (lacks l "c" /\ sg_chead g = SIMPLE /\ sg_cbody g = SIMPLE \/ exists c, has l "c" c /\ c_value c (sg_chead g) (sg_cbody g)) /\
  (lacks l "q" \/ has l "q" (str "dns/txt")) /\
  sg_arc g = same_name (h_name h) (str "arc-message-signature") /\
  (sg_arc g = true /\ sg_local g = [] /\ sg_mdomain g = [] /\ (1 <= sg_instance g <= 50)%N /\
     (exists i neg m, has l "i" i /\ starts_number i neg m /\ (m < 18446744073709551616)%N /\ sg_instance g = ul_value neg m) \/
   sg_arc g = false /\ has l "v" (str "1") /\ sg_instance g = 0%N /\
     (lacks l "i" /\ sg_local g = [] /\ sg_mdomain g = sg_domain g \/
      exists i raw, has l "i" i /\ qp_text false i (sg_local g ++ AT :: raw) /\ ~ In AT (sg_local g) /\
        sg_mdomain g = map low raw /\ in_domain (sg_mdomain g) (sg_domain g))) /\
  (lacks l "l" /\ sg_limit g = false /\ sg_size g = 0%N \/
   exists v, has l "l" v /\ length v <= 76 /\ e0 = false /\ limit_value v (sg_size g) /\
     (sg_size g < 9223372036854775808)%N /\ sg_limit g = true) /\
  (lacks l "x" /\ e1 = e0 \/ exists x t er, has l "x" x /\ time_value x t er /\ (now <= t)%Z /\ e1 = e0 || er).
