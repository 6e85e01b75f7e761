(** Model of src/Base64.cpp.  The work is done by OpenSSL's BIO_f_base64 with
    BIO_FLAGS_BASE64_NO_NL; it is modelled by RFC 4648 section 4.  What the BIO returns for
    text that is not valid base64 is left to an oracle [junk]. *)
From Verif Require Import Bytes.

Definition b64_alphabet : bytes :=
  str "ABCDEFGHIJKLMNOPQRSTUVWXYZabcdefghijklmnopqrstuvwxyz0123456789+/".
Definition b64_char (n : N) : ascii := nth (N.to_nat n) b64_alphabet EQUALS.
Definition b64_val (c : ascii) : option N :=
  match find_char c b64_alphabet with Some n => Some (N.of_nat n) | None => None end.

(** Base64_Encode, Base64.cpp:48-69. *)
Fixpoint Base64_Encode (d : bytes) : bytes :=
  match d with
  | [] => []
  | [a] => [b64_char (code a / 4); b64_char (code a mod 4 * 16); EQUALS; EQUALS]
  | [a; b] => [b64_char (code a / 4); b64_char (code a mod 4 * 16 + code b / 16);
               b64_char (code b mod 16 * 4); EQUALS]
  | a :: b :: c :: r =>
      b64_char (code a / 4) :: b64_char (code a mod 4 * 16 + code b / 16)
      :: b64_char (code b mod 16 * 4 + code c / 64) :: b64_char (code c mod 64)
      :: Base64_Encode r
  end%N.

(** Decoding of well-formed padded base64; [None] for anything else.  Non-zero padding bits
    are accepted, as OpenSSL does. *)
Fixpoint b64_strict (s : bytes) : option bytes :=
  match s with
  | [] => Some []
  | w :: x :: y :: z :: r =>
      match b64_val w, b64_val x with
      | Some w', Some x' =>
          if y =?c EQUALS then
            if z =?c EQUALS then
              match r with [] => Some [chr (w' * 4 + x' / 16)] | _ => None end
            else None
          else
            match b64_val y with
            | None => None
            | Some y' =>
                if z =?c EQUALS then
                  match r with
                  | [] => Some [chr (w' * 4 + x' / 16); chr (x' mod 16 * 16 + y' / 4)]
                  | _ => None
                  end
                else
                  match b64_val z, b64_strict r with
                  | Some z', Some d =>
                      Some (chr (w' * 4 + x' / 16) :: chr (x' mod 16 * 16 + y' / 4)
                            :: chr (y' mod 4 * 64 + z') :: d)
                  | _, _ => None
                  end
            end
      | _, _ => None
      end
  | _ => None
  end%N.

(** Base64_Decode, Base64.cpp:28-46. *)
Definition Base64_Decode (junk : bytes -> bytes) (s : bytes) : bytes :=
  match b64_strict s with Some d => d | None => junk s end.
