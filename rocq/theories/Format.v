(** DKIM::Util::StringFormat, Util.cpp:64-75, with the conversions the library uses: %s, %lu, %x, %ld and %d. *)
From Verif Require Import Bytes Outcome CStdlib Util ErrorText.

(** An argument: x.c_str() of a std::string, an unsigned long, a byte as an unsigned int ([peek() & 0xff]), a long, an int. *)
Inductive arg := A_s (x : bytes) | A_lu (n : N) | A_x (c : ascii) | A_ld (z : Z) | A_d (z : Z).

(** vasprintf's text; [None]: an argument is lacking or of another type, undefined.  Arguments too many are not looked at. *)
Fixpoint vformat (fmt : bytes) (args : list arg) : option bytes :=
  match fmt with
  | [] => Some []
  | c :: r =>
      if c =?c "%"%char then
        match r with
        | [] => None
        | k :: r1 =>
            if k =?c "s"%char then match args with A_s x :: a => option_map (app (c_str x)) (vformat r1 a) | _ => None end
            else if k =?c "x"%char then match args with A_x x :: a => option_map (app (fmt_x (Some x))) (vformat r1 a) | _ => None end
            else if k =?c "d"%char then match args with A_d z :: a => option_map (app (fmt_ld z)) (vformat r1 a) | _ => None end
            else if k =?c "l"%char then
              match r1 with
              | [] => None
              | k2 :: r2 =>
                  if k2 =?c "u"%char then match args with A_lu n :: a => option_map (app (fmt_lu n)) (vformat r2 a) | _ => None end
                  else if k2 =?c "d"%char then match args with A_ld z :: a => option_map (app (fmt_ld z)) (vformat r2 a) | _ => None end
                  else None
              end
            else None
        end
      else option_map (cons c) (vformat r args)
  end.

(** Util.cpp:69-74.  vasprintf returns the length as an int; from 2^31 on it fails (EOVERFLOW), -1. *)
Inductive formatted := F_text (t : bytes) | F_bad_alloc | F_undefined.
Definition StringFormat (fmt : bytes) (args : list arg) : formatted :=
  match vformat fmt args with
  | Some t => if (N.of_nat (length t) <=? 2147483647)%N then F_text t else F_bad_alloc
  | None => F_undefined
  end.
