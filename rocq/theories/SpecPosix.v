(** Specification vocabulary for the order of options and files. *)
From Verif Require Import Bytes SpecText SpecTool SpecProgram Tool.

(** Words that are options or values of options only. *)
Inductive options_only : list bytes -> list setting -> Prop :=
| oo_nil : options_only [] []
| oo_more ws ss r ss' : item ws ss [] -> options_only r ss' -> options_only (ws ++ r) (ss ++ ss').
(** A word that is no option. *)
Definition operand (w : bytes) : Prop := w = [DASH] \/ first_ok (fun c => c <> DASH) w.
