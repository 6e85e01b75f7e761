(** Model of tools/src/main.cpp with the environment variable POSIXLY_CORRECT set. *)
From Verif Require Import Bytes Outcome Stream TagList MailParser Canonicalization Util CStdlib Crypto
  Signature PublicKey SignatoryOptions Signatory Validatory Tool Reasons SignReasons Program.

(** getopt_long (glibc), main.cpp:66-84: the first argument that is not an option ends the options. *)
Fixpoint getopt_posix (args : list bytes) : list opt_event * list bytes :=
  match args with
  | [] => ([], [])
  | a :: r =>
      match a with
      | d1 :: d2 :: text =>
          if d1 =?c DASH then
            if beqb a [DASH; DASH] then ([], r)
            else
              let '(es, used) :=
                (if d2 =?c DASH then let '(e, u) := long_event text (hd_error r) in ([e], u)
                 else short_events (d2 :: text) (hd_error r)) in
              let '(es', files) := (if used then match r with _ :: r' => getopt_posix r' | [] => ([], []) end
                                    else getopt_posix r) in
              (es ++ es', files)
          else ([], a :: r)
      | _ => ([], a :: r)
      end
  end.

(** main, main.cpp:53-200, as in Program.v, with [options] for the loop over getopt_long. *)
Definition program_with (options : list bytes -> list opt_event * list bytes) (C : crypto) (strict : bool) (clock : nat -> Z)
  (resolve : bytes -> outcome (bool * bytes)) (fs : bytes -> option bytes) (built : bytes) (argv : list bytes) : bytes * bytes * ending :=
  match argv with
  | [] => ([], [], Undefined UB_null)
  | name :: args =>
      let wrong := ([], usage built name, Exit 2) in
      match args with
      | [] => wrong
      | _ =>
          let '(es, files) := options args in
          match take_options es new_args with
          | inr (Exit O) => (usage built name, [], Exit 0)
          | inr (Exit _) => wrong
          | inr x => ([], [], x)
          | inl a =>
              match files with
              | [] => wrong
              | f :: _ =>
                  let missing x := match x : bytes with [] => true | _ => false end in
                  if a_validate a then
                    (files_text C strict clock resolve fs (a_type a) files 0 (a_errno a), [],
                     snd (tool_files C strict clock resolve fs (a_type a) files 0 (a_errno a)))
                  else if missing (a_selector a) || missing (a_domain a) || missing (a_keyfile a) then wrong
                  else let '(t, e) := tool_sign C strict clock a (fs (a_keyfile a)) (fs f) in
                       (t, sign_err C strict clock a (fs (a_keyfile a)) (fs f), e)
              end
          end
      end
  end.
Definition program_posix := program_with getopt_posix.
