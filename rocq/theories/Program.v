(** Model of tools/src/main.cpp as a whole: what the program writes to standard output and standard error, and how it ends.
    Tool.v has the parts. *)
From Verif Require Import Bytes Outcome Stream TagList MailParser Canonicalization Util CStdlib Crypto
  Signature PublicKey SignatoryOptions Signatory Validatory Tool Reasons SignReasons.
Local Open Scope string_scope. Local Open Scope list_scope.

(** fprintf with the conversions %s only. *)
Fixpoint format (f : bytes) (args : list bytes) : bytes :=
  match f with
  | [] => []
  | c :: r =>
      if c =?c chr 37 then
        match r, args with
        | s :: r', a :: args' => if s =?c chr 115 then a ++ format r' args' else c :: format r args
        | _, _ => c :: format r args
        end
      else c :: format r args
  end.
(** The format of main.cpp:23-50; [built] is __DATE__. *)
Definition usage_format (built : bytes) : bytes :=
  [LF] ++
  str " libdkimtest build on " ++ built ++ str " (c) Halon Security <support@halon.se>" ++ [LF] ++
  [LF] ++
  str " %s [ options ] file.eml" ++ [LF] ++
  [LF] ++
  str " Options" ++ [LF] ++
  [LF] ++
  str " -h,  --help       Show this help" ++ [LF] ++
  str " -v,  --validate   Validate Only" ++ [LF] ++
  [LF] ++
  str " Signatory options (default)" ++ [LF] ++
  [LF] ++
  str " -s,  --selector   <selector>" ++ [LF] ++
  str " -d,  --domain     <fqdn>" ++ [LF] ++
  str " -k,  --keyfile    <file>" ++ [LF] ++
  str " -K,  --keytype    <algorithm> (default: rsa)" ++ [LF] ++
  [LF] ++
  str " Examples" ++ [LF] ++
  [LF] ++
  str " %s -s garfield -d halon.se \" ++ [LF] ++ str "        -k keystore/private.pem message.eml" ++
  [LF] ++
  str " %s -v message.eml" ++
  [LF] ++
  [LF].
Definition usage (built progname : bytes) : bytes := format (usage_format built) [progname; progname; progname].

(** main, main.cpp:53-200: standard output, standard error, the end.  Without any argument, not even the name of the program,
    __progname is NULL; argv strings have no NUL.  An uncaught exception and what is undefined write nothing of their own. *)
Definition program (C : crypto) (strict : bool) (clock : nat -> Z) (resolve : bytes -> outcome (bool * bytes))
  (fs : bytes -> option bytes) (built : bytes) (argv : list bytes) : bytes * bytes * ending :=
  match argv with
  | [] => ([], [], Undefined UB_null)
  | name :: args =>
      let wrong := ([], usage built name, Exit 2) in
      match args with
      | [] => wrong
      | _ =>
          let '(es, files) := getopt args in
          match take_options es new_args with
          | inr (Exit O) => (usage built name, [], Exit 0)
          | inr (Exit _) => wrong
          | inr x => ([], [], x)
          | inl a =>
              match files with
              | [] => wrong
              | f :: _ =>
                  let missing x := match x : bytes with [] => true | _ => false end in
                  if a_validate a then
                    (files_text C strict clock resolve fs (a_type a) files 0 (a_errno a), [],
                     snd (tool_files C strict clock resolve fs (a_type a) files 0 (a_errno a)))
                  else if missing (a_selector a) || missing (a_domain a) || missing (a_keyfile a) then wrong
                  else let '(t, e) := tool_sign C strict clock a (fs (a_keyfile a)) (fs f) in
                       (t, sign_err C strict clock a (fs (a_keyfile a)) (fs f), e)
              end
          end
      end
  end.
