(** Model of tools/src/main.cpp, the command line program. *)
From Verif Require Import Bytes Outcome Stream TagList MailParser Canonicalization Util CStdlib Crypto
  Signature PublicKey SignatoryOptions Signatory Validatory.

(** ** getopt_long (glibc), as used in main.cpp:66-84: the environment variable POSIXLY_CORRECT
    is not set, so arguments that are not options are moved behind the options. *)

Definition DASH : ascii := chr 45.

(** What one call of getopt_long returns: an option character with its argument ([None] is
    optarg = NULL), or '?'. *)
Inductive opt_event := Opt (c : ascii) (arg : option bytes) | Bad.

(** longopts, main.cpp:67-77: name, whether an argument is required, character. *)
Definition longopts : list (bytes * bool * ascii) :=
  [(str "arc", false, chr 97); (str "arcinstance", false, chr 65); (str "help", false, chr 104);
   (str "validate", false, chr 118); (str "selector", true, chr 115); (str "domain", true, chr 100);
   (str "keyfile", true, chr 107); (str "keyformat", true, chr 75)].

(** "aA:hvs:d:k:K:", main.cpp:83: the option characters, and whether an argument is required. *)
Definition shortopt (c : ascii) : option bool :=
  if in_set (str "ahv") c then Some false
  else if in_set (str "Asdk" ++ str "K") c then Some true
  else None.

Fixpoint is_prefix (p s : bytes) : bool :=
  match p, s with
  | [], _ => true
  | x :: p', y :: s' => (x =?c y) && is_prefix p' s'
  | _, [] => false
  end.

(** The long option meant by [name]: an exact match, or else the only one it abbreviates
    (no two of longopts agree in argument and character). *)
Definition find_long (name : bytes) : option (bool * ascii) :=
  match find (fun e => beqb (fst (fst e)) name) longopts with
  | Some (_, a, c) => Some (a, c)
  | None => match filter (fun e => is_prefix name (fst (fst e))) longopts with
            | [(_, a, c)] => Some (a, c)
            | _ => None
            end
  end.

(** One argument "--text": the event, and whether the next argument is its argument. *)
Definition long_event (text : bytes) (next : option bytes) : opt_event * bool :=
  let '(name, val) := match find_char EQUALS text with
                      | Some i => (firstn i text, Some (skipn (S i) text))
                      | None => (text, None)
                      end in
  match find_long name with
  | None => (Bad, false)
  | Some (false, c) => match val with Some _ => (Bad, false) | None => (Opt c None, false) end
  | Some (true, c) =>
      match val, next with
      | Some v, _ => (Opt c (Some v), false)
      | None, Some v => (Opt c (Some v), true)
      | None, None => (Bad, false)
      end
  end.

(** One argument "-chars". *)
Fixpoint short_events (chars : bytes) (next : option bytes) : list opt_event * bool :=
  match chars with
  | [] => ([], false)
  | c :: r =>
      match shortopt c with
      | None => let '(l, u) := short_events r next in (Bad :: l, u)
      | Some false => let '(l, u) := short_events r next in (Opt c None :: l, u)
      | Some true =>
          match r, next with
          | _ :: _, _ => ([Opt c (Some r)], false)
          | [], Some v => ([Opt c (Some v)], true)
          | [], None => ([Bad], false)
          end
      end
  end.

(** All calls until -1: the events, and argv + optind afterwards. *)
Fixpoint getopt (args : list bytes) : list opt_event * list bytes :=
  match args with
  | [] => ([], [])
  | a :: r =>
      match a with
      | d1 :: d2 :: text =>
          if d1 =?c DASH then
            if beqb a [DASH; DASH] then ([], r)
            else
              let '(es, used) :=
                (if d2 =?c DASH then let '(e, u) := long_event text (hd_error r) in ([e], u)
                 else short_events (d2 :: text) (hd_error r)) in
              let '(es', files) := (if used then match r with _ :: r' => getopt r' | [] => ([], []) end
                                    else getopt r) in
              (es ++ es', files)
          else let '(es, files) := getopt r in (es, a :: files)
      | _ => let '(es, files) := getopt r in (es, a :: files)
      end
  end.

(** ** main *)

(** The local variables, main.cpp:54-60, and errno == ERANGE. *)
Record tool_args := mkArgs {
  a_validate : bool;
  a_selector : bytes;
  a_domain : bytes;
  a_keyfile : bytes;
  a_keytype : bytes;
  a_type : validator_type;
  a_instance : N;
  a_errno : bool }.
Definition new_args : tool_args := mkArgs false [] [] [] (str "rsa") V_DKIM 0 false.

(** How the program ends: exit status; an exception nobody catches; undefined behaviour. *)
Inductive ending := Exit (status : nat) | Uncaught (e : exn) | Undefined (k : ub_kind) | Endless.

(** The switch, main.cpp:86-117.  [optarg] is used without a test; argv strings have no NUL. *)
Definition take_option (e : opt_event) (a : tool_args) : tool_args + ending :=
  let with_arg (arg : option bytes) (f : bytes -> tool_args) : tool_args + ending :=
    match arg with Some v => inl (f v) | None => inr (Undefined UB_null) end in
  match e with
  | Bad => inr (Exit 2)
  | Opt c arg =>
      if c =?c chr 97 then inl (mkArgs (a_validate a) (a_selector a) (a_domain a) (a_keyfile a) (a_keytype a) V_ARC (a_instance a) (a_errno a))
      else if c =?c chr 65 then
        with_arg arg (fun v => let '(n, _, er) := strtoul v in
          mkArgs (a_validate a) (a_selector a) (a_domain a) (a_keyfile a) (a_keytype a) (a_type a) n (a_errno a || er))
      else if c =?c chr 118 then inl (mkArgs true (a_selector a) (a_domain a) (a_keyfile a) (a_keytype a) (a_type a) (a_instance a) (a_errno a))
      else if c =?c chr 104 then inr (Exit 0)
      else if c =?c chr 115 then
        with_arg arg (fun v => mkArgs (a_validate a) v (a_domain a) (a_keyfile a) (a_keytype a) (a_type a) (a_instance a) (a_errno a))
      else if c =?c chr 100 then
        with_arg arg (fun v => mkArgs (a_validate a) (a_selector a) v (a_keyfile a) (a_keytype a) (a_type a) (a_instance a) (a_errno a))
      else if c =?c chr 107 then
        with_arg arg (fun v => mkArgs (a_validate a) (a_selector a) (a_domain a) v (a_keytype a) (a_type a) (a_instance a) (a_errno a))
      else if c =?c chr 75 then
        with_arg arg (fun v => mkArgs (a_validate a) (a_selector a) (a_domain a) (a_keyfile a) v (a_type a) (a_instance a) (a_errno a))
      else inr (Exit 2)
  end.
Fixpoint take_options (es : list opt_event) (a : tool_args) : tool_args + ending :=
  match es with
  | [] => inl a
  | e :: r => match take_option e a with inl a1 => take_options r a1 | inr x => inr x end
  end.

(** std::ifstream(name): a file that cannot be opened leaves failbit set. *)
Definition open_file (f : option bytes) : istream :=
  match f with Some t => open_str t | None => mkStream [] [] false true end.

(** The option calls of main.cpp:146-157. *)
Definition tool_ops (a : tool_args) (key : bytes) : list op :=
  [OnMain (SetSignatureAlgorithm (if beqb (a_keytype a) (str "ed25519") then ED25519 else RSA));
   OnMain (SetPrivateKey key); OnMain (SetDomain (a_domain a)); OnMain (SetSelector (a_selector a));
   SetARCInstance (a_instance a); SetCanonModeHeader RELAXED; SetCanonModeBody RELAXED;
   SetTimestamp (-1); SetExpiration 1 false].
(** A chain of calls: the first exception ends it. *)
Fixpoint chain (C : crypto) (l : list op) (o : options) : outcome options :=
  match l with
  | [] => Ok o
  | x :: r => match run_op C x o with
              | (o1, Ok _) => chain C r o1
              | (_, Throw e) => Throw e
              | (_, UB k) => UB k
              | (_, Diverge) => Diverge
              end
  end.

(** Signing, main.cpp:131-164: the text on standard output and the exit status.  Every DKIM error
    is a std::runtime_error, std::out_of_range is not. *)
Definition tool_sign (C : crypto) (strict : bool) (clock : nat -> Z) (a : tool_args) (key message : option bytes)
  : bytes * ending :=
  match key with
  | None => ([], Exit 1)
  | Some k =>
      match (let* o := chain C (tool_ops a k) new_options in
             snd (CreateSignature C strict clock o (new_signatory (open_file message)))) with
      | Ok h => (c_str h ++ CRLF, Exit 0)
      | Throw (PermanentError _) | Throw (TemporaryError _) => ([], Exit 1)
      | Throw StdOutOfRange => ([], Uncaught StdOutOfRange)
      | UB k => ([], Undefined k)
      | Diverge => ([], Endless)
      end
  end.

(** The four output lines, main.cpp:185-198: d= and s= as parsed so far, and the result. *)
Inductive report := R_OK | R_TEMP (c : ar_class) | R_SOFT (c : ar_class) | R_PERM (c : ar_class).
Record line := mkLine { l_file : bytes; l_domain : bytes; l_selector : bytes; l_report : report }.

(** The try block, main.cpp:180-184: the Validatory, errno, sig, pub, how it ended. *)
Definition try_one (C : crypto) (strict : bool) (now : Z) (resolve : bytes -> outcome (bool * bytes)) (h : header)
  (errno : bool) (v : validatory) : validatory * bool * signature * public_key * outcome unit :=
  let '(v1, st, r) := GetSignature C strict now h (new_signature, errno) v in
  match r with
  | Ok _ =>
      let '(p, r1) := GetPublicKey C strict resolve (fst st) new_public_key in
      match r1 with
      | Ok _ => (v1, snd st, fst st, p, CheckSignature C strict h (fst st) p v1)
      | e => (v1, snd st, fst st, p, e)
      end
  | e => (v1, snd st, fst st, new_public_key, e)
  end.
Definition report_of (p : public_key) (r : outcome unit) : report + ending :=
  match r with
  | Ok _ => inl R_OK
  | Throw (TemporaryError c) => inl (R_TEMP c)
  | Throw (PermanentError c) => inl (if SoftFail p then R_SOFT c else R_PERM c)
  | Throw StdOutOfRange => inr (Uncaught StdOutOfRange)
  | UB k => inr (Undefined k)
  | Diverge => inr Endless
  end.

(** The loop over the signatures of a file, main.cpp:175-199: lines printed, clock readings made,
    errno, and [Some] when the program ends here. *)
Fixpoint tool_sigs (C : crypto) (strict : bool) (clock : nat -> Z) (resolve : bytes -> outcome (bool * bytes)) (name : bytes)
  (hs : list header) (v : validatory) (n : nat) (errno : bool) : list line * nat * bool * option ending :=
  match hs with
  | [] => ([], n, errno, None)
  | h :: r =>
      let '(v1, e1, g, p, o) := try_one C strict (clock n) resolve h errno v in
      match report_of p o with
      | inr x => ([], S n, e1, Some x)
      | inl rep =>
          let '(ls, n', e', x) := tool_sigs C strict clock resolve name r v1 (S n) e1 in
          (mkLine name (sg_domain g) (sg_selector g) rep :: ls, n', e', x)
      end
  end.
(** The loop over the files, main.cpp:167-200. *)
Fixpoint tool_files (C : crypto) (strict : bool) (clock : nat -> Z) (resolve : bytes -> outcome (bool * bytes))
  (fs : bytes -> option bytes) (ty : validator_type) (names : list bytes) (n : nat) (errno : bool) : list line * ending :=
  match names with
  | [] => ([], Exit 0)
  | f :: r =>
      match new_validatory strict ty (open_file (fs f)) with
      | Ok v =>
          let '(ls, n', e', x) := tool_sigs C strict clock resolve f (v_sigs v) v n errno in
          match x with
          | Some e => (ls, e)
          | None => let '(ls', e) := tool_files C strict clock resolve fs ty r n' e' in (ls ++ ls', e)
          end
      | Throw e => ([], Uncaught e)
      | UB k => ([], Undefined k)
      | Diverge => ([], Endless)
      end
  end.

(** What the program writes to standard output (the usage text is in Program.v), and how it ends. *)
Inductive printed := P_nothing | P_usage | P_header (t : bytes) | P_lines (l : list line).

(** main, main.cpp:50-203.  [fs] gives the contents of the files that can be opened. *)
Definition tool_main (C : crypto) (strict : bool) (clock : nat -> Z) (resolve : bytes -> outcome (bool * bytes))
  (fs : bytes -> option bytes) (args : list bytes) : printed * ending :=
  match args with
  | [] => (P_nothing, Exit 2)
  | _ =>
      let '(es, files) := getopt args in
      match take_options es new_args with
      | inr x => (match x with Exit O => P_usage | _ => P_nothing end, x)
      | inl a =>
          match files with
          | [] => (P_nothing, Exit 2)
          | f :: _ =>
              let missing x := match x : bytes with [] => true | _ => false end in
              if a_validate a then
                let '(ls, e) := tool_files C strict clock resolve fs (a_type a) files 0 (a_errno a) in (P_lines ls, e)
              else if missing (a_selector a) || missing (a_domain a) || missing (a_keyfile a) then (P_nothing, Exit 2)
              else let '(t, e) := tool_sign C strict clock a (fs (a_keyfile a)) (fs f) in
                   (match t with [] => P_nothing | _ => P_header t end, e)
          end
      end
  end.
