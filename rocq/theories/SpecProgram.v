(** A run of the command line program: what it writes and how it ends.  Of the model only types, base64 (C04) and the
    primitives of Crypto.v are used. *)
From Verif Require Import Bytes Outcome SpecText SpecSig SpecTool SpecSignTool SpecVerdict Crypto Validatory Tool.
Local Open Scope string_scope. Local Open Scope list_scope.

(** ** Command lines *)
(** One operand, one word of option letters, or one long option, with the word of its value. *)
Inductive item : list bytes -> list setting -> list bytes -> Prop :=
| it_operand w : w = [DASH] \/ first_ok (fun c => c <> DASH) w -> item [w] [] [w]
| it_short chars ss : chars <> [] -> cluster chars ss None -> item [DASH :: chars] ss []
| it_short_next chars ss mk v : cluster chars ss (Some mk) -> item [DASH :: chars; v] (ss ++ [mk v]) []
| it_long n full s : long_flag full s -> written n full -> item [DASH :: DASH :: n] [s] []
| it_long_is n full mk v : long_value full mk -> written n full -> item [DASH :: DASH :: n ++ EQUALS :: v] [mk v] []
| it_long_next n full mk v : long_value full mk -> written n full -> item [DASH :: DASH :: n; v] [mk v] [].

(** What makes the program stop at once: help, an option used without its value, or a word that cannot be read. *)
Inductive halt := Helps | Lacks | Wrong.
(** Option letters; [r] are the words after them. *)
Inductive letters_halt (r : list bytes) : bytes -> halt -> Prop :=
| lh_flag c s chars x : short_flag c s -> usual s -> letters_halt r chars x -> letters_halt r (c :: chars) x
| lh_help chars : letters_halt r (chr 104 :: chars) Helps
| lh_unknown c chars : (forall s, ~ short_flag c s) -> (forall mk, ~ short_value c mk) -> letters_halt r (c :: chars) Wrong
| lh_end c mk : short_value c mk -> r = [] -> letters_halt r [c] Wrong.
Inductive long_halt (r : list bytes) (n : bytes) : halt -> Prop :=
| gh_help : written n (str "help") -> long_halt r n Helps
| gh_lacks : written n (str "arcinstance") -> long_halt r n Lacks
| gh_wrong : (forall full s, long_flag full s -> ~ written n full) -> (forall m full mk v, long_value full mk -> written m full -> n <> m ++ EQUALS :: v) ->
    (forall full mk, long_value full mk -> written n full -> r = []) -> long_halt r n Wrong.
(** [halts args x]: reading the words from the left, this is the first reason to stop. *)
Inductive halts : list bytes -> halt -> Prop :=
| ht_short c chars r x : c <> DASH -> letters_halt r (c :: chars) x -> halts ((DASH :: c :: chars) :: r) x
| ht_long n r x : n <> [] -> long_halt r n x -> halts ((DASH :: DASH :: n) :: r) x
| ht_later ws ss fl r x : item ws ss fl -> Forall usual ss -> halts r x -> halts (ws ++ r) x.

(** ** The text of the help; [d] is the date of the build. *)
Definition line_end (l : bytes) : bytes := l ++ [LF].
Definition help_says (d name : bytes) : bytes :=
  line_end [] ++ line_end (str " libdkimtest build on " ++ d ++ str " (c) Halon Security <support@halon.se>") ++ line_end [] ++
  line_end (str " " ++ name ++ str " [ options ] file.eml") ++ line_end [] ++
  line_end (str " Options") ++ line_end [] ++ line_end (str " -h,  --help       Show this help") ++ line_end (str " -v,  --validate   Validate Only") ++ line_end [] ++
  line_end (str " Signatory options (default)") ++ line_end [] ++ line_end (str " -s,  --selector   <selector>") ++ line_end (str " -d,  --domain     <fqdn>") ++
  line_end (str " -k,  --keyfile    <file>") ++ line_end (str " -K,  --keytype    <algorithm> (default: rsa)") ++ line_end [] ++
  line_end (str " Examples") ++ line_end [] ++ line_end (str " " ++ name ++ str " -s garfield -d halon.se \") ++ line_end (str "        -k keystore/private.pem message.eml") ++
  line_end (str " " ++ name ++ str " -v message.eml") ++ line_end [].

(** ** [program_run ... argv out err z]: standard output, standard error, the end. *)
Inductive program_run (C : crypto) (strict : bool) (clock : nat -> Z) (res : bytes -> bool * bytes) (fs : bytes -> option bytes) (d : bytes)
  : list bytes -> bytes -> bytes -> ending -> Prop :=
| pr_nothing : program_run C strict clock res fs d [] [] [] (Undefined UB_null)
| pr_name name : program_run C strict clock res fs d [name] [] (help_says d name) (Exit 2)
| pr_help name args : halts args Helps -> program_run C strict clock res fs d (name :: args) (help_says d name) [] (Exit 0)
| pr_lacks name args : halts args Lacks -> program_run C strict clock res fs d (name :: args) [] [] (Undefined UB_null)
| pr_wrong name args : halts args Wrong -> program_run C strict clock res fs d (name :: args) [] (help_says d name) (Exit 2)
(* no operand, or neither to verify nor all that is needed to sign *)
| pr_few name args ss files a : command_line args ss files -> Forall usual ss -> all_settings ss a ->
    files = [] \/ ~ In Validate ss /\ (a_selector a = [] \/ a_domain a = [] \/ a_keyfile a = []) ->
    program_run C strict clock res fs d (name :: args) [] (help_says d name) (Exit 2)
| pr_verify name args ss files a out z : command_line args ss files -> Forall usual ss -> all_settings ss a -> files <> [] -> In Validate ss ->
    verifying_run C strict clock res fs (a_type a) files 0 (a_errno a) out z ->
    program_run C strict clock res fs d (name :: args) out [] z
| pr_sign name args ss f files a out err z : command_line args ss (f :: files) -> Forall usual ss -> all_settings ss a -> ~ In Validate ss ->
    a_selector a <> [] -> a_domain a <> [] -> a_keyfile a <> [] ->
    signing_run C strict clock a (fs (a_keyfile a)) (fs f) out err z ->
    program_run C strict clock res fs d (name :: args) out err z.
