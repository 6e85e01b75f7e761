(** The texts of the exceptions of the parsers: ReadWhiteSpace, ValueList (Tokenizer.cpp),
    QuotedPrintable::Decode and TagList::Parse.  The functions of Tokenizer.v, QuotedPrintable.v and TagList.v
    again, with the text in place of the class of the exception (always PermanentError). *)
From Verif Require Import Bytes Outcome Stream Tokenizer QuotedPrintable TagList CStdlib.

Inductive says (A : Type) := Fine (a : A) | Says (what : bytes) | Endless.
Arguments Fine {A}. Arguments Says {A}. Arguments Endless {A}.
Definition sbind {A B} (m : says A) (k : A -> says B) : says B :=
  match m with Fine a => k a | Says t => Says t | Endless => Endless end.
Notation "'let?' x := m 'in' k" := (sbind m (fun x => k)) (at level 200, x pattern, m at level 100, k at level 200).
(** Loops that throw nothing. *)
Definition quiet {A} (m : outcome A) : says A := match m with Ok a => Fine a | _ => Endless end.
(** The outcome without the text. *)
Definition silent {A} (m : says A) : outcome A := match m with Fine a => Ok a | Says _ => perm | Endless => Diverge end.

(** [StringFormat("%x", stream.peek() & 0xff)]: EOF is -1, so 0xff. *)
Definition hex_low (n : N) : ascii := nth (N.to_nat n) (str "0123456789abcdef") NUL.
Definition fmt_x (o : option ascii) : bytes :=
  let n := code (as_char o) in if (n <? 16)%N then [hex_low n] else [hex_low (n / 16); hex_low (n mod 16)].
(** [StringFormat("%ld", (ssize_t)stream.tellg())]. *)
Definition fmt_ld (z : Z) : bytes := if (z <? 0)%Z then chr 45 :: fmt_lu (Z.to_N (- z)) else fmt_lu (Z.to_N z).
(** The formats "... 0x%x ... %ld" and "... %ld"; the order in which peek() and tellg() are called does not matter. *)
Definition byte_place (a : string) (s : istream) (b : string) : bytes :=
  str a ++ fmt_x (fst (peek s)) ++ str b ++ fmt_ld (fst (tellg s)).
Definition place (a : string) (s : istream) : bytes := str a ++ fmt_ld (fst (tellg s)).

(** ** Tokenizer.cpp *)
(** READ_CRLF, Tokenizer.cpp:37-61. *)
Definition read_crlf_says (s : istream) : says (bytes * istream) :=
  let '(o, s1) := peek s in
  match o with
  | Some c =>
      if c =?c CR then
        let '(g, s2) := get s1 in
        let '(o2, s3) := peek s2 in
        match o2 with
        | Some d => if d =?c LF then let '(g2, s4) := get s3 in Fine ([as_char g; as_char g2], s4)
                    else Says (byte_place "CR without matching LF, 0x" s3 " at position ")
        | None => Says (str "CR without matching LF, at the END")
        end
      else Fine ([], s1)
  | None => Fine ([], s1)
  end.
(** READ_FWS, Tokenizer.cpp:94-121. *)
Definition read_fws_says (s : istream) : says (bytes * istream) :=
  let? (w, s1) := quiet (read_wsps (fuel_of s) s []) in
  let? (t, s2) := read_crlf_says s1 in
  match t with
  | [] => Fine (w, s2)
  | _ =>
      let w2 := w ++ t in
      let '(t2, s3) := read_wsp s2 in
      match t2 with
      | [] => Fine ([], unwind w2 s3)
      | _ => quiet (read_wsps (fuel_of s3) s3 (w2 ++ t2))
      end
  end.
Fixpoint skip_fws_says (fuel : nat) (s : istream) : says istream :=
  match fuel with
  | O => Endless
  | S f => let? (w, s1) := read_fws_says s in
           match w with
           | [] => Fine s1
           | _ => skip_fws_says f s1
           end
  end.
(** ValueList, Tokenizer.cpp:129-180. *)
Fixpoint vl_value_says (fuel : nat) (s : istream) (value vbuf : bytes) : says (bytes * istream) :=
  match fuel with
  | O => Endless
  | S f =>
      let? (ws, s1) := read_fws_says s in
      match ws with
      | [] =>
          let '(o, s2) := peek s1 in
          match o with
          | None => Fine (value, s2)
          | Some c =>
              if c =?c COLON then Fine (value, s2)
              else let '(g, s3) := get s2 in
                   vl_value_says f s3 (value ++ vbuf ++ [as_char g]) []
          end
      | _ => vl_value_says f s1 value (vbuf ++ ws)
      end
  end.
Fixpoint vl_loop_says (fuel : nat) (s : istream) (values : list bytes) : says (list bytes) :=
  match fuel with
  | O => Endless
  | S f =>
      let? s1 := skip_fws_says (fuel_of s) s in
      let '(o, s2) := peek s1 in
      match o with
      | None => Fine values
      | Some _ =>
          let? (v, s3) := vl_value_says (fuel_of s2) s2 [] [] in
          match v with
          | [] => Says (place "Invalid list value (empty), expecting value at position " s3)
          | _ =>
              let '(g, s4) := get s3 in
              match g with
              | None => Fine (values ++ [v])
              | Some _ => vl_loop_says f s4 (values ++ [v])
              end
          end
      end
  end.
Definition ValueList_says (input : bytes) : says (list bytes) := vl_loop_says (fuel_of (open_str input)) (open_str input) [].

(** ** QuotedPrintable::Decode, QuotedPrintable.cpp:34-92 *)
Definition expecting_hex (s : istream) : bytes :=
  byte_place "Quoted-printable decoding failed; unexpected 0x" s ", expecting HEX at position ".
Fixpoint qp_loop_says (fuel : nat) (sp : bool) (s : istream) (out : bytes) : says bytes :=
  match fuel with
  | O => Endless
  | S f =>
      let '(o, s1) := peek s in
      match o with
      | None => Fine out
      | Some c =>
          if sp && (c =?c USCORE) then
            let '(_, s2) := get s1 in qp_loop_says f sp s2 (out ++ [SP])
          else if c =?c EQUALS then
            let '(_, s2) := get s1 in
            let '(o1, s3) := peek s2 in
            match o1 with
            | Some h1 =>
                if is_uhex h1 then
                  let '(_, s4) := get s3 in
                  let '(o2, s5) := peek s4 in
                  match o2 with
                  | Some h2 =>
                      if is_uhex h2 then
                        let '(_, s6) := get s5 in
                        qp_loop_says f sp s6 (out ++ [chr (16 * uhex_val h1 + uhex_val h2)])
                      else Says (expecting_hex s5)
                  | None => Says (expecting_hex s5)
                  end
                else Says (expecting_hex s3)
            | None => Says (expecting_hex s3)
            end
          else if qp_safe c then
            let '(g, s2) := get s1 in qp_loop_says f sp s2 (out ++ [as_char g])
          else
            let? (w, s2) := read_fws_says s1 in
            match w with
            | [] => Says (byte_place "Quoted-printable decoding failed; unsafe character 0x" s2 " at position ")
            | _ => qp_loop_says f sp s2 out
            end
      end
  end.
Definition qp_decode_says (input : bytes) (convert_to_space : bool) : says bytes :=
  qp_loop_says (fuel_of (open_str input)) convert_to_space (open_str input) [].

(** ** TagList::Parse, TagList.cpp:97-197 *)
Fixpoint tl_value_says (fuel : nat) (s : istream) (value vbuf : bytes) : says (bytes * istream) :=
  match fuel with
  | O => Endless
  | S f =>
      let '(o, s1) := peek s in
      match o with
      | None => Fine (value, s1)
      | Some c =>
          if c =?c SEMI then Fine (value, s1)
          else if is_valchar c then
            let '(g, s2) := get s1 in tl_value_says f s2 (value ++ vbuf ++ [as_char g]) []
          else
            let '(ws, s2) := read_wsp_loose s1 in
            match ws with
            | [] => Says (byte_place "Invalid tag value (invalid data), unexpected 0x" s2 " at position ")
            | _ => tl_value_says f s2 value (vbuf ++ ws)
            end
      end
  end.
Fixpoint tl_loop_says (fuel : nat) (s : istream) (tags : taglist) : says taglist :=
  match fuel with
  | O => Endless
  | S f =>
      let? s1 := quiet (skip_loose (fuel_of s) s) in
      let '(o, s2) := peek s1 in
      match o with
      | None => Fine tags
      | Some _ =>
          let? (name, s3) := quiet (tl_name s2) in
          match name with
          | [] => Says (place "Invalid tag name (empty), expecting name at position " s3)
          | _ =>
              match GetTag name tags with
              | Some _ => Says (str "Duplicate tag name (" ++ c_str name ++ str ")")
              | None =>
                  let? s4 := quiet (skip_loose (fuel_of s3) s3) in
                  let '(o2, s5) := peek s4 in
                  let unexpected := Says (byte_place "Invalid tag list; unexpected 0x" s5 ", expecting = at position ") in
                  match o2 with
                  | Some e =>
                      if e =?c EQUALS then
                        let '(_, s6) := get s5 in
                        let? s7 := quiet (skip_loose (fuel_of s6) s6) in
                        let '(off, s8) := tellg s7 in
                        let? (value, s9) := tl_value_says (fuel_of s8) s8 [] [] in
                        let tags' := tags ++ [(name, mkEntry value off)] in
                        let '(g, s10) := get s9 in
                        match g with
                        | None => Fine tags'
                        | Some _ => tl_loop_says f s10 tags'
                        end
                      else unexpected
                  | None => unexpected
                  end
              end
          end
      end
  end.
Definition TagList_says (tags : taglist) (input : bytes) : says taglist := tl_loop_says (fuel_of (open_str input)) (open_str input) tags.
