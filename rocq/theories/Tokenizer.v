(** Model of src/Tokenizer.cpp.  The code calls peek() once per comparison; the model calls
    it once per test of the same byte: a repeated peek returns the same and at most turns
    eofbit into eofbit|failbit, which no operation used here distinguishes. *)
From Verif Require Import Bytes Outcome Stream.

(** ReadWhiteSpace(READ_WSP), Tokenizer.cpp:66-75. *)
Definition read_wsp (s : istream) : bytes * istream :=
  let '(o, s1) := peek s in
  match o with
  | Some c => if is_wsp c then let '(g, s2) := get s1 in ([as_char g], s2) else ([], s1)
  | None => ([], s1)
  end.

(** ReadWhiteSpace(READ_WSP_LOOSE), Tokenizer.cpp:80-89. *)
Definition read_wsp_loose (s : istream) : bytes * istream :=
  let '(o, s1) := peek s in
  match o with
  | Some c => if is_lwsp c then let '(g, s2) := get s1 in ([as_char g], s2) else ([], s1)
  | None => ([], s1)
  end.

(** ReadWhiteSpace(READ_CRLF), Tokenizer.cpp:37-61. *)
Definition read_crlf (s : istream) : outcome (bytes * istream) :=
  let '(o, s1) := peek s in
  match o with
  | Some c =>
      if c =?c CR then
        let '(g, s2) := get s1 in
        let '(o2, s3) := peek s2 in
        match o2 with
        | Some d => if d =?c LF then let '(g2, s4) := get s3 in Ok ([as_char g; as_char g2], s4)
                    else perm
        | None => perm
        end
      else Ok ([], s1)
  | None => Ok ([], s1)
  end.

(** [while (!(_t = ReadWhiteSpace(stream, READ_WSP)).empty()) _s += _t;], Tokenizer.cpp:99-100 and 110-111. *)
Fixpoint read_wsps (fuel : nat) (s : istream) (acc : bytes) : outcome (bytes * istream) :=
  match fuel with
  | O => Diverge
  | S f => let '(t, s1) := read_wsp s in
           match t with
           | [] => Ok (acc, s1)
           | _ => read_wsps f s1 (acc ++ t)
           end
  end.

(** the putback loop, Tokenizer.cpp:116-119: puts back _s[n-1], ..., _s[0]. *)
Definition unwind (w : bytes) (s : istream) : istream :=
  fold_left (fun st c => putback c st) (rev w) (clear s).

(** ReadWhiteSpace(READ_FWS), Tokenizer.cpp:94-121. *)
Definition read_fws (s : istream) : outcome (bytes * istream) :=
  let* (w, s1) := read_wsps (fuel_of s) s [] in
  let* (t, s2) := read_crlf s1 in
  match t with
  | [] => Ok (w, s2)
  | _ =>
      let w2 := w ++ t in
      let '(t2, s3) := read_wsp s2 in
      match t2 with
      | [] => Ok ([], unwind w2 s3)
      | _ => read_wsps (fuel_of s3) s3 (w2 ++ t2)
      end
  end.

(** [while (!ReadWhiteSpace(data, READ_FWS).empty());] *)
Fixpoint skip_fws (fuel : nat) (s : istream) : outcome istream :=
  match fuel with
  | O => Diverge
  | S f => let* (w, s1) := read_fws s in
           match w with
           | [] => Ok s1
           | _ => skip_fws f s1
           end
  end.

(** [while (!ReadWhiteSpace(data, READ_WSP_LOOSE).empty());] *)
Fixpoint skip_loose (fuel : nat) (s : istream) : outcome istream :=
  match fuel with
  | O => Diverge
  | S f => let '(w, s1) := read_wsp_loose s in
           match w with
           | [] => Ok s1
           | _ => skip_loose f s1
           end
  end.

(** ValueList: the inner loop, Tokenizer.cpp:146-165. *)
Fixpoint vl_value (fuel : nat) (s : istream) (value vbuf : bytes) : outcome (bytes * istream) :=
  match fuel with
  | O => Diverge
  | S f =>
      let* (ws, s1) := read_fws s in
      match ws with
      | [] =>
          let '(o, s2) := peek s1 in
          match o with
          | None => Ok (value, s2)
          | Some c =>
              if c =?c COLON then Ok (value, s2)
              else let '(g, s3) := get s2 in
                   vl_value f s3 (value ++ vbuf ++ [as_char g]) []
          end
      | _ => vl_value f s1 value (vbuf ++ ws)
      end
  end.

(** ValueList: the outer loop, Tokenizer.cpp:135-177. *)
Fixpoint vl_loop (fuel : nat) (s : istream) (values : list bytes) : outcome (list bytes) :=
  match fuel with
  | O => Diverge
  | S f =>
      let* s1 := skip_fws (fuel_of s) s in
      let '(o, s2) := peek s1 in
      match o with
      | None => Ok values
      | Some _ =>
          let* (v, s3) := vl_value (fuel_of s2) s2 [] [] in
          match v with
          | [] => perm
          | _ =>
              let '(g, s4) := get s3 in
              match g with
              | None => Ok (values ++ [v])
              | Some _ => vl_loop f s4 (values ++ [v])
              end
          end
      end
  end.

(** ValueList, Tokenizer.cpp:129-180. *)
Definition ValueList (input : bytes) : outcome (list bytes) :=
  vl_loop (fuel_of (open_str input)) (open_str input) [].

(** Tokenizer.hpp:42-50. *)
Inductive addr_tok :=
  TOK_QUOTED | TOK_ATOM | TOK_COMMENT | TOK_TAG_OPEN | TOK_TAG_CLOSE | TOK_SEPARATOR | TOK_EOF.

Definition DQUOTE : ascii := chr 34.
Definition BSLASH : ascii := chr 92.
Definition LPAREN : ascii := chr 40.
Definition RPAREN : ascii := chr 41.
Definition LANGLE : ascii := chr 60.
Definition RANGLE : ascii := chr 62.
Definition COMMA : ascii := chr 44.
Definition NUL : ascii := chr 0.

(** The quoted-string loop, Tokenizer.cpp:199-217.  [char c = (char)data.get(); if (c == EOF)]:
    where plain char is signed, end of input and the byte 0xff are both taken for EOF;
    where it is unsigned neither is, and [as_char None] = 0xff is appended for ever. *)
Fixpoint quoted_loop (char_signed : bool) (fuel : nat) (s : istream) (token : bytes)
  : outcome (bytes * istream) :=
  match fuel with
  | O => Diverge
  | S f =>
      let '(g, s1) := get s in
      let c := as_char g in
      if char_signed && (c =?c chr 255) then perm
      else if c =?c BSLASH then
        let '(o, s2) := peek s1 in
        match o with
        | None => perm
        | Some _ => let '(g2, s3) := get s2 in
                    quoted_loop char_signed f s3 (token ++ [as_char g2])
        end
      else if c =?c DQUOTE then Ok (token, s1)
      else quoted_loop char_signed f s1 (token ++ [c])
  end.

(** The comment loop, Tokenizer.cpp:224-247; [depth] is [int], its overflow is not modelled. *)
Fixpoint comment_loop (fuel : nat) (depth : nat) (s : istream) (token : bytes)
  : outcome (bytes * istream) :=
  match fuel with
  | O => Diverge
  | S f =>
      match depth with
      | O => Ok (token, s)
      | _ =>
          let '(o, s1) := peek s in
          match o with
          | None => perm
          | Some c =>
              let* (token1, s2) :=
                (if c =?c BSLASH then
                   let '(_, s2) := get s1 in
                   let '(o2, s3) := peek s2 in
                   match o2 with
                   | None => perm
                   | Some _ => let '(g, s4) := get s3 in Ok (token ++ [as_char g], s4)
                   end
                 else Ok (token, s1)) in
              let '(o3, s5) := peek s2 in
              let d1 := match o3 with
                        | Some c3 => if c3 =?c LPAREN then S depth
                                     else if c3 =?c RPAREN then pred depth else depth
                        | None => depth
                        end in
              let '(g, s6) := get s5 in
              match d1 with
              | O => comment_loop f O s6 token1
              | _ => comment_loop f d1 s6 (token1 ++ [as_char g])
              end
          end
      end
  end.

(** NextAddressListToken, Tokenizer.cpp:182-274. *)
Fixpoint next_tok (char_signed : bool) (fuel : nat) (s : istream) (token : bytes)
  : outcome (addr_tok * bytes * istream) :=
  let finish s' := Ok (match token with [] => TOK_EOF | _ => TOK_ATOM end, token, s') in
  match fuel with
  | O => Diverge
  | S f =>
      let '(o, s0) := peek s in
      match o with
      | None => finish s0
      | Some _ =>
          let* (w, s1) := read_fws s0 in
          match w, token with
          | _ :: _, _ :: _ => finish s1                      (* break, 188-192 *)
          | _, _ =>
              let '(o1, s2) := peek s1 in
              match o1 with
              | None => finish s2
              | Some c =>
                  if c =?c DQUOTE then
                    match token with
                    | _ :: _ => Ok (TOK_ATOM, token, s2)
                    | [] => let '(_, s3) := get s2 in
                            let* (t, s4) := quoted_loop char_signed (fuel_of s3) s3 [] in
                            Ok (TOK_QUOTED, t, s4)
                    end
                  else if c =?c LPAREN then
                    match token with
                    | _ :: _ => Ok (TOK_ATOM, token, s2)
                    | [] => let '(_, s3) := get s2 in
                            let* (t, s4) := comment_loop (fuel_of s3) 1 s3 [] in
                            Ok (TOK_COMMENT, t, s4)
                    end
                  else if c =?c LANGLE then
                    match token with
                    | _ :: _ => Ok (TOK_ATOM, token, s2)
                    | [] => let '(_, s3) := get s2 in Ok (TOK_TAG_OPEN, [], s3)
                    end
                  else if c =?c RANGLE then
                    match token with
                    | _ :: _ => Ok (TOK_ATOM, token, s2)
                    | [] => let '(_, s3) := get s2 in Ok (TOK_TAG_CLOSE, [], s3)
                    end
                  else if (c =?c COMMA) || (c =?c SEMI) then
                    match token with
                    | _ :: _ => Ok (TOK_ATOM, token, s2)
                    | [] => let '(_, s3) := get s2 in Ok (TOK_SEPARATOR, [], s3)
                    end
                  else let '(g, s3) := get s2 in next_tok char_signed f s3 (token ++ [as_char g])
              end
          end
      end
  end.

Definition NextAddressListToken (char_signed : bool) (s : istream) :=
  next_tok char_signed (fuel_of s) s [].

Definition has_char (c : ascii) (s : bytes) : bool := existsb (fun x => x =?c c) s.

(** The loop of ParseAddressList, Tokenizer.cpp:283-350.  [rec] is the recursive call (333),
    [typ] the type of the previous token. *)
Fixpoint pal_loop (char_signed : bool) (rec : bytes -> outcome (list bytes)) (fuel : nat)
  (s : istream) (typ : addr_tok) (tokens : list bytes) (inOpentag : bool) (res : list bytes)
  : outcome (list bytes) :=
  match fuel with
  | O => Diverge
  | S f =>
      match typ with
      | TOK_EOF => Ok res
      | _ =>
          let lasttype := typ in
          let* (t, s1) := NextAddressListToken char_signed s in
          let '(ty, token) := t in
          if has_char NUL token then perm
          else
            let again := pal_loop char_signed rec f s1 ty in
            let flush inOpen :=
              if (inOpen : bool) then perm
              else match tokens with
              | [] => again [] inOpen res
              | tok0 :: rest =>
                  if (match ty with TOK_SEPARATOR => true | _ => false end)
                     && negb (match lasttype with TOK_TAG_CLOSE => true | _ => false end)
                     && negb (has_char AT (last tokens []))
                  then again [] inOpen res
                  else
                    match lasttype, rest with
                    | TOK_QUOTED, [] =>
                        let* addrs := rec tok0 in again [] inOpen (res ++ addrs)
                    | _, _ => again [] inOpen (res ++ [concat tokens])
                    end
              end in
            match ty with
            | TOK_QUOTED | TOK_ATOM => again (tokens ++ [token]) inOpentag res
            | TOK_COMMENT => again tokens inOpentag res
            | TOK_TAG_OPEN => again [] true res
            | TOK_TAG_CLOSE => flush false
            | TOK_SEPARATOR | TOK_EOF => flush inOpentag
            end
      end
  end.

(** ParseAddressList, Tokenizer.cpp:276-353, with a bound on the recursion depth. *)
Fixpoint pal (char_signed : bool) (depth : nat) (input : bytes) : outcome (list bytes) :=
  match depth with
  | O => Diverge
  | S d => pal_loop char_signed (pal char_signed d) (S (fuel_of (open_str input)))
             (open_str input) TOK_SEPARATOR [] false []
  end.
Definition ParseAddressList (char_signed : bool) (input : bytes) : outcome (list bytes) :=
  pal char_signed (S (length input)) input.
