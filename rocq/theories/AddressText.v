(** The texts of the exceptions of ParseAddressList (Tokenizer.cpp): the functions of Tokenizer.v again, with the text
    in place of the class of the exception (always PermanentError). *)
From Verif Require Import Bytes Outcome Stream Tokenizer ErrorText.

(** The loop inside a quoted string, Tokenizer.cpp:199-217. *)
Fixpoint quoted_loop_says (char_signed : bool) (fuel : nat) (s : istream) (token : bytes)
  : says (bytes * istream) :=
  match fuel with
  | O => Endless
  | S f =>
      let '(g, s1) := get s in
      let c := as_char g in
      if char_signed && (c =?c chr 255) then Says (str "unclosed string")
      else if c =?c BSLASH then
        let '(o, s2) := peek s1 in
        match o with
        | None => Says (str "incomplete escape sequence")
        | Some _ => let '(g2, s3) := get s2 in
                    quoted_loop_says char_signed f s3 (token ++ [as_char g2])
        end
      else if c =?c DQUOTE then Fine (token, s1)
      else quoted_loop_says char_signed f s1 (token ++ [c])
  end.

(** The comment loop, Tokenizer.cpp:224-247. *)
Fixpoint comment_loop_says (fuel : nat) (depth : nat) (s : istream) (token : bytes)
  : says (bytes * istream) :=
  match fuel with
  | O => Endless
  | S f =>
      match depth with
      | O => Fine (token, s)
      | _ =>
          let '(o, s1) := peek s in
          match o with
          | None => Says (str "unclosed comment")
          | Some c =>
              let? (token1, s2) :=
                (if c =?c BSLASH then
                   let '(_, s2) := get s1 in
                   let '(o2, s3) := peek s2 in
                   match o2 with
                   | None => Says (str "incomplete escape sequence")
                   | Some _ => let '(g, s4) := get s3 in Fine (token ++ [as_char g], s4)
                   end
                 else Fine (token, s1)) in
              let '(o3, s5) := peek s2 in
              let d1 := match o3 with
                        | Some c3 => if c3 =?c LPAREN then S depth
                                     else if c3 =?c RPAREN then pred depth else depth
                        | None => depth
                        end in
              let '(g, s6) := get s5 in
              match d1 with
              | O => comment_loop_says f O s6 token1
              | _ => comment_loop_says f d1 s6 (token1 ++ [as_char g])
              end
          end
      end
  end.

(** NextAddressListToken, Tokenizer.cpp:182-274. *)
Fixpoint next_tok_says (char_signed : bool) (fuel : nat) (s : istream) (token : bytes)
  : says (addr_tok * bytes * istream) :=
  let finish s' := Fine (match token with [] => TOK_EOF | _ => TOK_ATOM end, token, s') in
  match fuel with
  | O => Endless
  | S f =>
      let '(o, s0) := peek s in
      match o with
      | None => finish s0
      | Some _ =>
          let? (w, s1) := read_fws_says s0 in
          match w, token with
          | _ :: _, _ :: _ => finish s1                      (* break, 188-192 *)
          | _, _ =>
              let '(o1, s2) := peek s1 in
              match o1 with
              | None => finish s2
              | Some c =>
                  if c =?c DQUOTE then
                    match token with
                    | _ :: _ => Fine (TOK_ATOM, token, s2)
                    | [] => let '(_, s3) := get s2 in
                            let? (t, s4) := quoted_loop_says char_signed (fuel_of s3) s3 [] in
                            Fine (TOK_QUOTED, t, s4)
                    end
                  else if c =?c LPAREN then
                    match token with
                    | _ :: _ => Fine (TOK_ATOM, token, s2)
                    | [] => let '(_, s3) := get s2 in
                            let? (t, s4) := comment_loop_says (fuel_of s3) 1 s3 [] in
                            Fine (TOK_COMMENT, t, s4)
                    end
                  else if c =?c LANGLE then
                    match token with
                    | _ :: _ => Fine (TOK_ATOM, token, s2)
                    | [] => let '(_, s3) := get s2 in Fine (TOK_TAG_OPEN, [], s3)
                    end
                  else if c =?c RANGLE then
                    match token with
                    | _ :: _ => Fine (TOK_ATOM, token, s2)
                    | [] => let '(_, s3) := get s2 in Fine (TOK_TAG_CLOSE, [], s3)
                    end
                  else if (c =?c COMMA) || (c =?c SEMI) then
                    match token with
                    | _ :: _ => Fine (TOK_ATOM, token, s2)
                    | [] => let '(_, s3) := get s2 in Fine (TOK_SEPARATOR, [], s3)
                    end
                  else let '(g, s3) := get s2 in next_tok_says char_signed f s3 (token ++ [as_char g])
              end
          end
      end
  end.

Definition NextAddressListToken_says (char_signed : bool) (s : istream) :=
  next_tok_says char_signed (fuel_of s) s [].

(** The loop of ParseAddressList, Tokenizer.cpp:283-350. *)
Fixpoint pal_loop_says (char_signed : bool) (rec : bytes -> says (list bytes)) (fuel : nat)
  (s : istream) (typ : addr_tok) (tokens : list bytes) (inOpentag : bool) (res : list bytes)
  : says (list bytes) :=
  match fuel with
  | O => Endless
  | S f =>
      match typ with
      | TOK_EOF => Fine res
      | _ =>
          let lasttype := typ in
          let? (t, s1) := NextAddressListToken_says char_signed s in
          let '(ty, token) := t in
          if has_char NUL token then Says (str "NUL character in address field")
          else
            let again := pal_loop_says char_signed rec f s1 ty in
            let flush inOpen :=
              if (inOpen : bool) then Says (str "unclosed < addr-spec >")
              else match tokens with
              | [] => again [] inOpen res
              | tok0 :: rest =>
                  if (match ty with TOK_SEPARATOR => true | _ => false end)
                     && negb (match lasttype with TOK_TAG_CLOSE => true | _ => false end)
                     && negb (has_char AT (last tokens []))
                  then again [] inOpen res
                  else
                    match lasttype, rest with
                    | TOK_QUOTED, [] =>
                        let? addrs := rec tok0 in again [] inOpen (res ++ addrs)
                    | _, _ => again [] inOpen (res ++ [concat tokens])
                    end
              end in
            match ty with
            | TOK_QUOTED | TOK_ATOM => again (tokens ++ [token]) inOpentag res
            | TOK_COMMENT => again tokens inOpentag res
            | TOK_TAG_OPEN => again [] true res
            | TOK_TAG_CLOSE => flush false
            | TOK_SEPARATOR | TOK_EOF => flush inOpentag
            end
      end
  end.

(** ParseAddressList, Tokenizer.cpp:276-353, with a bound on the recursion depth. *)
Fixpoint pal_says (char_signed : bool) (depth : nat) (input : bytes) : says (list bytes) :=
  match depth with
  | O => Endless
  | S d => pal_loop_says char_signed (pal_says char_signed d) (S (fuel_of (open_str input)))
             (open_str input) TOK_SEPARATOR [] false []
  end.
Definition AddressList_says (char_signed : bool) (input : bytes) : says (list bytes) :=
  pal_says char_signed (S (length input)) input.
