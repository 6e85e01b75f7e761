(** The functions of ParseAddressList once more, with the depth of comments as the [int] it is (Tokenizer.cpp:224). *)
From Verif Require Import Bytes Outcome Stream Tokenizer.

(** ++depth, Tokenizer.cpp:240: undefined from INT_MAX on. *)
Definition deeper (depth : nat) : outcome nat := if (Z.of_nat depth <? 2147483647)%Z then Ok (S depth) else UB UB_overflow.
(** The comment loop, Tokenizer.cpp:224-247. *)
Fixpoint comment_loop_int (fuel : nat) (depth : nat) (s : istream) (token : bytes)
  : outcome (bytes * istream) :=
  match fuel with
  | O => Diverge
  | S f =>
      match depth with
      | O => Ok (token, s)
      | _ =>
          let '(o, s1) := peek s in
          match o with
          | None => perm
          | Some c =>
              let* (token1, s2) :=
                (if c =?c BSLASH then
                   let '(_, s2) := get s1 in
                   let '(o2, s3) := peek s2 in
                   match o2 with
                   | None => perm
                   | Some _ => let '(g, s4) := get s3 in Ok (token ++ [as_char g], s4)
                   end
                 else Ok (token, s1)) in
              let '(o3, s5) := peek s2 in
              let* d1 := match o3 with
                         | Some c3 => if c3 =?c LPAREN then deeper depth
                                      else if c3 =?c RPAREN then Ok (pred depth) else Ok depth
                         | None => Ok depth
                         end in
              let '(g, s6) := get s5 in
              match d1 with
              | O => comment_loop_int f O s6 token1
              | _ => comment_loop_int f d1 s6 (token1 ++ [as_char g])
              end
          end
      end
  end.

(** NextAddressListToken, Tokenizer.cpp:182-274. *)
Fixpoint next_tok_int (char_signed : bool) (fuel : nat) (s : istream) (token : bytes)
  : outcome (addr_tok * bytes * istream) :=
  let finish s' := Ok (match token with [] => TOK_EOF | _ => TOK_ATOM end, token, s') in
  match fuel with
  | O => Diverge
  | S f =>
      let '(o, s0) := peek s in
      match o with
      | None => finish s0
      | Some _ =>
          let* (w, s1) := read_fws s0 in
          match w, token with
          | _ :: _, _ :: _ => finish s1                      (* break, 188-192 *)
          | _, _ =>
              let '(o1, s2) := peek s1 in
              match o1 with
              | None => finish s2
              | Some c =>
                  if c =?c DQUOTE then
                    match token with
                    | _ :: _ => Ok (TOK_ATOM, token, s2)
                    | [] => let '(_, s3) := get s2 in
                            let* (t, s4) := quoted_loop char_signed (fuel_of s3) s3 [] in
                            Ok (TOK_QUOTED, t, s4)
                    end
                  else if c =?c LPAREN then
                    match token with
                    | _ :: _ => Ok (TOK_ATOM, token, s2)
                    | [] => let '(_, s3) := get s2 in
                            let* (t, s4) := comment_loop_int (fuel_of s3) 1 s3 [] in
                            Ok (TOK_COMMENT, t, s4)
                    end
                  else if c =?c LANGLE then
                    match token with
                    | _ :: _ => Ok (TOK_ATOM, token, s2)
                    | [] => let '(_, s3) := get s2 in Ok (TOK_TAG_OPEN, [], s3)
                    end
                  else if c =?c RANGLE then
                    match token with
                    | _ :: _ => Ok (TOK_ATOM, token, s2)
                    | [] => let '(_, s3) := get s2 in Ok (TOK_TAG_CLOSE, [], s3)
                    end
                  else if (c =?c COMMA) || (c =?c SEMI) then
                    match token with
                    | _ :: _ => Ok (TOK_ATOM, token, s2)
                    | [] => let '(_, s3) := get s2 in Ok (TOK_SEPARATOR, [], s3)
                    end
                  else let '(g, s3) := get s2 in next_tok_int char_signed f s3 (token ++ [as_char g])
              end
          end
      end
  end.

Definition NextAddressListToken_int (char_signed : bool) (s : istream) :=
  next_tok_int char_signed (fuel_of s) s [].

(** The loop of ParseAddressList, Tokenizer.cpp:283-350.  [rec] is the recursive call (333),
    [typ] the type of the previous token. *)
Fixpoint pal_loop_int (char_signed : bool) (rec : bytes -> outcome (list bytes)) (fuel : nat)
  (s : istream) (typ : addr_tok) (tokens : list bytes) (inOpentag : bool) (res : list bytes)
  : outcome (list bytes) :=
  match fuel with
  | O => Diverge
  | S f =>
      match typ with
      | TOK_EOF => Ok res
      | _ =>
          let lasttype := typ in
          let* (t, s1) := NextAddressListToken_int char_signed s in
          let '(ty, token) := t in
          if has_char NUL token then perm
          else
            let again := pal_loop_int char_signed rec f s1 ty in
            let flush inOpen :=
              if (inOpen : bool) then perm
              else match tokens with
              | [] => again [] inOpen res
              | tok0 :: rest =>
                  if (match ty with TOK_SEPARATOR => true | _ => false end)
                     && negb (match lasttype with TOK_TAG_CLOSE => true | _ => false end)
                     && negb (has_char AT (last tokens []))
                  then again [] inOpen res
                  else
                    match lasttype, rest with
                    | TOK_QUOTED, [] =>
                        let* addrs := rec tok0 in again [] inOpen (res ++ addrs)
                    | _, _ => again [] inOpen (res ++ [concat tokens])
                    end
              end in
            match ty with
            | TOK_QUOTED | TOK_ATOM => again (tokens ++ [token]) inOpentag res
            | TOK_COMMENT => again tokens inOpentag res
            | TOK_TAG_OPEN => again [] true res
            | TOK_TAG_CLOSE => flush false
            | TOK_SEPARATOR | TOK_EOF => flush inOpentag
            end
      end
  end.

(** ParseAddressList, Tokenizer.cpp:276-353, with a bound on the recursion depth. *)
Fixpoint pal_int (char_signed : bool) (depth : nat) (input : bytes) : outcome (list bytes) :=
  match depth with
  | O => Diverge
  | S d => pal_loop_int char_signed (pal_int char_signed d) (S (fuel_of (open_str input)))
             (open_str input) TOK_SEPARATOR [] false []
  end.
Definition ParseAddressList_int (char_signed : bool) (input : bytes) : outcome (list bytes) :=
  pal_int char_signed (S (length input)) input.
