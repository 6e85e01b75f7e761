(** How much work ParseAddressList does: the calls of peek, get and putback on the stream (a second peek at the same byte is
    not counted). *)
From Verif Require Import Bytes Outcome Stream Tokenizer Work.

(** The quoted-string loop, Tokenizer.cpp:199-217. *)
Fixpoint quoted_work (char_signed : bool) (fuel : nat) (s : istream) : nat :=
  match fuel with
  | O => 0
  | S f =>
      let '(g, s1) := get s in
      let c := as_char g in
      1 + if char_signed && (c =?c chr 255) then 0
          else if c =?c BSLASH then
            let '(o, s2) := peek s1 in
            1 + match o with None => 0 | Some _ => let '(_, s3) := get s2 in 1 + quoted_work char_signed f s3 end
          else if c =?c DQUOTE then 0
          else quoted_work char_signed f s1
  end.

(** The comment loop, Tokenizer.cpp:224-247. *)
Fixpoint comment_work (fuel : nat) (depth : nat) (s : istream) : nat :=
  match fuel with
  | O => 0
  | S f =>
      let step s2 :=
        let '(o3, s5) := peek s2 in
        let d1 := match o3 with
                  | Some c3 => if c3 =?c LPAREN then S depth else if c3 =?c RPAREN then pred depth else depth
                  | None => depth
                  end in
        let '(_, s6) := get s5 in
        2 + comment_work f d1 s6 in
      match depth with
      | O => 0
      | _ =>
          let '(o, s1) := peek s in
          1 + match o with
              | None => 0
              | Some c =>
                  if c =?c BSLASH then
                    let '(_, s2) := get s1 in
                    let '(o2, s3) := peek s2 in
                    2 + match o2 with None => 0 | Some _ => let '(_, s4) := get s3 in 1 + step s4 end
                  else step s1
              end
      end
  end.

(** NextAddressListToken, Tokenizer.cpp:182-274. *)
Fixpoint next_work (char_signed : bool) (fuel : nat) (s : istream) (token : bytes) : nat :=
  match fuel with
  | O => 0
  | S f =>
      let '(o, s0) := peek s in
      1 + match o with
          | None => 0
          | Some _ =>
              fws_work s0 +
              match read_fws s0 with
              | Ok (w, s1) =>
                  match w, token with
                  | _ :: _, _ :: _ => 0
                  | _, _ =>
                      let '(o1, s2) := peek s1 in
                      1 + match o1 with
                          | None => 0
                          | Some c =>
                              if c =?c DQUOTE then
                                match token with _ :: _ => 0 | [] => let '(_, s3) := get s2 in 1 + quoted_work char_signed (fuel_of s3) s3 end
                              else if c =?c LPAREN then
                                match token with _ :: _ => 0 | [] => let '(_, s3) := get s2 in 1 + comment_work (fuel_of s3) 1 s3 end
                              else if (c =?c LANGLE) || (c =?c RANGLE) || (c =?c COMMA) || (c =?c SEMI) then
                                match token with _ :: _ => 0 | [] => 1 end
                              else let '(g, s3) := get s2 in 1 + next_work char_signed f s3 (token ++ [as_char g])
                          end
                  end
              | _ => 0
              end
          end
  end.

(** The loop of ParseAddressList, Tokenizer.cpp:283-350; [rwork] is the work of the recursive call [rec]. *)
Fixpoint pal_loop_work (char_signed : bool) (rec : bytes -> outcome (list bytes)) (rwork : bytes -> nat) (fuel : nat)
  (s : istream) (typ : addr_tok) (tokens : list bytes) (inOpentag : bool) : nat :=
  match fuel with
  | O => 0
  | S f =>
      match typ with
      | TOK_EOF => 0
      | _ =>
          next_work char_signed (fuel_of s) s [] +
          match NextAddressListToken char_signed s with
          | Ok (ty, token, s1) =>
              if has_char NUL token then 0
              else
                let again := pal_loop_work char_signed rec rwork f s1 ty in
                let flush inOpen :=
                  if (inOpen : bool) then 0
                  else match tokens with
                  | [] => again [] inOpen
                  | tok0 :: rest =>
                      if (match ty with TOK_SEPARATOR => true | _ => false end)
                         && negb (match typ with TOK_TAG_CLOSE => true | _ => false end)
                         && negb (has_char AT (last tokens []))
                      then again [] inOpen
                      else
                        match typ, rest with
                        | TOK_QUOTED, [] => rwork tok0 + match rec tok0 with Ok _ => again [] inOpen | _ => 0 end
                        | _, _ => again [] inOpen
                        end
                  end in
                match ty with
                | TOK_QUOTED | TOK_ATOM => again (tokens ++ [token]) inOpentag
                | TOK_COMMENT => again tokens inOpentag
                | TOK_TAG_OPEN => again [] true
                | TOK_TAG_CLOSE => flush false
                | TOK_SEPARATOR | TOK_EOF => flush inOpentag
                end
          | _ => 0
          end
      end
  end.

(** ParseAddressList, Tokenizer.cpp:276-353. *)
Fixpoint pal_work (char_signed : bool) (depth : nat) (input : bytes) : nat :=
  match depth with
  | O => 0
  | S d => pal_loop_work char_signed (pal char_signed d) (pal_work char_signed d) (S (fuel_of (open_str input))) (open_str input) TOK_SEPARATOR [] false
  end.
Definition address_work (char_signed : bool) (input : bytes) : nat := pal_work char_signed (S (length input)) input.
