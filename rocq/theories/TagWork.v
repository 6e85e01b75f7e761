(** How much work it is to read a tag list, and to bring a header field into its relaxed form: the calls of peek, get and putback on
    the stream (a second peek at the same byte is not counted); for the relaxed form also the bytes the string operations look at or move. *)
From Verif Require Import Bytes Outcome Stream Tokenizer TagList Canonicalization Work.

(** [while (!ReadWhiteSpace(data, READ_WSP_LOOSE).empty());] *)
Fixpoint loose_work (fuel : nat) (s : istream) : nat :=
  match fuel with
  | O => 0
  | S f => let '(w, s1) := read_wsp_loose s in match w with [] => 1 | _ => 2 + loose_work f s1 end
  end.
(** The name, TagList.cpp:112-127. *)
Fixpoint name_rest_work (fuel : nat) (s : istream) : nat :=
  match fuel with
  | O => 0
  | S f =>
      let '(o, s1) := peek s in
      1 + match o with
          | Some c => if is_namechar c then let '(_, s2) := get s1 in 1 + name_rest_work f s2 else 0
          | None => 0
          end
  end.
Definition name_work (s : istream) : nat :=
  let '(o, s1) := peek s in
  1 + match o with
      | Some c => if is_alnum c then let '(_, s2) := get s1 in 1 + name_rest_work (fuel_of s2) s2 else name_rest_work (fuel_of s1) s1
      | None => name_rest_work (fuel_of s1) s1
      end.
(** The value, TagList.cpp:160-186. *)
Fixpoint tag_value_work (fuel : nat) (s : istream) : nat :=
  match fuel with
  | O => 0
  | S f =>
      let '(o, s1) := peek s in
      1 + match o with
          | None => 0
          | Some c =>
              if c =?c SEMI then 0
              else if is_valchar c then let '(_, s2) := get s1 in 1 + tag_value_work f s2
              else let '(ws, s2) := read_wsp_loose s1 in
                   match ws with [] => 2 | _ => 2 + tag_value_work f s2 end     (* 2: peek and tellg for the text of the exception *)
          end
  end.
(** TagList::Parse, TagList.cpp:97-197; the comparisons of names in the map are not counted. *)
Fixpoint tags_work (fuel : nat) (s : istream) (tags : taglist) : nat :=
  match fuel with
  | O => 0
  | S f =>
      loose_work (fuel_of s) s +
      match skip_loose (fuel_of s) s with
      | Ok s1 =>
          let '(o, s2) := peek s1 in
          1 + match o with
              | None => 0
              | Some _ =>
                  name_work s2 +
                  match tl_name s2 with
                  | Ok (name, s3) =>
                      match name, GetTag name tags with
                      | [], _ => 1                                             (* tellg *)
                      | _, Some _ => 0
                      | _, None =>
                          loose_work (fuel_of s3) s3 +
                          match skip_loose (fuel_of s3) s3 with
                          | Ok s4 =>
                              let '(o2, s5) := peek s4 in
                              1 + match o2 with
                                  | Some e =>
                                      if e =?c EQUALS then
                                        let '(_, s6) := get s5 in
                                        1 + loose_work (fuel_of s6) s6 +
                                        match skip_loose (fuel_of s6) s6 with
                                        | Ok s7 =>
                                            let '(off, s8) := tellg s7 in
                                            1 + tag_value_work (fuel_of s8) s8 +
                                            match tl_value (fuel_of s8) s8 [] [] with
                                            | Ok (value, s9) =>
                                                let '(g, s10) := get s9 in
                                                1 + match g with None => 0 | Some _ => tags_work f s10 (tags ++ [(name, mkEntry value off)]) end
                                            | _ => 0
                                            end
                                        | _ => 0
                                        end
                                      else 2
                                  | None => 2
                                  end
                          | _ => 0
                          end
                      end
                  | _ => 0
                  end
              end
      | _ => 0
      end
  end.
Definition taglist_work (t : bytes) : nat := tags_work (fuel_of (open_str t)) (open_str t) [].

(** The unfolding loop, Canonicalization.cpp:85-98. *)
Fixpoint unfold_work (fuel : nat) (s : istream) : nat :=
  match fuel with
  | O => 0
  | S f =>
      fws_work s +
      match read_fws s with
      | Ok (w, s1) =>
          (match w with [] => 0 | _ => skip_work (fuel_of s1) s1 end) +
          match (match w with [] => Ok s1 | _ => skip_fws (fuel_of s1) s1 end) with
          | Ok s2 =>
              let '(o, s3) := peek s2 in
              1 + match o with None => 0 | Some _ => let '(_, s4) := get s3 in 1 + unfold_work f s4 end
          | _ => 0
          end
      | _ => 0
      end
  end.
(** FilterHeader, Canonicalization.cpp:44-122: the copy of the text, find and transform for the name, the stream, the text that is
    built, two searches and two erasures in it (each looks at it or moves it once), and the copy of the name in it. *)
Definition filter_work (strict : bool) (input : bytes) : nat :=
  length input +
  match find_char COLON input with
  | None => length input
  | Some colon =>
      2 * S colon +
      match lower_str strict (firstn colon input) with
      | Ok name =>
          let output := name ++ skipn colon input in
          length output + unfold_work (fuel_of (open_str output)) (open_str output) +
          match fh_loop (fuel_of (open_str output)) (open_str output) [] with Ok x => 7 * length x | _ => 0 end
      | _ => 0
      end
  end.
