(** Model of src/TagList.cpp and src/TagList.hpp. *)
From Verif Require Import Bytes Outcome Stream Tokenizer.

(** TagListEntry, TagList.hpp:29-46. *)
Record tag_entry := mkEntry { te_value : bytes; te_offset : Z }.

(** std::map<std::string, TagListEntry> m_tags, TagList.hpp:59: an association list in order
    of insertion (the map's iteration order is not modelled). *)
Definition taglist := list (bytes * tag_entry).

(** TagList::GetTag, TagList.cpp:199-207: [None] is [return false]. *)
Fixpoint GetTag (name : bytes) (t : taglist) : option tag_entry :=
  match t with
  | [] => None
  | (n, e) :: r => if beqb n name then Some e else GetTag name r
  end.

(** TagList::Reset, TagList.cpp:92-95. *)
Definition TagList_Reset (t : taglist) : taglist := [].

(** TagList.cpp:114-116. *)
Definition is_alnum (c : ascii) : bool := is_upper c || is_lower c || is_digit c.
(** TagList.cpp:121-124. *)
Definition is_namechar (c : ascii) : bool := is_alnum c || (c =?c chr 95).
(** TagList.cpp:164-165: printable except ';'. *)
Definition is_valchar (c : ascii) : bool := in_range 33 58 c || in_range 60 126 c.

(** the loop over further name characters, TagList.cpp:120-127. *)
Fixpoint tl_name_rest (fuel : nat) (s : istream) (name : bytes) : outcome (bytes * istream) :=
  match fuel with
  | O => Diverge
  | S f =>
      let '(o, s1) := peek s in
      match o with
      | Some c => if is_namechar c then let '(g, s2) := get s1 in tl_name_rest f s2 (name ++ [as_char g])
                  else Ok (name, s1)
      | None => Ok (name, s1)
      end
  end.

(** tag-name, TagList.cpp:112-127.  The first test does not leave when it fails, so a name
    may start with '_'. *)
Definition tl_name (s : istream) : outcome (bytes * istream) :=
  let '(o, s1) := peek s in
  match o with
  | Some c => if is_alnum c then let '(g, s2) := get s1 in tl_name_rest (fuel_of s2) s2 [as_char g]
              else tl_name_rest (fuel_of s1) s1 []
  | None => tl_name_rest (fuel_of s1) s1 []
  end.

(** tag-value, TagList.cpp:160-186. *)
Fixpoint tl_value (fuel : nat) (s : istream) (value vbuf : bytes) : outcome (bytes * istream) :=
  match fuel with
  | O => Diverge
  | S f =>
      let '(o, s1) := peek s in
      match o with
      | None => Ok (value, s1)
      | Some c =>
          if c =?c SEMI then Ok (value, s1)
          else if is_valchar c then
            let '(g, s2) := get s1 in tl_value f s2 (value ++ vbuf ++ [as_char g]) []
          else
            let '(ws, s2) := read_wsp_loose s1 in
            match ws with
            | [] => perm
            | _ => tl_value f s2 value (vbuf ++ ws)
            end
      end
  end.

(** TagList::Parse, TagList.cpp:97-197.  Returns the map as it is when the call ends, also
    when it ends with an exception. *)
Fixpoint tl_loop (fuel : nat) (s : istream) (tags : taglist) : taglist * outcome unit :=
  match fuel with
  | O => (tags, Diverge)
  | S f =>
      match skip_loose (fuel_of s) s with
      | Ok s1 =>
          let '(o, s2) := peek s1 in
          match o with
          | None => (tags, Ok tt)
          | Some _ =>
              match (let* (name, s3) := tl_name s2 in
                     match name with
                     | [] => perm
                     | _ =>
                         match GetTag name tags with
                         | Some _ => perm
                         | None =>
                             let* s4 := skip_loose (fuel_of s3) s3 in
                             let '(o2, s5) := peek s4 in
                             match o2 with
                             | Some e =>
                                 if e =?c EQUALS then
                                   let '(_, s6) := get s5 in
                                   let* s7 := skip_loose (fuel_of s6) s6 in
                                   let '(off, s8) := tellg s7 in
                                   let* (value, s9) := tl_value (fuel_of s8) s8 [] [] in
                                   Ok (name, mkEntry value off, s9)
                                 else perm
                             | None => perm
                             end
                         end
                     end) with
              | Ok (name, entry, s9) =>
                  let tags' := tags ++ [(name, entry)] in
                  let '(g, s10) := get s9 in
                  match g with
                  | None => (tags', Ok tt)
                  | Some _ => tl_loop f s10 tags'
                  end
              | Throw e => (tags, Throw e)
              | UB k => (tags, UB k)
              | Diverge => (tags, Diverge)
              end
          end
      | Throw e => (tags, Throw e)
      | UB k => (tags, UB k)
      | Diverge => (tags, Diverge)
      end
  end.
Definition TagList_Parse (tags : taglist) (input : bytes) : taglist * outcome unit :=
  tl_loop (fuel_of (open_str input)) (open_str input) tags.
