(** Specification vocabulary for C94: unstructured text with encoded words, RFC 2047, and what is to be
    displayed.  Nothing of the model is used.  The limit of 75 characters for a word is left out. *)
From Verif Require Import Bytes SpecText SpecWord SpecBase64.

(** RFC 2047 2: a token has no blanks, no control characters and none of the especials. *)
Definition token (s : bytes) : Prop :=
  s <> [] /\ Forall (fun c => printable c /\ ~ In c (str "()<>@,;:/[]?.=" ++ [chr 34])) s.
(** RFC 2047 4.2: "_" is a blank, "=" and two hexadecimal digits are a byte, the other printable characters
    but "?" are themselves. *)
Inductive q_text : bytes -> bytes -> Prop :=
| q_end : q_text [] []
| q_under s d : q_text s d -> q_text (chr 95 :: s) (SP :: d)
| q_char c s d : printable c -> c <> EQUALS -> c <> MARK -> c <> chr 95 -> q_text s d -> q_text (c :: s) (c :: d)
| q_hex h1 h2 a b s d : hex_digit h1 a -> hex_digit h2 b -> q_text s d -> q_text (EQUALS :: h1 :: h2 :: s) (chr (16 * a + b) :: d).

(** The parts of a text between blanks: ordinary ones, and words [x] that stand for [y]. *)
Inductive item := Plain (p : bytes) | Coded (charset encoding x y : bytes).
Definition written (i : item) : bytes := match i with Plain p => p | Coded cs enc x _ => word cs enc x end.
Definition meant (i : item) : bytes := match i with Plain p => p | Coded _ _ _ y => y end.
Definition coded (i : item) : Prop := match i with Plain _ => False | Coded _ _ _ _ => True end.
Definition coded_item (i : item) : Prop :=
  match i with
  | Plain _ => False
  | Coded cs enc x y => token cs /\
      ((enc = str "q" \/ enc = str "Q") /\ q_text x y \/ (enc = str "b" \/ enc = str "B") /\ b64_text y x)
  end.
Definition good_item (i : item) : Prop :=
  match i with
  | Plain p => p <> [] /\ Forall (fun c => ~ LWSP c) p /\ forall j, coded_item j -> written j <> p
  | Coded _ _ _ _ => coded_item i
  end.

(** RFC 2047 6.2: blanks between two words are not displayed, all other blanks are.  [follows i l t d]: the parts [l]
    behind [i], as written and as displayed; [unstructured l t d]: a whole text.  Blanks in front and behind are not counted. *)
Inductive follows : item -> list item -> bytes -> bytes -> Prop :=
| fo_end i w : FWSs w -> follows i [] w []
| fo_words i w j l t d : FWSs w -> w <> [] -> coded i -> coded j -> good_item j -> follows j l t d ->
    follows i (j :: l) (w ++ written j ++ t) (meant j ++ d)
| fo_other i w v j l t d : FWSs w -> w <> [] -> gap w v -> ~ (coded i /\ coded j) -> good_item j -> follows j l t d ->
    follows i (j :: l) (w ++ written j ++ t) (v ++ meant j ++ d).
Inductive unstructured : list item -> bytes -> bytes -> Prop :=
| un_none w : FWSs w -> unstructured [] w []
| un_some w j l t d : FWSs w -> good_item j -> follows j l t d -> unstructured (j :: l) (w ++ written j ++ t) (meant j ++ d).

(** A word behind an ordinary part. *)
Definition word_behind (l : list item) : Prop := exists a p j b, l = a ++ Plain p :: j :: b /\ coded j.
(** Parts without "=?" in ordinary ones and without ";" in Q words. *)
Definition tame_item (i : item) : Prop :=
  match i with
  | Plain p => forall a b, p <> a ++ EQUALS :: MARK :: b
  | Coded _ enc x _ => enc = str "q" \/ enc = str "Q" -> ~ In SEMI x
  end.
