(** Specification vocabulary for encoded words (RFC 2047).  Of the model only base64 is used. *)
From Verif Require Import Bytes SpecText Base64.

(** Blanks and line ends between words, and what is left of them when the line ends are dropped. *)
Inductive gap : bytes -> bytes -> Prop :=
| gap_nil : gap [] []
| gap_wsp c w v : WSP c -> gap w v -> gap (c :: w) (c :: v)
| gap_crlf w v : gap w v -> gap (CR :: LF :: w) v.

(** =?charset?encoding?text?= *)
Definition MARK : ascii := chr 63.
Definition word (charset encoding text : bytes) : bytes :=
  EQUALS :: MARK :: charset ++ MARK :: encoding ++ MARK :: text ++ [MARK; EQUALS].
Definition parts (charset encoding text : bytes) : Prop := ~ In MARK charset /\ ~ In MARK encoding /\ ~ In MARK text.
(** What may follow a word. *)
Definition word_end (r : bytes) : Prop := first_ok LWSP r.
(** The bytes a word stands for. *)
Definition content (junk : bytes -> bytes) (encoding text d : bytes) : Prop :=
  ((encoding = str "q" \/ encoding = str "Q") /\ qp_text true text d) \/
  ((encoding = str "b" \/ encoding = str "B") /\ d = Base64_Decode junk text).

(** [bad b r]: [b], followed by [r], begins like a word and is none. *)
Inductive bad (junk : bytes -> bytes) : bytes -> bytes -> Prop :=
| bad_mark r : first_ok (fun c => c <> MARK) r -> bad junk [EQUALS] r
| bad_charset x : ~ In MARK x -> bad junk (EQUALS :: MARK :: x) []
| bad_encoding cs x : ~ In MARK cs -> ~ In MARK x -> bad junk (EQUALS :: MARK :: cs ++ MARK :: x) []
| bad_text cs enc x : parts cs enc x -> bad junk (EQUALS :: MARK :: cs ++ MARK :: enc ++ MARK :: x) []
| bad_close cs enc x r : parts cs enc x -> first_ok (fun c => c <> EQUALS) r ->
    bad junk (EQUALS :: MARK :: cs ++ MARK :: enc ++ MARK :: x ++ [MARK]) r
| bad_end cs enc x c r : parts cs enc x -> ~ LWSP c -> bad junk (word cs enc x) (c :: r)
| bad_content cs enc x r : parts cs enc x -> word_end r -> (forall d, ~ content junk enc x d) -> bad junk (word cs enc x) r.

(** Text and what it decodes to. *)
Inductive decoded (junk : bytes -> bytes) : bytes -> bytes -> Prop :=
| dec_end w v : gap w v -> decoded junk w []
| dec_char w v c r d : gap w v -> ~ WSP c -> c <> CR -> c <> EQUALS -> decoded junk r d -> decoded junk (w ++ c :: r) (v ++ c :: d)
| dec_word w v cs enc x r y d : gap w v -> parts cs enc x -> word_end r -> content junk enc x y -> decoded junk r d ->
    decoded junk (w ++ word cs enc x ++ r) (y ++ d)
| dec_bad w v b r d : gap w v -> bad junk b r -> decoded junk r d -> decoded junk (w ++ b ++ r) (v ++ b ++ d).

(** [begun w r]: the text [w ++ r] is decoded from [r] on.  [w] is folding whitespace; in front of a CRLF that
    is no fold [w] ends with a fold, or is empty. *)
Definition begun (w r : bytes) : Prop :=
  FWSs w /\ (first_ok (fun c => ~ WSP c /\ c <> CR) r \/
    exists u b, r = u ++ CRLF ++ b /\ Forall WSP u /\ first_ok (fun c => ~ WSP c) b /\ (w = [] \/ u = [] /\ In CR w)).

(** A sequence of words with blanks and line ends between and behind them, and the bytes it stands for. *)
Inductive words (junk : bytes -> bytes) : bytes -> bytes -> Prop :=
| words_none w v : gap w v -> words junk w []
| words_more w v cs enc x y r d : gap w v -> parts cs enc x -> content junk enc x y -> word_end r -> words junk r d ->
    words junk (w ++ word cs enc x ++ r) (y ++ d).
