(** Properties C05-C10: whitespace, colon-separated lists, address lists. *)
From Verif Require Import Bytes Outcome Stream Tokenizer SpecText SpecAddress StreamFacts ListFacts ListExact ListWide
  AddressFacts AddressParse Examples.

(** C05.  [s_prev]/[s_rest] are the bytes before (reversed) and behind the read position. *)
Theorem C05_read_wsp : forall s w s', read_wsp s = (w, s') ->
  s_prev s' = rev w ++ s_prev s /\ s_rest s = w ++ s_rest s' /\ (w = [] \/ exists c, w = [c] /\ WSP c).
Proof. exact read_wsp_spec. Qed.
Print Assumptions C05_read_wsp.
Theorem C05_read_wsp_loose : forall s w s', read_wsp_loose s = (w, s') ->
  s_prev s' = rev w ++ s_prev s /\ s_rest s = w ++ s_rest s' /\ (w = [] \/ exists c, w = [c] /\ LWSP c).
Proof. exact read_loose_spec. Qed.
Print Assumptions C05_read_wsp_loose.
Theorem C05_read_crlf : forall s,
  (exists w s', read_crlf s = Ok (w, s') /\ s_prev s' = rev w ++ s_prev s /\
     s_rest s = w ++ s_rest s' /\ (w = [] \/ w = CRLF)) \/
  (read_crlf s = Throw (PermanentError AR_PERMERROR) /\ lone_CR_first (s_rest s)).
Proof. exact read_crlf_spec. Qed.
Print Assumptions C05_read_crlf.
Theorem C05_read_fws : forall s,
  (exists w s', read_fws s = Ok (w, s') /\ s_prev s' = rev w ++ s_prev s /\
     s_rest s = w ++ s_rest s' /\ (w = [] \/ FWS w)) \/
  (read_fws s = Throw (PermanentError AR_PERMERROR) /\
     exists w r, s_rest s = w ++ r /\ Forall WSP w /\ lone_CR_first r).
Proof. exact read_fws_spec. Qed.
Print Assumptions C05_read_fws.
Example C05_case_rollback : exists s', read_fws (open_str (esc " \t\r\nX")) = Ok ([], s') /\ s_rest s' = esc " \t\r\nX".
Proof. eexists. vm_compute. split; reflexivity. Qed.
Example C05_case_fold : exists s', read_fws (open_str (esc " \t\r\n X")) = Ok (esc " \t\r\n ", s') /\ s_rest s' = esc "X".
Proof. eexists. vm_compute. split; reflexivity. Qed.

Theorem C06_value_list_render_parse : forall vs t, rendered_list vs t -> ValueList t = Ok vs.
Proof. exact ValueList_rendered. Qed.
Print Assumptions C06_value_list_render_parse.
(** And nothing else is taken, but for folded items and a final ':' ([list_text]). *)
Theorem C06_value_list_exact : forall t vs, folds_only t -> ValueList t = Ok vs <-> list_text vs t.
Proof. exact ValueList_exact. Qed.
Print Assumptions C06_value_list_exact.
(** For every text, with the CRLFs that are not folds ([list_wide]). *)
Theorem C06_value_list_all : forall t vs, ValueList t = Ok vs <-> list_wide vs t.
Proof. exact ValueList_wide. Qed.
Print Assumptions C06_value_list_all.
Example C06_case_all : list_wide [esc "a \r\n"; esc "\r\nb"] (esc "a \r\n:\r\n \r\nb") /\ ValueList (esc "a \r\n:\r\n \r\nb") = Ok [esc "a \r\n"; esc "\r\nb"].
Proof. exact wide_case. Qed.
Example C06_case_exact : list_text [str "a"] (str "a:") /\ ValueList (str "a:") = Ok [str "a"] /\ folds_only (str "a:") /\ ValueList (str "a::b") = perm.
Proof. exact list_case. Qed.
Example C06_case : ValueList (esc "from : to\r\n\t:x y") = Ok [str "from"; str "to"; str "x y"].
Proof. vm_compute. reflexivity. Qed.
Example C06_case_rendered : rendered_list [str "from"; str "to"] ([SP] ++ str "from" ++ [SP] ++ COLON :: str "to" ++ CRLF ++ [HT]).
Proof. exact rendered_example. Qed.

(** C07.  The whitespace clause needs every CRLF to be followed by WSP (as in a header field). *)
Theorem C07_value_list_clean_partial : forall t,
  ValueList t = Throw (PermanentError AR_PERMERROR) \/
  exists vs, ValueList t = Ok vs /\
    Forall (fun v => v <> [] /\ ~ In COLON v /\ (folds_only t -> trimmed v)) vs.
Proof. exact ValueList_any. Qed.
Print Assumptions C07_value_list_clean_partial.
Theorem C07_value_list_clean_refuted : exists t vs, ValueList t = Ok vs /\ ~ Forall trimmed vs.
Proof. exact stray_crlf. Qed.
Print Assumptions C07_value_list_clean_refuted.
(** Whitespace stays only at the beginning of an item, in front of a CRLF that is not a fold. *)
Theorem C07_ends : forall t vs, ValueList t = Ok vs -> Forall (fun v => last_ok (fun c => ~ WSP c) v /\
  (first_ok (fun c => ~ WSP c) v \/ exists u r, u <> [] /\ Forall WSP u /\ v = u ++ CRLF ++ r /\ no_wsp r)) vs.
Proof. exact list_ends. Qed.
Print Assumptions C07_ends.
Example C07_case_ends : ValueList (esc "a: \r\nb") = Ok [esc "a"; esc " \r\nb"].
Proof. vm_compute. reflexivity. Qed.

(** C08.  Plain char signed, as on x86. *)
Theorem C08_address_list_total_partial : forall input,
  ParseAddressList true input = Throw (PermanentError AR_PERMERROR) \/
  exists l, ParseAddressList true input = Ok l /\
    Forall (fun a => ~ In (chr 0) a /\ length a <= length input) l.
Proof. exact ParseAddressList_any. Qed.
Print Assumptions C08_address_list_total_partial.
(** Where plain char is unsigned an unclosed quoted string is read for ever. *)
Theorem C08_unsigned_char_refuted : exists input,
  ParseAddressList false input = Diverge /\
  forall fuel token, quoted_loop false fuel (open_str []) token = Diverge.
Proof.
  exact (ex_intro _ [DQUOTE] (conj eq_refl
    (fun fuel token => quoted_loop_forever fuel _ _ token (St_open [])))).
Qed.
Print Assumptions C08_unsigned_char_refuted.

Theorem C09_address_list_render_parse : forall cs l t,
  mailbox_list true l t -> ParseAddressList cs t = Ok l.
Proof. exact ParseAddressList_rendered. Qed.
Print Assumptions C09_address_list_render_parse.
Example C09_case : mailbox_list true [str "a@b"; str "c@d"] (str "a@b,""x \"" <y"" Jo (n\)) <c@d>").
Proof. exact mailbox_example. Qed.

(** C10.  For comments in which no escape directly follows an escape. *)
Theorem C10_comment_bare_partial : forall cs a g1 ad g2,
  comment_text true a -> cfws true true g1 -> addr_spec ad -> cfws true true g2 ->
  let c := LP :: a ++ [RP] in
  ParseAddressList cs (g1 ++ c ++ ad ++ c ++ g2) = ParseAddressList cs (g1 ++ ad ++ g2).
Proof. exact comment_insert_bare. Qed.
Print Assumptions C10_comment_bare_partial.
Theorem C10_comment_angle_partial : forall cs a p1 p2 g1 ad g2 g3,
  comment_text true a -> phrase true true p2 ->
  phrase true true (p1 ++ p2) -> phrase true true (p1 ++ (LP :: a ++ [RP]) ++ p2) ->
  cfws true true g1 -> addr_spec ad -> cfws true true g2 -> cfws true true g3 ->
  let c := LP :: a ++ [RP] in
  ParseAddressList cs (p1 ++ c ++ p2 ++ LA :: g1 ++ c ++ ad ++ c ++ g2 ++ RA :: c ++ g3) =
  ParseAddressList cs (p1 ++ p2 ++ LA :: g1 ++ ad ++ g2 ++ RA :: g3).
Proof. exact comment_insert_angle. Qed.
Print Assumptions C10_comment_angle_partial.
Example C10_case : comment_text true (str "a (b \( c) d").
Proof. exact tame_comment_example. Qed.
(** Two adjacent escapes: the comment ends early and its rest becomes part of the address. *)
Theorem C10_comment_refuted : exists a ad l, comment_text false a /\ addr_spec ad /\
  ParseAddressList true (LP :: a ++ RP :: ad) = Ok l /\ l <> [ad].
Proof. exact adjacent_escapes. Qed.
Print Assumptions C10_comment_refuted.
