(** The strict reading of tolower and isspace against the usual one (for C100). *)
From Verif Require Import Bytes Outcome Stream Tokenizer QuotedPrintable Base64 TagList MailParser Canonicalization Util
  CStdlib Crypto Signature PublicKey SignatoryOptions Signatory Validatory Tool ToolText.

Definition near {A} (x y : outcome A) : Prop := x = UB UB_ctype \/ x = y.
Definition pnear {S A} (x y : S * outcome A) : Prop := snd x = UB UB_ctype \/ x = y.
Lemma near_refl {A} (x : outcome A) : near x x.
Proof. right. reflexivity. Qed.
Lemma pnear_refl {S A} (x : S * outcome A) : pnear x x.
Proof. right. reflexivity. Qed.
Lemma near_bind {A B} (x y : outcome A) (k k' : A -> outcome B) : near x y -> (forall a, near (k a) (k' a)) -> near (obind x k) (obind y k').
Proof. intros [->| ->] H; [left; reflexivity|]. destruct y; cbn [obind]; auto; right; reflexivity. Qed.
Lemma near_lower strict s : near (lower_str strict s) (lower_str false s).
Proof. unfold lower_str. destruct strict; cbn [andb]; [|apply near_refl]. destruct existsb; [left|right]; reflexivity. Qed.
Lemma near_strip strict s : near (strip_space strict s) (strip_space false s).
Proof. unfold strip_space. destruct strict; cbn [andb]; [|apply near_refl]. destruct existsb; [left|right]; reflexivity. Qed.
Lemma pnear_sbind {S} (x y : S * outcome unit) k k' : pnear x y -> (forall s, pnear (k s) (k' s)) -> pnear (sbind x k) (sbind y k').
Proof.
  intros [X| ->] H.
  - left. destruct x as [s o]. cbn [snd] in X. subst o. reflexivity.
  - destruct y as [s []]; cbn [sbind]; auto; right; reflexivity.
Qed.
Lemma pnear_slift {S A} (s : S) (x y : outcome A) k k' : near x y -> (forall a, pnear (k a) (k' a)) -> pnear (slift s x k) (slift s y k').
Proof. intros [->| ->] H; [left; reflexivity|]. destruct y; cbn [slift]; auto; right; reflexivity. Qed.
Ltac nears := repeat first [apply near_refl|apply pnear_refl|apply near_lower|apply near_strip|apply near_bind|apply pnear_sbind|apply pnear_slift|intro].

(** ** Each operation *)
Lemma filter_near strict mode t : near (FilterHeader strict mode t) (FilterHeader false mode t).
Proof. destruct mode; [apply near_refl|]. unfold FilterHeader. destruct (find_char COLON t); nears. Qed.
Lemma arc_near strict n st : pnear (parse_arc strict n st) (parse_arc false n st).
Proof. unfold parse_arc. nears. Qed.
Lemma d_near strict st : pnear (parse_d strict st) (parse_d false st).
Proof. unfold parse_d. destruct tag; nears. Qed.
Lemma b_near C strict st : pnear (parse_b C strict st) (parse_b C false st).
Proof. unfold parse_b. destruct tag as [e|]; [destruct (te_value e)|]; nears. Qed.
Lemma bh_near C strict st : pnear (parse_bh C strict st) (parse_bh C false st).
Proof. unfold parse_bh. destruct tag as [e|]; nears. Qed.
Lemma i_near strict st : pnear (parse_i strict st) (parse_i false st).
Proof. unfold parse_i. destruct (sg_arc _); [nears|]. destruct tag as [e|]; [|nears]. apply pnear_slift; [nears|]. intros m. destruct find_char; nears. Qed.
Lemma Signature_near C strict now h st : pnear (Signature_Parse C strict now h st) (Signature_Parse C false now h st).
Proof. unfold Signature_Parse. repeat first [apply arc_near|apply d_near|apply b_near|apply bh_near|apply i_near|apply pnear_refl|apply pnear_sbind|intro]. Qed.
Lemma p_near C strict p : pnear (key_p C strict p) (key_p C false p).
Proof. unfold key_p. destruct ktag as [e|]; [destruct (te_value e)|]; nears. Qed.
Lemma PublicKey_near C strict r p : pnear (PublicKey_Parse C strict r p) (PublicKey_Parse C false r p).
Proof. unfold PublicKey_Parse. repeat first [apply p_near|apply pnear_refl|apply pnear_sbind|intro]. Qed.
Lemma collect_near strict w hs : near (collect strict w hs) (collect false w hs).
Proof. induction hs as [|h hs IH]; cbn [collect]; [apply near_refl|]. nears. exact IH. Qed.
Lemma validatory_near strict ty s : near (new_validatory strict ty s) (new_validatory false ty s).
Proof.
  unfold new_validatory. apply near_bind; [apply near_refl|]. intros [m s1]. destruct ty; try apply near_refl; (apply near_bind; [apply collect_near|intros; apply near_refl]).
Qed.
Lemma GetSignature_near C strict now h st v : snd (GetSignature C strict now h st v) = UB UB_ctype \/ GetSignature C strict now h st v = GetSignature C false now h st v.
Proof.
  unfold GetSignature. destruct (Signature_near C strict now h st) as [E|E].
  - left. destruct (Signature_Parse C strict now h st) as [s o]. cbn [snd] in E. subst o. reflexivity.
  - right. rewrite E. reflexivity.
Qed.
Lemma GetPublicKey_near C strict res g p : pnear (GetPublicKey C strict res g p) (GetPublicKey C false res g p).
Proof. unfold GetPublicKey. apply pnear_slift; [apply near_refl|]. intros [[] []]; try apply pnear_refl. apply PublicKey_near. Qed.
Lemma cache_near strict hs : forall c, near (build_cache strict hs c) (build_cache false hs c).
Proof. induction hs as [|h hs IH]; intros c; cbn [build_cache]; [apply near_refl|]. apply near_bind; [apply near_lower|]. intros n. apply IH. Qed.
Lemma hash_near strict mode names : forall c, near (hash_headers strict mode names c) (hash_headers false mode names c).
Proof.
  induction names as [|n names IH]; intros c; cbn [hash_headers]; [apply near_refl|]. apply near_bind; [apply near_lower|]. intros m.
  destruct cache_pop as [[h c1]|]; [|apply IH]. apply near_bind; [apply filter_near|]. intros x. apply near_bind; [apply IH|]. intros; apply near_refl.
Qed.
Lemma signed_near strict h g v : near (signed_data strict h g v) (signed_data false h g v).
Proof.
  unfold signed_data. apply near_bind; [apply cache_near|]. intros c. apply near_bind; [apply hash_near|]. intros d.
  apply near_bind; [apply near_refl|]. intros x. apply near_bind; [apply near_refl|]. intros y. apply near_bind; [apply filter_near|]. intros; apply near_refl.
Qed.
Lemma Check_near C strict h g p v : near (CheckSignature C strict h g p v) (CheckSignature C false h g p v).
Proof. unfold CheckSignature. destruct key_allows; [|apply near_refl]. apply near_bind; [apply signed_near|]. intros; apply near_refl. Qed.
Lemma try_near C strict now res h e v : snd (try_one C strict now res h e v) = UB UB_ctype \/ try_one C strict now res h e v = try_one C false now res h e v.
Proof.
  unfold try_one. destruct (GetSignature_near C strict now h (new_signature, e) v) as [E|E].
  - left. destruct (GetSignature C strict now h (new_signature, e) v) as [[v1 st] o]. cbn [snd] in E. subst o. reflexivity.
  - rewrite E. destruct (GetSignature C false now h (new_signature, e) v) as [[v1 st] o]. destruct o; try (right; reflexivity).
    destruct (GetPublicKey_near C strict res (fst st) new_public_key) as [F|F].
    + left. destruct (GetPublicKey C strict res (fst st) new_public_key) as [p o]. cbn [snd] in F. subst o. reflexivity.
    + rewrite F. destruct (GetPublicKey C false res (fst st) new_public_key) as [p o]. destruct o; try (right; reflexivity).
      destruct (Check_near C strict h (fst st) p v1) as [K|K]; [left; exact K|right; rewrite K; reflexivity].
Qed.
Lemma omap_near strict l : near (omap (lower_str strict) l) (omap (lower_str false) l).
Proof. induction l as [|x l IH]; cbn [omap]; [apply near_refl|]. apply near_bind; [apply near_lower|]. intros y. apply near_bind; [exact IH|]. intros; apply near_refl. Qed.
Lemma headers_near strict mode ts hs : near (sign_headers strict mode ts hs) (sign_headers false mode ts hs).
Proof.
  induction hs as [|h hs IH]; cbn [sign_headers]; [apply near_refl|]. apply near_bind; [apply near_lower|]. intros n.
  repeat match goal with |- context [match ?x with _ => _ end] => match type of x with bool => destruct x | option _ => destruct x | bytes => destruct x end end; try apply near_refl; try exact IH;
  repeat first [apply filter_near|exact IH|apply near_refl|apply near_bind; [|intro]].
Qed.
Lemma one_near C strict o now data names bh q : near (one_signature C strict o now data names bh q) (one_signature C false o now data names bh q).
Proof. unfold one_signature. apply near_bind; [apply near_refl|]. intros t. apply near_bind; [apply filter_near|]. intros; apply near_refl. Qed.
Lemma all_near C strict o clock data names bh l : forall n acc, near (all_sigs C strict o clock n data names bh l acc) (all_sigs C false o clock n data names bh l acc).
Proof. induction l as [|q l IH]; intros n acc; cbn [all_sigs]; [apply near_refl|]. apply near_bind; [apply one_near|]. intros; apply IH. Qed.
Lemma Create_near C strict clock o y : pnear (CreateSignature C strict clock o y) (CreateSignature C false clock o y).
Proof.
  unfold CreateSignature. destruct parse_all as [[m s]| | |]; try apply pnear_refl. destruct CanonicalizationBody as [[[ch ok] s1]| | |]; try apply pnear_refl.
  destruct ok; [|apply pnear_refl]. unfold pnear. cbn [snd].
  match goal with |- ?x = _ \/ (_, ?x) = (_, ?y) => assert (N : near x y) end.
  { apply near_bind; [apply omap_near|]. intros ts. apply near_bind; [apply headers_near|]. intros [d ns]. apply near_bind; [apply omap_near|]. intros; apply all_near. }
  destruct N as [N|N]; [left; exact N|right; rewrite N; reflexivity].
Qed.
(** ** The program *)
Definition enear {A} (x y : A * ending) : Prop := snd x = Undefined UB_ctype \/ x = y.
Lemma sign_near C strict clock a key msg : enear (tool_sign C strict clock a key msg) (tool_sign C false clock a key msg).
Proof.
  unfold tool_sign. destruct key as [k|]; [|right; reflexivity]. destruct (chain C (tool_ops a k) new_options) as [o| | |]; cbn [obind]; try (right; reflexivity).
  destruct (Create_near C strict clock o (new_signatory (open_file msg))) as [E|E]; rewrite E; [left|right]; reflexivity.
Qed.
Lemma sigs_near C strict clock res f hs : forall v n e, snd (tool_sigs C strict clock res f hs v n e) = Some (Undefined UB_ctype) \/
  tool_sigs C strict clock res f hs v n e = tool_sigs C false clock res f hs v n e.
Proof.
  induction hs as [|h hs IH]; intros v n e; cbn [tool_sigs]; [right; reflexivity|]. destruct (try_near C strict (clock n) res h e v) as [E|E].
  - left. destruct (try_one C strict (clock n) res h e v) as [[[[v1 e1] g] p] o]. cbn [snd] in E. subst o. reflexivity.
  - rewrite E. destruct (try_one C false (clock n) res h e v) as [[[[v1 e1] g] p] o]. destruct (report_of p o) as [rep|]; [|right; reflexivity].
    destruct (IH v1 (S n) e1) as [K|K].
    + left. destruct (tool_sigs C strict clock res f hs v1 (S n) e1) as [[[ls n'] e'] x]. exact K.
    + right. rewrite K. reflexivity.
Qed.
Lemma files_near C strict clock res fs ty names : forall n e, enear (tool_files C strict clock res fs ty names n e) (tool_files C false clock res fs ty names n e).
Proof.
  induction names as [|f r IH]; intros n e; cbn [tool_files]; [right; reflexivity|].
  destruct (validatory_near strict ty (open_file (fs f))) as [E|E]; rewrite E; [left; reflexivity|].
  destruct (new_validatory false ty (open_file (fs f))) as [v| | |]; try (right; reflexivity).
  destruct (sigs_near C strict clock res f (v_sigs v) v n e) as [K|K].
  - left. destruct (tool_sigs C strict clock res f (v_sigs v) v n e) as [[[ls n'] e'] x]. cbn [snd] in K. subst x. reflexivity.
  - rewrite K. destruct (tool_sigs C false clock res f (v_sigs v) v n e) as [[[ls n'] e'] x]. destruct x; [right; reflexivity|].
    destruct (IH n' e') as [X|X].
    + left. destruct (tool_files C strict clock res fs ty r n' e') as [ls' y]. exact X.
    + right. rewrite X. reflexivity.
Qed.
Lemma main_near C strict clock res fs args : enear (tool_main C strict clock res fs args) (tool_main C false clock res fs args).
Proof.
  unfold tool_main. destruct args as [|a0 args]; [right; reflexivity|]. destruct (getopt (a0 :: args)) as [es files]. destruct (take_options es new_args) as [a|x]; [|right; reflexivity].
  destruct files as [|f files]; [right; reflexivity|]. cbv zeta. destruct (a_validate a).
  - destruct (files_near C strict clock res fs (a_type a) (f :: files) 0 (a_errno a)) as [X|X].
    + left. destruct (tool_files C strict clock res fs (a_type a) (f :: files) 0 (a_errno a)). exact X.
    + right. rewrite X. reflexivity.
  - match goal with |- context [if ?b then _ else _] => destruct b end; [right; reflexivity|].
    destruct (sign_near C strict clock a (fs (a_keyfile a)) (fs f)) as [X|X].
    + left. destruct (tool_sign C strict clock a (fs (a_keyfile a)) (fs f)). exact X.
    + right. rewrite X. reflexivity.
Qed.
Lemma all_same C :
  (forall mode t, FilterHeader true mode t = UB UB_ctype \/ FilterHeader true mode t = FilterHeader false mode t) /\
  (forall now h st, snd (Signature_Parse C true now h st) = UB UB_ctype \/ Signature_Parse C true now h st = Signature_Parse C false now h st) /\
  (forall r p, snd (PublicKey_Parse C true r p) = UB UB_ctype \/ PublicKey_Parse C true r p = PublicKey_Parse C false r p) /\
  (forall ty s, new_validatory true ty s = UB UB_ctype \/ new_validatory true ty s = new_validatory false ty s) /\
  (forall now h st v, snd (GetSignature C true now h st v) = UB UB_ctype \/ GetSignature C true now h st v = GetSignature C false now h st v) /\
  (forall res g p, snd (GetPublicKey C true res g p) = UB UB_ctype \/ GetPublicKey C true res g p = GetPublicKey C false res g p) /\
  (forall h g p v, CheckSignature C true h g p v = UB UB_ctype \/ CheckSignature C true h g p v = CheckSignature C false h g p v) /\
  (forall clock o y, snd (CreateSignature C true clock o y) = UB UB_ctype \/ CreateSignature C true clock o y = CreateSignature C false clock o y) /\
  (forall clock res fs args, snd (tool_main C true clock res fs args) = Undefined UB_ctype \/ tool_main C true clock res fs args = tool_main C false clock res fs args).
Proof.
  split; [exact (filter_near true)|]. split; [exact (Signature_near C true)|]. split; [exact (PublicKey_near C true)|]. split; [exact (validatory_near true)|].
  split; [exact (GetSignature_near C true)|]. split; [exact (GetPublicKey_near C true)|]. split; [exact (Check_near C true)|]. split; [exact (Create_near C true)|exact (main_near C true)].
Qed.
