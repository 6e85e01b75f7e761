(** The assertions of /repo/tests replayed on the model.  These are tests, not proofs. *)
From Verif Require Import Bytes Outcome Stream Tokenizer QuotedPrintable Base64 EncodedWord TagList
  MailParser Canonicalization Util Crypto Signature PublicKey SignatoryOptions Signatory Validatory
  Examples.

Definition throws {A} (o : outcome A) : bool := match o with Throw (PermanentError _) => true | _ => false end.
Definition returns {A} (o : outcome A) : bool := match o with Ok _ => true | _ => false end.
Definition nojunk : bytes -> bytes := fun _ => [].

(* Base64Test.cpp *)
Example conf_001 : Base64_Encode (esc "Hello World? Is it mine to take over? I would so if I ever got the chance :)") = (esc "SGVsbG8gV29ybGQ/IElzIGl0IG1pbmUgdG8gdGFrZSBvdmVyPyBJIHdvdWxkIHNvIGlmIEkgZXZlciBnb3QgdGhlIGNoYW5jZSA6KQ==").
Proof. vm_compute. reflexivity. Qed.
(* Base64Test.cpp *)
Example conf_002 : Base64_Decode nojunk (esc "SGVsbG8gV29ybGQ/IElzIGl0IG1pbmUgdG8gdGFrZSBvdmVyPyBJIHdvdWxkIHNvIGlmIEkgZXZlciBnb3QgdGhlIGNoYW5jZSA6KQ==") = (esc "Hello World? Is it mine to take over? I would so if I ever got the chance :)").
Proof. vm_compute. reflexivity. Qed.
(* Base64Test.cpp *)
Example conf_003 : Base64_Decode nojunk (Base64_Encode (esc "Hej")) = esc "Hej".
Proof. vm_compute. reflexivity. Qed.
(* Base64Test.cpp *)
Example conf_004 : Base64_Decode nojunk (Base64_Encode []) = [].
Proof. vm_compute. reflexivity. Qed.
(* Base64Test.cpp *)
Example conf_005 : Base64_Decode nojunk (Base64_Encode [chr 18; chr 34]) = [chr 18; chr 34].
Proof. vm_compute. reflexivity. Qed.
(* CanonicalizationTest.cpp *)
Example conf_006 : FilterHeader false SIMPLE (esc "This should not be modified") = Ok (esc "This should not be modified").
Proof. vm_compute. reflexivity. Qed.
(* CanonicalizationTest.cpp *)
Example conf_007 : FilterHeader false RELAXED (esc "SUBJect: AbC") = Ok (esc "subject:AbC").
Proof. vm_compute. reflexivity. Qed.
(* CanonicalizationTest.cpp *)
Example conf_008 : FilterHeader false RELAXED (esc "SUBJect\t : AbC") = Ok (esc "subject:AbC").
Proof. vm_compute. reflexivity. Qed.
(* CanonicalizationTest.cpp *)
Example conf_009 : FilterHeader false RELAXED (esc "SUBJect:\r\n AbC") = Ok (esc "subject:AbC").
Proof. vm_compute. reflexivity. Qed.
(* CanonicalizationTest.cpp *)
Example conf_010 : FilterHeader false RELAXED (esc "SUBJect: AbC\r\n\t hej") = Ok (esc "subject:AbC hej").
Proof. vm_compute. reflexivity. Qed.
(* CanonicalizationTest.cpp *)
Example conf_011 : FilterHeader false RELAXED (esc "SUBJect: AbC\r\n\t hej") = Ok (esc "subject:AbC hej").
Proof. vm_compute. reflexivity. Qed.
(* CanonicalizationTest.cpp *)
Example conf_012 : FilterHeader false RELAXED (esc "SUBJect: AbC\r\n\t hej\r\n      \thej\t") = Ok (esc "subject:AbC hej hej").
Proof. vm_compute. reflexivity. Qed.
(* CanonicalizationTest.cpp *)
Example conf_013 : (let* r := CanonicalizationBody (open_str (esc "Hello \r\n\r\n\r\n\tWorld\r\n\r\n")) SIMPLE 0 false 0 in Ok (concat (fst (fst r)))) = Ok (esc "Hello \r\n\r\n\r\n\tWorld\r\n").
Proof. vm_compute. reflexivity. Qed.
(* CanonicalizationTest.cpp *)
Example conf_014 : (let* r := CanonicalizationBody (open_str (esc "")) SIMPLE 0 false 0 in Ok (concat (fst (fst r)))) = Ok (esc "\r\n").
Proof. vm_compute. reflexivity. Qed.
(* CanonicalizationTest.cpp *)
Example conf_015 : (let* r := CanonicalizationBody (open_str (esc "Hello \r\n\r\n\r\n\tWorld\t\t!\r\n\r\n\r\n       \r\nHello \r\nHello \t  \r\n \t Hello \t  \r\n \t Hello \tWorld \t  \r\n")) RELAXED 0 false 0 in Ok (concat (fst (fst r)))) = Ok (esc "Hello\r\n\r\n\r\n World !\r\n\r\n\r\n\r\nHello\r\nHello\r\n Hello\r\n Hello World\r\n").
Proof. vm_compute. reflexivity. Qed.
(* EncodedWordTest.cpp *)
Example conf_016 : ew_decode nojunk (esc "=?8859-1?q?=20?=") = Ok (esc " ").
Proof. vm_compute. reflexivity. Qed.
(* EncodedWordTest.cpp *)
Example conf_017 : ew_decode nojunk (esc "=?8859-1?Q?=20?=") = Ok (esc " ").
Proof. vm_compute. reflexivity. Qed.
(* EncodedWordTest.cpp *)
Example conf_018 : ew_decode nojunk (esc "=?8859-1?Q?=20?= ") = Ok (esc " ").
Proof. vm_compute. reflexivity. Qed.
(* EncodedWordTest.cpp *)
Example conf_019 : ew_decode nojunk (esc "=?8859-1?Q?=20?= =?8859-1?q?=20?=") = Ok (esc "  ").
Proof. vm_compute. reflexivity. Qed.
(* EncodedWordTest.cpp *)
Example conf_020 : ew_decode nojunk (esc "=?8859-1?Q?=20?=  =?8859-1?q?=20?=") = Ok (esc "  ").
Proof. vm_compute. reflexivity. Qed.
(* EncodedWordTest.cpp *)
Example conf_021 : ew_decode nojunk (esc "=?8859-1?Q?=20?= A") = Ok (esc "  A").
Proof. vm_compute. reflexivity. Qed.
(* EncodedWordTest.cpp *)
Example conf_022 : ew_decode nojunk (esc "=?8859-1?Q?=20?=  =?8859-1?q?_?=  =?8859-1?Q?=20?=") = Ok (esc "   ").
Proof. vm_compute. reflexivity. Qed.
(* EncodedWordTest.cpp *)
Example conf_023 : ew_decode nojunk (esc "=?8859-1?Q?=20?=  A  A  =?8859-1?Q?=20?=") = Ok (esc "   A  A ").
Proof. vm_compute. reflexivity. Qed.
(* EncodedWordTest.cpp *)
Example conf_024 : ew_decode nojunk (esc "=?ISO-8859-1?Q?a?= =?ISO-8859-2?Q?_b?=") = Ok (esc "a b").
Proof. vm_compute. reflexivity. Qed.
(* EncodedWordTest.cpp *)
Example conf_025 : ew_decode nojunk (esc "=?ISO-8859-1?Q?a_b?=") = Ok (esc "a b").
Proof. vm_compute. reflexivity. Qed.
(* EncodedWordTest.cpp *)
Example conf_026 : ew_decode nojunk (esc "=?ISO-8859-1?Q?a?=\r\n   =?ISO-8859-1?Q?b?=") = Ok (esc "ab").
Proof. vm_compute. reflexivity. Qed.
(* EncodedWordTest.cpp *)
Example conf_027 : ew_decode nojunk (esc "=?ISO-8859-1?Q?a?=") = Ok (esc "a").
Proof. vm_compute. reflexivity. Qed.
(* EncodedWordTest.cpp *)
Example conf_028 : ew_decode nojunk (esc "=?ISO-8859-1?Q?a?= b") = Ok (esc "a b").
Proof. vm_compute. reflexivity. Qed.
(* EncodedWordTest.cpp *)
Example conf_029 : ew_decode nojunk (esc "=?ISO-8859-1?Q?a?= =?ISO-8859-1?Q?b?=") = Ok (esc "ab").
Proof. vm_compute. reflexivity. Qed.
(* EncodedWordTest.cpp *)
Example conf_030 : ew_decode nojunk (esc "=?ISO-8859-1?Q?a?=  =?ISO-8859-1?Q?b?=") = Ok (esc "ab").
Proof. vm_compute. reflexivity. Qed.
(* EncodedWordTest.cpp *)
Example conf_031 : ew_decode nojunk (esc "=?ISO-8859-1?Q?a_b?=") = Ok (esc "a b").
Proof. vm_compute. reflexivity. Qed.
(* EncodedWordTest.cpp *)
Example conf_032 : ew_decode nojunk (esc "=?ISO-8859-1?Q?a?=  =?ISO-8859-1?Q?_b?=") = Ok (esc "a b").
Proof. vm_compute. reflexivity. Qed.
(* EncodedWordTest.cpp *)
Example conf_033 : ew_decode nojunk (esc "=?ISO-8859-1?-?a?=") = Ok (esc "=?ISO-8859-1?-?a?=").
Proof. vm_compute. reflexivity. Qed.
(* QuotedPrintableTest.cpp *)
Example conf_034 : qp_decode (esc "=41") false = Ok (esc "A").
Proof. vm_compute. reflexivity. Qed.
(* QuotedPrintableTest.cpp *)
Example conf_035 : qp_decode (esc "=20") false = Ok (esc " ").
Proof. vm_compute. reflexivity. Qed.
(* QuotedPrintableTest.cpp *)
Example conf_036 : qp_decode (esc "\r\n ") false = Ok (esc "").
Proof. vm_compute. reflexivity. Qed.
(* QuotedPrintableTest.cpp *)
Example conf_037 : qp_decode (esc "=41 =42") false = Ok (esc "AB").
Proof. vm_compute. reflexivity. Qed.
(* QuotedPrintableTest.cpp *)
Example conf_038 : qp_decode (esc "=41 \r\n  =42") false = Ok (esc "AB").
Proof. vm_compute. reflexivity. Qed.
(* QuotedPrintableTest.cpp *)
Example conf_039 : qp_decode (esc "=41 \r\n  =42 \r\n  ") false = Ok (esc "AB").
Proof. vm_compute. reflexivity. Qed.
(* QuotedPrintableTest.cpp *)
Example conf_040 : qp_decode (esc "<") false = Ok (esc "<").
Proof. vm_compute. reflexivity. Qed.
(* QuotedPrintableTest.cpp *)
Example conf_041 : qp_decode (esc ">") false = Ok (esc ">").
Proof. vm_compute. reflexivity. Qed.
(* QuotedPrintableTest.cpp *)
Example conf_042 : qp_decode (esc ":") false = Ok (esc ":").
Proof. vm_compute. reflexivity. Qed.
(* QuotedPrintableTest.cpp *)
Example conf_043 : qp_decode (esc " ") false = Ok (esc "").
Proof. vm_compute. reflexivity. Qed.
(* QuotedPrintableTest.cpp *)
Example conf_044 : throws (qp_decode (esc "=") false) = true.
Proof. vm_compute. reflexivity. Qed.
(* QuotedPrintableTest.cpp *)
Example conf_045 : throws (qp_decode (esc "=a") false) = true.
Proof. vm_compute. reflexivity. Qed.
(* QuotedPrintableTest.cpp *)
Example conf_046 : throws (qp_decode (esc "=a0") false) = true.
Proof. vm_compute. reflexivity. Qed.
(* QuotedPrintableTest.cpp *)
Example conf_047 : throws (qp_decode (esc "=a0") false) = true.
Proof. vm_compute. reflexivity. Qed.
(* QuotedPrintableTest.cpp *)
Example conf_048 : throws (qp_decode (esc "=g0") false) = true.
Proof. vm_compute. reflexivity. Qed.
(* QuotedPrintableTest.cpp *)
Example conf_049 : throws (qp_decode (esc "\r") false) = true.
Proof. vm_compute. reflexivity. Qed.
(* QuotedPrintableTest.cpp *)
Example conf_050 : throws (qp_decode (esc "\t \r") false) = true.
Proof. vm_compute. reflexivity. Qed.
(* QuotedPrintableTest.cpp *)
Example conf_051 : throws (qp_decode (esc "\n") false) = true.
Proof. vm_compute. reflexivity. Qed.

Definition parsed (s : bytes) : outcome (list (bytes * bytes) * Z) :=
  let* (m, _) := parse_all new_message (open_str s) in
  Ok (map (fun h => (h_name h, h_text h)) (m_headers m), m_offset m).
(* MailParserTest.cpp *)
Example conf_052 : parsed (esc "Subject: test") = Ok ([((esc "Subject"), (esc "Subject: test"))], (-1)%Z).
Proof. vm_compute. reflexivity. Qed.
(* MailParserTest.cpp *)
Example conf_053 : parsed (esc "Subject: test\r\n") = Ok ([((esc "Subject"), (esc "Subject: test"))], (-1)%Z).
Proof. vm_compute. reflexivity. Qed.
(* MailParserTest.cpp *)
Example conf_054 : parsed (esc "test\r\n") = Ok ([((esc ""), (esc "test"))], (-1)%Z).
Proof. vm_compute. reflexivity. Qed.
(* MailParserTest.cpp *)
Example conf_055 : parsed (esc "Subject: test\r\n\r\n") = Ok ([((esc "Subject"), (esc "Subject: test"))], (17)%Z).
Proof. vm_compute. reflexivity. Qed.
(* MailParserTest.cpp *)
Example conf_056 : parsed (esc "Subject: test\r\nSubject2 : test\r\nSubject3 : test\r\n test\r\nxxx") = Ok ([((esc "Subject"), (esc "Subject: test")); ((esc "Subject2"), (esc "Subject2 : test")); ((esc "Subject3"), (esc "Subject3 : test\r\n test")); ((esc ""), (esc "xxx"))], (-1)%Z).
Proof. vm_compute. reflexivity. Qed.
(* TagListTest.cpp *)
Example conf_057 : throws (snd (TagList_Parse [] (esc "v"))) = true.
Proof. vm_compute. reflexivity. Qed.
(* TagListTest.cpp *)
Example conf_058 : throws (snd (TagList_Parse [] (esc "v=1;x"))) = true.
Proof. vm_compute. reflexivity. Qed.
(* TagListTest.cpp *)
Example conf_059 : snd (TagList_Parse [] (esc "v=1;\r\nk=1;")) = Ok tt.
Proof. vm_compute. reflexivity. Qed.
(* TagListTest.cpp *)
Example conf_060 : snd (TagList_Parse [] (esc "v=1; \r\nk=1;")) = Ok tt.
Proof. vm_compute. reflexivity. Qed.
(* TagListTest.cpp *)
Example conf_061 : snd (TagList_Parse [] (esc "v=1;\t\nk=1;")) = Ok tt.
Proof. vm_compute. reflexivity. Qed.
(* TagListTest.cpp *)
Example conf_062 : snd (TagList_Parse [] (esc "\r\n")) = Ok tt.
Proof. vm_compute. reflexivity. Qed.
(* TagListTest.cpp *)
Example conf_063 : snd (TagList_Parse [] (esc "v=1;x=2")) = Ok tt.
Proof. vm_compute. reflexivity. Qed.
(* TagListTest.cpp *)
Example conf_064 : snd (TagList_Parse [] (esc "")) = Ok tt.
Proof. vm_compute. reflexivity. Qed.
(* TagListTest.cpp *)
Example conf_065 : snd (TagList_Parse [] (esc "v=")) = Ok tt.
Proof. vm_compute. reflexivity. Qed.
(* TagListTest.cpp *)
Example conf_066 : snd (TagList_Parse [] (esc "v=;x=   ;z  = \r\n  m ;y  = \r\n ;")) = Ok tt.
Proof. vm_compute. reflexivity. Qed.
(* TagListTest.cpp *)
Example conf_067 : option_map te_value (GetTag (esc "v") (fst (TagList_Parse [] (esc "v=;x=   ;z  = \r\n  m ;y  = \r\n ;")))) = Some (esc "").
Proof. vm_compute. reflexivity. Qed.
(* TagListTest.cpp *)
Example conf_068 : option_map te_value (GetTag (esc "x") (fst (TagList_Parse [] (esc "v=;x=   ;z  = \r\n  m ;y  = \r\n ;")))) = Some (esc "").
Proof. vm_compute. reflexivity. Qed.
(* TagListTest.cpp *)
Example conf_069 : option_map te_value (GetTag (esc "z") (fst (TagList_Parse [] (esc "v=;x=   ;z  = \r\n  m ;y  = \r\n ;")))) = Some (esc "m").
Proof. vm_compute. reflexivity. Qed.

Definition fws1 (s : bytes) : outcome (bytes * option ascii) :=
  let* (w, s1) := read_fws (open_str s) in Ok (w, fst (get s1)).
Definition fws2 (s : bytes) : outcome (bytes * bytes * option ascii) :=
  let* (w, s1) := read_fws (open_str s) in let* (w2, s2) := read_fws s1 in Ok (w, w2, fst (get s2)).
(* TokenizerTest.cpp *)
Example conf_070 : (let '(a, s1) := read_wsp (open_str (esc " H\t")) in let '(b, s2) := read_wsp s1 in
   let '(c, s3) := get s2 in let '(d, s4) := read_wsp s3 in let '(e, s5) := read_wsp s4 in
   (a, b, c, d, e, fst (get s5))) = (esc " ", [], Some (chr 72), esc "\t", [], None).
Proof. vm_compute. reflexivity. Qed.
(* TokenizerTest.cpp *)
Example conf_071 : fst (read_wsp (open_str [])) = [].
Proof. vm_compute. reflexivity. Qed.
(* TokenizerTest.cpp *)
Example conf_072 : fws1 [] = Ok ([], None).
Proof. vm_compute. reflexivity. Qed.
(* TokenizerTest.cpp *)
Example conf_073 : fws1 (esc "\r\n ") = Ok (esc "\r\n ", None).
Proof. vm_compute. reflexivity. Qed.
(* TokenizerTest.cpp *)
Example conf_074 : fws1 (esc " \r\n ") = Ok (esc " \r\n ", None).
Proof. vm_compute. reflexivity. Qed.
(* TokenizerTest.cpp *)
Example conf_075 : fws2 (esc " \r\n \r\n ") = Ok (esc " \r\n ", esc "\r\n ", None).
Proof. vm_compute. reflexivity. Qed.
(* TokenizerTest.cpp *)
Example conf_076 : (let* r := fws1 (esc " \r\n\r\n ") in Ok (fst r)) = Ok [].
Proof. vm_compute. reflexivity. Qed.
(* TokenizerTest.cpp *)
Example conf_077 : throws (fws1 (esc "\r")) = true.
Proof. vm_compute. reflexivity. Qed.
(* TokenizerTest.cpp *)
Example conf_078 : (let* r := fws1 (esc " \n") in Ok (fst r)) = Ok (esc " ").
Proof. vm_compute. reflexivity. Qed.
(* TokenizerTest.cpp *)
Example conf_079 : (let* r := fws1 (esc "\n") in Ok (fst r)) = Ok [].
Proof. vm_compute. reflexivity. Qed.
(* TokenizerTest.cpp *)
Example conf_080 : (let* r := fws1 (esc "\r\n \r") in Ok (fst r)) = Ok (esc "\r\n ").
Proof. vm_compute. reflexivity. Qed.
(* TokenizerTest.cpp *)
Example conf_081 : throws (fws2 (esc "\r\n \r")) = true.
Proof. vm_compute. reflexivity. Qed.
(* TokenizerTest.cpp *)
Example conf_082 : ValueList (esc "") = Ok [].
Proof. vm_compute. reflexivity. Qed.
(* TokenizerTest.cpp *)
Example conf_083 : ValueList (esc "a") = Ok [esc "a"].
Proof. vm_compute. reflexivity. Qed.
(* TokenizerTest.cpp *)
Example conf_084 : ValueList (esc "a:b") = Ok [esc "a"; esc "b"].
Proof. vm_compute. reflexivity. Qed.
(* TokenizerTest.cpp *)
Example conf_085 : ValueList (esc "a:") = Ok [esc "a"].
Proof. vm_compute. reflexivity. Qed.
(* TokenizerTest.cpp *)
Example conf_086 : ValueList (esc " a : b : a b : a b:b") = Ok [esc "a"; esc "b"; esc "a b"; esc "a b"; esc "b"].
Proof. vm_compute. reflexivity. Qed.
(* TokenizerTest.cpp *)
Example conf_087 : throws (ValueList (esc ":")) = true.
Proof. vm_compute. reflexivity. Qed.
(* TokenizerTest.cpp *)
Example conf_088 : ParseAddressList true (esc """Donald \\""d-man\\"" Duck""<root@halon.se>") = Ok [(esc "root@halon.se")].
Proof. vm_compute. reflexivity. Qed.
(* TokenizerTest.cpp *)
Example conf_089 : ParseAddressList true (esc "Pete(A wonderful \\) chap) <pete(his account)@silly.test(his host)>") = Ok [(esc "pete@silly.test")].
Proof. vm_compute. reflexivity. Qed.
(* TokenizerTest.cpp *)
Example conf_090 : ParseAddressList true (esc "Mary Smith <mary@x.test>, jdoe@example.org, Who? <one@y.test>") = Ok [(esc "mary@x.test"); (esc "jdoe@example.org"); (esc "one@y.test")].
Proof. vm_compute. reflexivity. Qed.
(* TokenizerTest.cpp *)
Example conf_091 : ParseAddressList true (esc """Mary Smith <mary@x.test>"", jdoe@example.org, Who? <one@y.test>") = Ok [(esc "mary@x.test"); (esc "jdoe@example.org"); (esc "one@y.test")].
Proof. vm_compute. reflexivity. Qed.
(* TokenizerTest.cpp *)
Example conf_092 : ParseAddressList true (esc """<mary@x.test>"", ""jdoe@example.org"", Who? <one@y.test>") = Ok [(esc "mary@x.test"); (esc "jdoe@example.org"); (esc "one@y.test")].
Proof. vm_compute. reflexivity. Qed.
(* TokenizerTest.cpp *)
Example conf_093 : ParseAddressList true (esc "John Doe <jdoe@machine(comment).  example>") = Ok [(esc "jdoe@machine.example")].
Proof. vm_compute. reflexivity. Qed.
(* TokenizerTest.cpp *)
Example conf_094 : ParseAddressList true (esc "User, Company Inc <foo@example.org>") = Ok [(esc "foo@example.org")].
Proof. vm_compute. reflexivity. Qed.
(* TokenizerTest.cpp *)
Example conf_095 : ParseAddressList true (esc "User, Company Inc <foo@example.org>, <bar@example.org>") = Ok [(esc "foo@example.org"); (esc "bar@example.org")].
Proof. vm_compute. reflexivity. Qed.
(* TokenizerTest.cpp *)
Example conf_096 : ParseAddressList true (esc "Pete(A \\\\wonderful \\) chap) <pete(his account)@silly.test(his host)>") = Ok [(esc "pete@silly.test")].
Proof. vm_compute. reflexivity. Qed.
(* TokenizerTest.cpp *)
Example conf_097 : ParseAddressList true (esc "A Group(Some people)\r\n :Chris Jones <c@(Chris's host.)public.example>,\r\n joe@example.org,\r\n John <jdoe@one.test> (my dear friend); (the end of the group)") = Ok [(esc "c@public.example"); (esc "joe@example.org"); (esc "jdoe@one.test")].
Proof. vm_compute. reflexivity. Qed.
(* TokenizerTest.cpp *)
Example conf_098 : ParseAddressList true (esc "Pete(A \\\\wonderful \\) chap) <pete(his account)@silly.test(his host)>  ") = Ok [(esc "pete@silly.test")].
Proof. vm_compute. reflexivity. Qed.

(* SignatoryTest.cpp with toy primitives: signing and verifying. *)
Definition sign_test (o : options) (mail : bytes) : outcome unit :=
  let* head := snd (CreateSignature toy false (fun _ => 0%Z) o (new_signatory (open_str mail))) in
  let* v := new_validatory false V_DKIM (open_str (head ++ CRLF ++ mail)) in
  match v_sigs v with
  | [h] =>
      let '(v1, st, r) := GetSignature toy false 0%Z h (new_signature, false) v in
      let* _ := r in
      let '(pub, r2) := PublicKey_Parse toy false
            (str "v=DKIM1; p=" ++ Base64_Encode (str "key") ++ str "; t=s") new_public_key in
      let* _ := r2 in
      CheckSignature toy false h (fst st) pub v1
  | _ => perm
  end.
Definition opts0 : options := run_ops toy
  [OnMain (SetPrivateKey (Base64_Encode (str "key"))); OnMain (SetDomain (str "halon.se"));
   OnMain (SetSelector (str "dkim-test"))] new_options.
Definition opts1 : options := fst (run_op toy (SetSignBodyLength 0) opts0).

(* SignatoryTest.cpp *)
Example conf_099 : sign_test opts0 (esc "From: erik@halon.se\r\n\r\nThis is my first DKIM test") = Ok tt.
Proof. vm_compute. reflexivity. Qed.
(* SignatoryTest.cpp *)
Example conf_100 : sign_test opts0 (esc "From: erik@halon.se\r\n\r\n") = Ok tt.
Proof. vm_compute. reflexivity. Qed.
(* SignatoryTest.cpp *)
Example conf_101 : sign_test opts0 (esc "From: erik@halon.se\r\n") = Ok tt.
Proof. vm_compute. reflexivity. Qed.
(* SignatoryTest.cpp *)
Example conf_102 : sign_test opts0 (esc "From: erik@halon.se") = Ok tt.
Proof. vm_compute. reflexivity. Qed.
(* SignatoryTest.cpp *)
Example conf_103 : sign_test opts1 (esc "From: erik@halon.se\r\n\r\n") = Ok tt.
Proof. vm_compute. reflexivity. Qed.
(* SignatoryTest.cpp *)
Example conf_104 : sign_test opts1 (esc "From: erik@halon.se\r\n") = Ok tt.
Proof. vm_compute. reflexivity. Qed.
(* SignatoryTest.cpp *)
Example conf_105 : sign_test opts1 (esc "From: erik@halon.se") = Ok tt.
Proof. vm_compute. reflexivity. Qed.
(* SignatoryTest.cpp *)
Example conf_106 : sign_test opts1 (esc "From: erik@halon.se\r\n\r\n123") = Ok tt.
Proof. vm_compute. reflexivity. Qed.
