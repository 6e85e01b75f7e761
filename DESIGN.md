# Formal model of halon/libdkimpp in Rocq (Coq 8.16.1)

The model covers every source file of the library (`/repo/src`) and the command line program
(`/repo/tools/src/main.cpp`). `properties.jsonl` lists the properties, `MANIFEST.json` says which
theorems state them, `seeded/LOG.jsonl` records the wrong programs the theorems were tested against.

Build: `cd rocq && coq_makefile -f _CoqProject -o Makefile && make -j4` (about seven minutes).

## Layout (rocq/theories)

| file | contents |
|---|---|
| `Bytes.v` | bytes (`ascii`), byte strings (`list ascii`), the `std::string` operations used, `<ctype.h>` |
| `Outcome.v` | how a C++ call ends: `Ok`, `Throw e`, `UB why`, `Diverge` (fuel used up); the classes of `Exception.hpp` |
| `Stream.v` | `std::istream`: data, position, eofbit, failbit; peek/get/putback/clear/tellg/seekg/read/getline |
| `CStdlib.v`, `Crypto.v` | `strtoul`, `strtol`, `%lu`; the OpenSSL and libsodium primitives as a record of functions |
| `Tokenizer.v`, `QuotedPrintable.v`, `Base64.v`, `EncodedWord.v`, `TagList.v`, `MailParser.v`, `Canonicalization.v`, `Util.v`, `Signature.v`, `PublicKey.v`, `Resolver.v`, `SignatoryOptions.v`, `Signatory.v`, `Validatory.v`, `KeyHandles.v` (who frees which RSA object), `Tool.v` and `Program.v` (`main.cpp`), `ToolText.v` (the text of its reports), `ResolverPtr.v` (the pointers of `Resolver.cpp`), `SignatoryHeap.v` (what `CreateSignature` allocates), `SharedStream.v` (objects on one stream), `OptionObjects.v` (options objects, assignment), `Work.v`, `BodyWork.v`, `HeadWork.v`, `TagWork.v` (counting work), `ToolAsk.v` (the program with its DNS questions), `FailingReads.v` (reading from a source that fails), `ErrorText.v` (the texts of parse errors), `Reasons.v`, `SignReasons.v`, `AddressText.v` (the other texts of exceptions), `Locale.v` (the functions that depend on the locale), `Posix.v` (the options with POSIXLY_CORRECT), `Narrow.v` (signature fields where long has 32 bits), `AddressWork.v` (the reads of address lists), `WordWork.v` (of quoted-printable and encoded words), `AnswerWork.v` (of answers of the DNS), `Format.v` (`StringFormat`), `IntDepth.v` (the `int` depth of comments; `Tokenizer.v` has an unbounded one) | the model, function by function, no proofs; every definition cites file and lines |
| `SpecText.v`, `SpecAddress.v`, `SpecTags.v`, `SpecMail.v`, `SpecCanon.v`, `SpecVerify.v`, `SpecSig.v`, `SpecParse.v`, `SpecKey.v`, `SpecDns.v`, `SpecOptions.v`, `SpecSign.v`, `SpecWord.v`, `SpecHandles.v`, `SpecTool.v`, `SpecBinding.v`, `SpecBase64.v`, `SpecFields.v`, `SpecTransit.v`, `SpecPass.v`, `SpecAddressAll.v`, `SpecTransport.v`, `SpecOutcome.v`, `SpecDepth.v`, `SpecReport.v`, `SpecHeap.v`, `SpecShared.v`, `SpecObjects.v`, `SpecWork.v`, `SpecAsk.v`, `SpecBad.v`, `SpecRfc.v`, `SpecError.v`, `SpecMime.v`, `SpecReuse.v`, `SpecStream.v`, `SpecReason.v`, `SpecRelaxed.v`, `SpecMade.v`, `SpecStop.v`, `SpecSignTool.v`, `SpecAddressError.v`, `SpecEight.v`, `SpecVerdict.v`, `SpecProgram.v`, `SpecFar.v`, `SpecRead.v`, `SpecFormat.v`, `SpecOverflow.v`, `SpecAllows.v`, `SpecChecked.v`, `SpecRelay.v`, `SpecLocale.v`, `SpecLooked.v`, `SpecPosix.v`, `SpecSplice.v`, `SpecNarrow.v`, `SpecLegible.v`, `SpecLines.v`, `SpecJoin.v` | specification vocabulary, from the RFCs and the English properties. They use no function of the model, except where the head of the file says which (types of results, the signing primitives, in `SpecTool.v` the library calls the program makes) |
| `*Facts.v`, `*Props.v` not beginning with `Props`, `*Exact.v`, `Address*.v`, `Tag*.v`, `Sign*.v`, `Tool*.v`, `Binding*.v`, `Reason*.v`, `Stop*.v`, `Eight*.v`, `Verdict*.v`, `ResolverCut.v`, `ResultClass.v`, `Base64Bits.v` | proofs |
| `Examples.v`, `VerifyExamples.v`, `SignExamples.v`, `ToolExamples.v`, `BindingExamples.v`, `ResolverExamples.v`, `FieldsExamples.v` | toy primitives, concrete messages, records, options, and the witnesses of the refutations |
| `Conformance.v` | the assertions of `/repo/tests` replayed on the model (tests, not proofs) |
| `Props*.v` | the property theorems only, closed by `exact`, each followed by `Print Assumptions`, with a concrete `Example` |

Names: `Cnn_name` is proved as stated; `Cnn_name_partial` proves a part and its comment says what is
missing; `Cnn_name_refuted` exhibits a case in which the property is false of the code.

## Modelling decisions

* A byte is `ascii` (exactly 256 values). A C++ `std::string` is a `list ascii`.
* A call returns `outcome A`. Exceptions carry their C++ class and their `AR_CLASS`, not their text; the texts are functions of their own (`ErrorText.v`, C93, `AddressText.v`, C99, `Reasons.v`, C96, `SignReasons.v`, C98).
  Undefined behaviour is the separate outcome `UB`. Loops that are not structural run on explicit
  fuel and end in `Diverge` when it is used up; the totality theorems exclude that.
* Streams carry eofbit and failbit, since results depend on them (`tellg` after a `peek` at the end
  gives -1, `getline` after a full read fails, ...). Reading from a stream never fails for other reasons, except in `FailingReads.v` (C90), where the source fails after given bytes, each time it is read; there `s_fail` stands for badbit. That `istream::read` then counts no bytes and that `getline` returns false is libstdc++'s behaviour (`istream.cc`, `istream.tcc`: the exception of the stream buffer is caught before the count is stored).
* Memory is unbounded (`std::bad_alloc` is not modelled). `unsigned long`, `size_t`, `time_t` are
  64 bit, `int` is 32 bit; wrap-around and saturation are written out where the code can meet them
  (`l=`, `x=`, `i=`, the `int` value offset of a header field, `std::string::substr`).
* OpenSSL, libsodium, the clock, the DNS answer and the file system are arguments of the model
  functions. What is assumed of them is a hypothesis of the theorem that needs it (for example
  `serves`: the public key accepts what the private key signs). Digests, keys and signatures are
  byte strings.
* `tolower`/`isspace` are called on plain `char`. A negative argument is undefined in ISO C and
  harmless in glibc: the flag `strict` selects the first reading, and gives `UB`. `char_signed` says
  whether plain `char` is signed (`Tokenizer.cpp` compares it with EOF). `lax` is the behaviour of
  `dn_skipname` in glibc before 2.35. The theorems are for both values unless they say otherwise.
* A DNS query either returns a response buffer or fails with an `h_errno` class; the answer is an
  arbitrary byte string.
* `errno` is a boolean state (is it ERANGE) that is passed through the parsers that use `strtoul`.
  Other library functions that run in between are taken not to write it.
* Objects are records; methods return the new record with the outcome, also when they throw, so that
  what a failed call leaves behind is visible.
* The RSA handles are modelled twice: as the key they stand for (`SignatoryOptions.v`), and as
  numbered objects that are created and freed (`KeyHandles.v`).

## Properties and how they are proved

| property | how |
|---|---|
| C01-C03 | pure functions, induction over the string, 256-value sweeps for single bytes |
| C04 | RFC 4648 model of the OpenSSL BIO chain, tied to the bitwise definition of RFC 4648; what it does with malformed text is an oracle |
| C05-C07, C11-C13 | stream parsers refined to list functions, induction on the remaining input |
| C08-C10, C52 | token loop with fuel; measure remaining input; recursion measure input length |
| C14, C15 | invariants over the line loop against a line-splitting specification |
| C16-C19 | the chunked loop refined to one fold over the body, the fold to a line-based specification |
| C20-C22 | loop refined to a word-based specification; unique readability of the stream |
| C23, C56, C60, C61 | composition of printer and parser lemmas, over arbitrary primitives |
| C24, C25 | map of queues refined to "k-th last field with that name" |
| C26-C37, C45, C46, C48, C53, C54, C57, C65 | decision logic, case analysis over the parsed record against declarative predicates |
| C38, C39, C64 | buffer reads as partial functions, `UB` when outside; RFC 1035 grammar, of whole and of cut-off responses |
| C40 | split-on-dot specification |
| C41-C44, C49, C50, C55 | option record as state machine, induction over the list of calls |
| C47 | loop refined to an inductive description of encoded words |
| C51 | handle-count invariant over histories |
| C63 | unique readability of the hashed stream and of tag lists up to white space; the printed tags re-read in any respaced form; unforgeability is a hypothesis on the key |
| C66-C70 | the printed field re-read tag by tag; an invariant on line breaks over everything that is printed |
| C71, C72 | two caches holding alike fields per name; the parser commutes with a block in front; the canonical forms agree |
| C73 | the decompositions of a message, a field, a record are unique; the equivalences of C14, C16, C20, C24, C26, C29, C34, C39 composed |
| C74 | counting argument on the listed names |
| C75 | each loop follows its relation and every run ends in the relation; segments by unique splitting at their ends |
| C76 | composition of C23 with C71 and C72; a name that is not oversigned is listed at most once per field |
| C77 | the number of fields selected grows; the stream determines the list of canonical fields (C22) |
| C78 | exact analysis of the unfolding loop: refused iff a CR without LF is met; the template has a CR only before LF |
| C79 | an escape is needed for every quote of an inner quoted string, so each level at least doubles the marks |
| C80 | in front of an LF no text of an exception and no value can have a K; so only reports that say OK end in OK |
| C81 | a pointer is formed outside of the buffer only from a question that ends behind it or a record that claims to |
| C82 | only the context for the field is released by a statement; the statement is missed when the field itself is refused |
| C83 | every call keeps the text of the stream; an object keeps its message and finds its body by position, so only what lay ahead when it first read matters |
| C84 | without assignment the pointers of an object lead into itself, so erasing them commutes with every call; an assignment makes two objects point to one place |
| C85 | case analysis: which list is read while it is changed |
| C86 | each line is charged to itself when the field has its colon; otherwise to the whole text |
| C87 | what ReadWhiteSpace reads it returns, unless it puts it back, which needs a CRLF that is no fold |
| C88 | induction over the fields; a question needs GetSignature to succeed, which C28 characterises |
| C89 | n copies of a field that parses and has the right body hash |
| C90 | line by line and piece by piece: the two readers return the same until the source fails |
| C91 | the grammar of the RFC gives tags and values that C29_exact characterises |
| C92 | the same with C34_record |
| C93 | the parsers again with texts; viable prefixes; for lists an automaton that accepts what `list_wide` derives |
| C94 | RFC 2047 6.2 as a relation between parts, text and display; from the exact statement of C47 |
| C95 | the tags an object holds and those that a refused text leaves; an invariant of all objects that were ever used, kept by every step of Parse; success as for a new object that is given both lists of tags |
| C96 | every check of Parse gives one of the reasons listed in the specification, at its place in the order, and none of the earlier ones held; of every text one thing is said |
| C97 | every part of the new field is determined by its specification (numbers, quoted-printable, the lines of h= and b=); the loops are then followed part by part |
| C98 | every step of CreateSignature is a place at which an event may happen; the loops end at the first one; the setters and the program are cases |
| C99 | half a token, a token with a NUL, an open '<', or the inside of a lone quoted string; the loop says the first |
| C100 | the runs with tolower defined and undefined for negative chars, step by step; tag values are ASCII, so only field names and the decoded i= are left |
| C101 | C96, C99, C100 and the reasons of check_signature put together for each signature, then induction over signatures and files; the description decides (gives_total) |
| C102 | getopt_long on words read up to the first reason to stop (induction over the words), then C98 and C101; totality of the description and soundness of each of its rules give the equivalence |
| C103 | C26 with the place of b= modulo 2^32; a field with a z= of 2^31 letters, described and never computed, is the counterexample |
| C104 | the position of the stream behind the chunked loop; the least number of pieces that settle l bytes; induction over the signature fields |
| C105 | induction over the format; one lemma for each shape of call; the reasons of C96 bounded by the lengths of the values they quote; a= of 2^31 letters, described and never computed |
| C106 | simulation of the loops with unbounded depth, which either agree or meet the overflow; 2^31 parentheses, described and never computed |
| C107 | the fields left in headerCache as a bound for what is still hashed; relaxed forms are not longer than the text |
| C108 | what each station put in front is a block of header lines; C23 for the signer, C71 for what follows |
| C109 | a potential on what is left of the stream; the fields of a message have no stray CRLF |
| C110 | the functions that use tolower, isspace, strtoul with the locale's tables as an argument; fields with other than ASCII names are never looked up |
| C111 | every step of the parsers commutes with replacing the list of tags by one with the same values for the names looked at; concrete message for the refutation |
| C112 | getopt_long with POSIXLY_CORRECT; induction over the words: the same events as with "--" in front of the first file |
| C113 | the body is read anew at each call from the offset of the constructor; equality with a fresh verifier of the spliced text |
| C114 | Signature::Parse with LONG_MAX as an argument; strtoul and strtol of both widths agree on modest numbers, and saturation decides the rest |
| C115 | calls of peek, get and putback of ParseAddressList; quoted-strings in quoted-strings halve the marks that are left |
| C116 | calls on the stream of QuotedPrintable::Decode and EncodedWord::Decode, with what is left as a potential |
| C117 | bytes of the answer that are looked at; labels have at least two bytes, so that the name skipped twice costs one |
| C118 | the text can be parted at CRLFs into lines of n bytes; which line and which names need room |
| C119 | tokens of the joined text, by induction over those of the first; groups of segments; uniqueness of both |
| C58-C62 | the program as a function of arguments, files, DNS answers and clock; grammar of command lines |

The status of each, and what is missing in the partial ones, is in `MANIFEST.json`.

## Findings

Behaviour of the code that contradicts a listed property, each with a machine-checked witness:

| where | what | theorem |
|---|---|---|
| `Tokenizer.cpp` ValueList | a CRLF not followed by WSP is put back and then read as item text, with the space before it | `C07_value_list_clean_refuted` |
| `Tokenizer.cpp` NextAddressListToken | where `char` is unsigned an unclosed quote loops for ever | `C08_unsigned_char_refuted` |
| `Tokenizer.cpp` comments | two adjacent escapes end the comment too early | `C10_comment_refuted` |
| `Tokenizer.cpp` ParseAddressList | adjacent folds, or a fold in a quoted string, put CRLF into the address | `C52_two_folds_refuted`, `C52_quoted_refuted` |
| `Signature.cpp` l= | `errno` is not cleared before `strtoul`: an overlong number anywhere earlier refuses a good l= | `C32_history_refuted`, `C45_errno_refuted`, `C59_neighbour_refuted`, `C59_instance_refuted` |
| `Signature.cpp` l= | empty text, signs and negative numbers (wrapped) are accepted | `C31_not_a_number_refuted` |
| `Signature.cpp` d=, s= | empty values are accepted | `C57_domain_refuted`, `C57_selector_refuted` |
| `Signature.cpp` d=, s= | not checked before the DNS lookup: blanks and line breaks inside, any other byte | `C70_blank_refuted`, `C70_selector_refuted` |
| `Signature.cpp` a= | rsa-sha1 is accepted | `C69_sha1_refuted` |
| `PublicKey.cpp` h= | a list of unknown hashes is no restriction | `C34_hash_refuted` |
| `PublicKey.cpp` s= | never enforced, and "other" is indistinguishable from "*" | `C53_other_refuted`, `C53_indistinct_refuted` |
| `PublicKey.cpp` Parse | a second Parse without Reset leaks the RSA object | `C51_public_refuted` |
| `Resolver.cpp` GetTXT | a response cut in front of or inside a record's name, or with a character string longer than its record, is taken for complete | `C64_failure_refuted`, `C64_strings_refuted` |
| `Validatory.cpp` Ed25519 | b= shorter than 63 bytes is read out of bounds, 63 bytes use the terminator, bytes after the 64th are ignored | `C48_short_ed_refuted`, `C36_short_ed_refuted`, `C54_63_refuted`, `C26_ed_trailing_refuted` |
| canonicalization "simple" | a message that begins with white space: two messages with one hashed stream | `C22_leading_space_refuted` |
| `SignatoryOptions.cpp` SetPrivateKey | a failed load that is not PEM drops the key set before | `C41_failed_refuted` |
| `SignatoryOptions.cpp` DelHeaders | compares letter case; removing every name makes CreateSignature sign all fields | `C42_letter_case_refuted`, `C42_all_removed_refuted` |
| `SignatoryOptions.cpp` keys | two loads leak, a load after a lent key leaks, copying AdditionalSignaturesOptions frees twice | `C51_two_loads_refuted`, `C51_load_after_lent_refuted`, `C51_copy_refuted` |
| `Signatory.cpp` a= | an additional signature gets the a= of the main one | `C43_mixed_refuted`, `C56_mixed_algorithms_refuted` |
| `Signatory.cpp` CreateSignature | a second call signs an empty body, or the last field twice; a third one can sign a line of the body as a field | `C44_body_refuted`, `C44_no_body_refuted`, `C44_third_refuted` |
| `Signatory.cpp` Ed25519 | without a key 64 bytes are read from an empty string | `C55_no_key_refuted` |
| `Signatory.cpp` x= | a relative expiry near the end of `time_t` overflows | `C55_overflow_refuted` |
| `Signatory.cpp` x= | an absolute, zero or negative expiration gives an x= not after t=; negative times wrap around | `C67_*_refuted` |
| `Signatory.cpp` h= | a field name that ends in a fold breaks the generated field into lines; line breaks in oversigned names inject header fields | `C68_message_refuted`, `C68_oversign_refuted` |
| `SignatoryOptions.cpp` | nothing is oversigned by default: any fields, a second From among them, can be put in front of a signed message | `C77_second_from_refuted`, `C77_front_unnoticed` |
| `Signatory.cpp` | nine further ways to get a header that does not verify | `C56_*_refuted` |
| `main.cpp` | status 0 when every signature fails; `--keytype` unknown; `--arcinstance` leads to `strtoul(NULL)`; unknown formats mean rsa; the signature expires after a second; an unreadable message is signed as empty | `C59_status_refuted`, `C62_*_refuted`, `C61_*_refuted` |
| `main.cpp` | values are printed as they are: key records, folded selectors and brackets in d= forge report lines, i= sends control characters | `C80_*_refuted` |
| `Resolver.cpp` | a record length is added to a pointer before it is checked; 24 bytes make a pointer far outside of the buffer | `C81_stray_refuted` |
| `Signatory.cpp` | the digest context for the field is not released when the field is refused | `C82_left_refuted`, `C82_exact` |
| `Validatory.cpp`, `Signatory.cpp` | an object reads from where another left the stream: without rewinding the body is taken for the header | `C83_second_refuted`, `C83_body_refuted`, `C83_signer_refuted` |
| `SignatoryOptions.hpp` | the copy constructor is private but the assignment operator is not: an assigned object works on the domain, selector and key of the other, also when that is gone | `C84_assigned_refuted`, `C84_freed_refuted` |
| `SignatoryOptions.cpp` | `o.DelHeaders(o.GetHeaders())` walks through a list whose elements it frees | `C85_own_refuted` |
| `MailParser.cpp` ParseLine | a field without a colon is searched from its start at every continuation line: quadratic work, before anything is authenticated | `C86_blank_lines_refuted` |
| `Tokenizer.cpp` ReadWhiteSpace | blanks before a CRLF that is no fold are read and put back again and again: quadratic work for a key record | `C87_blanks_refuted`, `C87_in_record` |
| `main.cpp` | any number of DNS questions for one message, also of the same name again and again | `C89_limit_refuted`, `C89_same_name_refuted` |
| `MailParser.cpp`, `Canonicalization.cpp` | errors of the stream are not noticed: what could be read is signed or verified, without its last bytes | `C90_signed_refuted`, `C90_accepted_refuted` |
| `Signature.cpp` | grammatical signatures refused or misread: `q=` with a second method, large `l=`, "@" in a quoted local part | `C91_query_refuted`, `C91_length_refuted`, `C91_local_part_refuted`, `C91_identity_refuted` |
| `PublicKey.cpp` | `v=` is taken anywhere in a key record | `C92_version_refuted` |
| `TagList.cpp`, `QuotedPrintable.cpp` | errors at the end of the text name a byte 0xff at position -1; quoted-printable errors behind a line end name a blank before it | `C93_end_refuted`, `C93_blank_refuted` |
| `Tokenizer.cpp:199-217,341` | errors of address lists: a place inside a quoted string counts from the beginning of that string; a closed string with a byte 0xff is called unclosed where char is signed | `C99_place_refuted`, `C99_closed_refuted` |
| `Validatory.cpp:60`, `Signature.cpp:232` | a field name with a byte of 128 or more, or `=E9` in the domain of i=, gives tolower a negative char: undefined by ISO C, harmless in glibc | `C100_name_refuted`, `C100_tool_refuted`, `C100_identity_refuted` |
| `main.cpp:45,53` | started with an empty argv the program prints a null pointer with %s | `C102_name_refuted` |
| `Validatory.cpp:246` | the place of b= as an int: std::out_of_range, uncaught, from 2 GiB on; other bytes erased from 4 GiB on | `C103_ends_refuted`, `C103_place_refuted` |
| `Validatory.cpp:84` | the body is read again for every signature field that parses: work grows with the product of both | `C104_linear_refuted`, `C104_product_refuted` |
| `Validatory.cpp:218-238` | the fields are hashed again for every signature: work grows with the product of both | `C107_linear_refuted`, `C107_product_refuted` |
| `Tokenizer.cpp:326-333` | quoted-strings in an address list are read as lists again: no linear bound for the work | `C115_linear_refuted`, `C115_tight`, `C115_blanks_refuted` |
| `Util.cpp:69` | a refusal that quotes 2 GiB cannot be stated: std::bad_alloc instead of a DKIM error | `C105_stated_refuted` |
| `Tokenizer.cpp:318-325` | in front of a comma or semicolon words are dropped as a display name unless the last one has an '@': an address with a blank behind its '@' is lost when another follows | `C119_joined_refuted` |
| `Tokenizer.cpp:240` | 2^31 nested parentheses overflow the int depth | `C106_defined_refuted`, `C106_well_formed_refuted` |
| `EncodedWord.cpp` | the blank between ordinary text and an encoded word is lost, Q words with a semicolon are left undecoded, and text inside other text or across blanks is taken for a word | `C94_blank_refuted`, `C94_semicolon_refuted`, `C94_inside_refuted`, `C94_across_refuted` |
| `Validatory.cpp:80-133` | GetSignature and GetPublicKey parse into the given object without resetting it: tags of a refused field or record count for the next one, so a refused field can supply the identity of a verified one, and `CheckSignature` can throw `std::out_of_range` | `C95_identity_refuted`, `C95_place_refuted`, `C95_anything_refuted`, `C95_testing_refuted` |
| `Signature.cpp:208-300`, `Canonicalization.cpp:85-100` | some exceptions state a reason that is not true of the input: l=9223372036854775808 is said not to be positive, x=never to have expired, i=joe to lack a local part; a byte of a header name is named in lower case | `C96_positive_refuted`, `C96_storage_refuted`, `C96_digits_refuted`, `C96_expired_refuted`, `C96_local_refuted`, `C96_domain_refuted`, `C96_byte_refuted` |
| `Signature.cpp:286-297` | x= is not compared with t=: a signature that expired before it was made is accepted until then | `C111_times_refuted` |
| `main.cpp:66-84` | with POSIXLY_CORRECT an option behind a file is taken for a file | `C112_refuted` |
| `Validatory.cpp:46-165` | the header is read once, the body at each call: a file that changes in between can pass with a header and a body that never were in one message | `C113_refuted` |
| `Signature.cpp:256,295` | where long has 32 bits, all signatures with x= are refused from 2038 on, and lengths of 2^31 or more always | `C114_late_refuted`, `C114_length_refuted`, `C114_negative_refuted` |

## Trusted base

* Coq's kernel (8.16.1), its `vm_compute`, and the compiler and machine that run it.
* `Print Assumptions` under every theorem in `Props*.v` prints "Closed under the global context":
  no axiom is used, neither of the standard library nor of the project. No `Variable` or
  `Hypothesis` outside a section, no functor or module type, no plugin. (A checker that lists what is loaded rather than what is used
  may show constants of `Coq.ssr.ssrunder`, which is part of Coq's distribution; no theorem uses them.)
* The reading of the C++ code: the model was written by hand from the text of `/repo` and has not
  been run against the compiled library. `Conformance.v` replays the assertions of the project's own
  tests on the model.
* The readings of external components: `std::istream`, `std::string`, `std::map`, `strtoul`,
  `strtol`, `vasprintf` with %s, %x, %d, %ld and %lu, `getopt_long` (glibc, with and without POSIXLY_CORRECT), OpenSSL's base64 BIO on well-formed text of less than 2 GiB,
  `dn_skipname` and `res_nquery` as far as `Resolver.v` says.

### Modelled

All functions of `Base64`, `Canonicalization`, `EncodedWord`, `MailParser`, `PublicKey`,
`QuotedPrintable`, `Resolver`, `Signatory`, `SignatoryOptions`, `Signature`, `TagList`, `Tokenizer`,
`Util`, `Validatory`, and `main.cpp`; getters are the record fields.

### Not modelled

* The failure of `StringFormat` for texts of 2 GiB or more is modelled by itself (`Format.v`, C105); the other models take the text as made, so that
  theorems about refusals leave out that std::bad_alloc (it needs a field or record of about 1 GiB at least).
* Memory allocation failure; the size of the stack (how deep the address parser recurses is C79).
* OpenSSL and libsodium themselves: they are arbitrary functions. RSA objects that cannot be read
  are the oracle's `None`. `RAND`, locking and error queues do not occur.
* Sources that fail only sometimes (C90 has sources that always fail at the same place); files that change during a call, and what a stream has buffered of the old contents (changes between calls: C113).
* Threads. The library has no shared mutable state of its own but uses `errno`.
* Changes by the caller to the stream between calls, other than rewinding it (`SharedStream.v`) and, for verifiers, other contents (C113).
* long has 64 bits, but for `Narrow.v` (C114); size_t, off_t and time_t have 64 bits throughout. The environment variable POSIXLY_CORRECT is in `Posix.v` only (C112); in all other theorems it is not set. Locales other than "C" are in `Locale.v` only (C110); all other theorems are for the "C" locale.
