{"id": "C01", "title": "Quoted-printable round trip", "statement": "QuotedPrintable::Decode(QuotedPrintable::Encode(s)) returns s, byte for byte, for every std::string s (including NUL, 8-bit, CR, LF, ';', '=' bytes); it never throws on an encoder output.", "quantifier": "every byte string of every length", "why_tests_cant": "256^n inputs for each length n; the shipped test only checks a handful of Decode literals and never calls Encode.", "anchors": ["src/QuotedPrintable.cpp: QuotedPrintable::Encode, QuotedPrintable::Decode"]}
{"id": "C02", "title": "Quoted-printable output is injection-safe", "statement": "Every byte produced by QuotedPrintable::Encode is printable 7-bit ASCII in 0x21..0x7E other than ';' and the output never contains a space, tab, CR, LF or ';', so an identity placed in a generated i= tag cannot terminate the tag, start another tag or break the header line.", "quantifier": "every byte string given to Encode / SetIdentity", "why_tests_cant": "An injection needs one specific bad byte in one position of an unbounded input; sampling cannot exclude it.", "anchors": ["src/QuotedPrintable.cpp: QuotedPrintable::Encode", "src/Signatory.cpp: CreateSignature (i= tag)"]}
{"id": "C03", "title": "Quoted-printable decoding accepts exactly the dkim-quoted-printable grammar", "statement": "QuotedPrintable::Decode(s) returns normally if and only if s is a sequence of printable bytes other than ';' and '=', of '=' followed by two upper-case hex digits, and of folding whitespace; the result is then the concatenation of the denoted bytes with the whitespace removed (with '_' decoded as a space when convert_to_space is set). In every other case it throws PermanentError; it always terminates.", "quantifier": "every byte string and both values of convert_to_space", "why_tests_cant": "The set of rejected strings is infinite; tests check a few malformed literals.", "anchors": ["src/QuotedPrintable.cpp: QuotedPrintable::Decode"]}
{"id": "C04", "title": "Base64 round trip through folded signature text", "statement": "Base64_Decode(Base64_Encode(d)) returns d for every byte string d, and still does when the encoded text has been folded with whitespace and the whitespace is stripped again the way Signature::Parse and PublicKey::Parse do it; encoder output contains only A-Z a-z 0-9 + / =.", "quantifier": "every byte string and every way of inserting whitespace", "why_tests_cant": "Infinitely many inputs and fold positions; the padding cases interact with the length modulo 3.", "anchors": ["src/Base64.cpp: Base64_Encode, Base64_Decode", "src/Signature.cpp: Parse (b, bh)", "src/PublicKey.cpp: Parse (p)"]}
{"id": "C05", "title": "Whitespace reader is lossless and rolls back", "statement": "ReadWhiteSpace(stream, type) either throws PermanentError (only for CRLF/FWS and only when a CR is not followed by LF), or returns a string w such that w followed by what is left in the stream is exactly what was in the stream before; w is in the grammar of the requested class (WSP, CRLF, loose whitespace, or folding whitespace WSP* [CRLF WSP+]); if it returns the empty string the read position is unchanged, even if it had to read past a CRLF to find out.", "quantifier": "every stream content, every read position, every whitespace class", "why_tests_cant": "The rollback path depends on unbounded lookahead (any number of WSP before a CRLF) and on stream flags at end of input.", "anchors": ["src/Tokenizer.cpp: ReadWhiteSpace"]}
{"id": "C06", "title": "Colon-separated lists: render and parse agree", "statement": "For every list of non-empty items without ':' , control bytes or surrounding whitespace, joining the items with ':' and arbitrary folding whitespace around each colon and at both ends and calling ValueList gives back exactly the list of items in order.", "quantifier": "every list of items and every placement of folding whitespace", "why_tests_cant": "Unbounded number of items, item lengths and whitespace placements.", "anchors": ["src/Tokenizer.cpp: ValueList"]}
{"id": "C07", "title": "Colon-separated lists: results are always clean", "statement": "Whenever ValueList returns, every item is non-empty, does not contain ':' and neither starts nor ends with a space or tab; on every input ValueList terminates, and the only exception it can raise is PermanentError.", "quantifier": "every byte string", "why_tests_cant": "Must hold for malformed and adversarial h=, t=, s= values of any length.", "anchors": ["src/Tokenizer.cpp: ValueList"]}
{"id": "C08", "title": "Address list parsing terminates and never lets NUL through", "statement": "ParseAddressList(s) terminates for every s, either returning a list in which no address contains a NUL byte and no address is longer than s, or throwing PermanentError.", "quantifier": "every byte string, including arbitrarily nested quoted strings (the function recurses on quoted content)", "why_tests_cant": "Termination of a recursive descent over attacker controlled input cannot be established by running it on samples.", "anchors": ["src/Tokenizer.cpp: NextAddressListToken, ParseAddressList"]}
{"id": "C09", "title": "Address lists: render and parse agree", "statement": "For every list of mailboxes, each an addr-spec of ordinary characters containing '@', written either bare, in angle brackets, or with an arbitrary quoted display name (with backslash escapes) or a plain word display name before the angle brackets, joined by commas, ParseAddressList returns exactly the addr-specs in order.", "quantifier": "every list of mailboxes and all display-name contents", "why_tests_cant": "Unbounded lists and display names; the interaction of quotes, commas and brackets is combinatorial.", "anchors": ["src/Tokenizer.cpp: ParseAddressList"]}
{"id": "C10", "title": "Comments with escapes are skipped whole", "statement": "A comment in an address list, built from ordinary characters, backslash-escaped characters and nested comments, contributes nothing to the returned addresses: inserting it next to a token leaves the result of ParseAddressList unchanged.", "quantifier": "every comment of every nesting depth and escape content", "why_tests_cant": "Escape/nesting interleavings are unbounded.", "anchors": ["src/Tokenizer.cpp: NextAddressListToken (comment branch)"]}
{"id": "C11", "title": "Tag values are the exact source text at their recorded offset", "statement": "After a successful TagList::Parse(input), for every tag with a non-empty value the entry's offset points into input and the value equals input.substr(offset, value.size()); the value has no ';', starts and ends with a printable character, and consists of printable ASCII and whitespace only. So cutting value.size() bytes at the offset removes precisely that tag's value.", "quantifier": "every input string and every tag in it", "why_tests_cant": "CheckSignature cuts the b= value out by offset; one wrong offset on one whitespace layout silently changes what is authenticated.", "anchors": ["src/TagList.cpp: TagList::Parse", "src/TagList.hpp: TagListEntry", "src/Validatory.cpp: CheckSignature"]}
{"id": "C12", "title": "Tag lists: render and parse agree", "statement": "For every list of tags with pairwise distinct valid names and valid values, rendered as name=value pairs separated by ';' with arbitrary whitespace (space, tab, CR, LF) around names, values and separators and an optional final ';', TagList::Parse succeeds and GetTag returns exactly the given value for every name given and false for every other name.", "quantifier": "every list of tags and every whitespace layout", "why_tests_cant": "Unbounded number of tags and layouts.", "anchors": ["src/TagList.cpp: TagList::Parse, TagList::GetTag"]}
{"id": "C13", "title": "Duplicate or malformed tag lists are refused", "statement": "If a tag name occurs twice in the input (or is already present in a TagList that was not Reset), TagList::Parse throws PermanentError; on every input it terminates and the only exception is PermanentError; names are compared case sensitively.", "quantifier": "every input string and every previous content of the TagList", "why_tests_cant": "Accepting one duplicate shape lets two verifiers read different tags.", "anchors": ["src/TagList.cpp: TagList::Parse, TagList::Reset"]}
{"id": "C14", "title": "Mail header parsing is lossless", "statement": "For every message whose lines end in CRLF, the headers returned by Message, each followed by CRLF, then the blank line, then the bytes from GetBodyOffset on, concatenate to exactly the original message; if there is no blank line GetBodyOffset is -1 and the headers alone reproduce the message. For messages with bare LF line ends the same holds after rewriting those line ends to CRLF.", "quantifier": "every byte sequence given as message", "why_tests_cant": "Unbounded messages; mixtures of line ends, folding and missing final newline.", "anchors": ["src/MailParser.cpp: Message::ParseLine, Header::ParseLine"]}
{"id": "C15", "title": "Header fields are split at, and only at, unfolded line starts", "statement": "Every header returned by Message starts at a line that does not begin with space or tab (except possibly the very first line), each further line of it begins with space or tab, no line is lost or duplicated, GetName is the text before the first ':' with surrounding space/tab removed (empty if there is no ':'), and GetValueOffset points just behind that colon.", "quantifier": "every message", "why_tests_cant": "Unbounded header blocks with arbitrary folding.", "anchors": ["src/MailParser.cpp: Message::ParseLine, Header::ParseLine, Header::GetName", "src/MailParser.hpp: Header::GetValueOffset"]}
{"id": "C16", "title": "Body canonicalization follows RFC 6376 3.4.3/3.4.4 regardless of buffering", "statement": "The bytes passed to the callback by CanonicalizationBody without a limit, concatenated, are: the body split into lines (LF ends a line, CR is ignored), in relaxed mode with runs of WSP in a line reduced to one space and WSP at line end removed, trailing empty lines removed, and every remaining line ended by CRLF; an empty result becomes CRLF in simple mode and stays empty in relaxed mode. The result does not depend on where the 8096-byte read boundaries fall.", "quantifier": "every body of every length, both modes, every buffer size", "why_tests_cant": "The code keeps state across 8096-byte chunks; tests use bodies far below one chunk.", "anchors": ["src/Canonicalization.cpp: CanonicalizationBody"]}
{"id": "C17", "title": "Body length limit is a prefix of the canonical body", "statement": "With a limit l, CanonicalizationBody passes exactly the first l bytes of the unlimited output to the callback (all of it if l is larger) and returns false if and only if l exceeds the length of the unlimited output.", "quantifier": "every body, both modes, every l, every buffer size", "why_tests_cant": "Truncation can fall anywhere in a chunk, inside a CRLF or between chunks.", "anchors": ["src/Canonicalization.cpp: CanonicalizationBody (bodyLimit, bodySize)"]}
{"id": "C18", "title": "Body canonicalization is idempotent and newline-convention independent", "statement": "Canonicalizing an already canonical body gives the same bytes; converting a body between CRLF and LF line ends, or adding empty lines at the end, does not change the canonical body.", "quantifier": "every body, both modes", "why_tests_cant": "Algebraic law over an infinite domain.", "anchors": ["src/Canonicalization.cpp: CanonicalizationBody"]}
{"id": "C19", "title": "Relaxed body canonicalization ignores exactly whitespace amount and line-end whitespace", "statement": "Two bodies have the same relaxed canonical form if they have the same lines up to the amount of WSP between words and WSP at line ends, and trailing blank lines; and two bodies with the same relaxed canonical form agree on all their non-whitespace bytes in order.", "quantifier": "every pair of bodies", "why_tests_cant": "A relation between two unbounded inputs.", "anchors": ["src/Canonicalization.cpp: CanonicalizationBody (relaxed)"]}
{"id": "C20", "title": "Relaxed header canonicalization follows RFC 6376 3.4.2", "statement": "For every header field (name, colon, value; every CR is part of a CRLF followed by WSP, as produced by Message) FilterHeader in relaxed mode returns the lower-cased name without trailing whitespace, a colon, and the value unfolded, with each run of whitespace reduced to one space and none at either end; in simple mode it returns the input unchanged.", "quantifier": "every header field and every folding", "why_tests_cant": "Unbounded folding and whitespace layouts.", "anchors": ["src/Canonicalization.cpp: CanonicalizationHeader::FilterHeader"]}
{"id": "C21", "title": "Relaxed header canonicalization is idempotent and blind to refolding", "statement": "Applying relaxed FilterHeader to its own output changes nothing, and two header fields that differ only in the case of the name, in how they are folded, or in the amount of whitespace between words have the same relaxed form.", "quantifier": "every header field and every refolding of it", "why_tests_cant": "Relation between unbounded inputs; needed for signatures to survive relays.", "anchors": ["src/Canonicalization.cpp: CanonicalizationHeader::FilterHeader"]}
{"id": "C22", "title": "The hashed header stream is unambiguous", "statement": "For two messages and lists of signed header fields taken from them, if the byte streams CheckSignature feeds to the digest for these fields are equal then the two sequences of canonicalized fields are equal: no field boundary can be moved without changing the stream.", "quantifier": "every pair of header field sequences that Message can produce, both modes", "why_tests_cant": "An ambiguity is a single pair of sequences out of infinitely many.", "anchors": ["src/Validatory.cpp: CheckSignature", "src/Signatory.cpp: CreateSignature", "src/MailParser.cpp"]}
{"id": "C23", "title": "A generated signature verifies", "statement": "For every message and every option set with valid domain/selector, a From header among the signed headers, printable header names and matching key material: if Signatory::CreateSignature returns header text H, then a Validatory opened on H CRLF message lists that header, GetSignature (including the body hash check) succeeds, and CheckSignature with the matching key record succeeds - for both canonicalization modes of header and body, RSA and Ed25519, with and without l=, i=, t=, x=, oversigned headers and ARC.", "quantifier": "every message not beginning with a space or tab; every option set in which the domain and selector are set, all signatures use the algorithm of the first, Ed25519 goes with SHA-256, an identity lies in the domain, ARC (instance 1 to 50) goes without identity, and an oversigned name is neither that of the signature field nor that of a field left unsigned; fields below 2^31 bytes and l= below 2^63; every hash/signature primitive that is correct. C56 is the claim without these conditions", "why_tests_cant": "The round trip crosses every parser and printer of the library; tests try ten literals.", "anchors": ["src/Signatory.cpp: CreateSignature", "src/Validatory.cpp: Validatory, GetSignature, CheckBodyHash, CheckSignature", "src/Signature.cpp: Parse"]}
{"id": "C24", "title": "Signed headers are selected bottom-up, each instance once", "statement": "CheckSignature feeds to the digest, for the k-th occurrence of a name in h= (compared case-insensitively), the k-th last header field of that name in the message, in h= order, and nothing for occurrences beyond the number of such fields; no header field instance is used twice.", "quantifier": "every message and every h= list", "why_tests_cant": "Unbounded multiplicities and orders.", "anchors": ["src/Validatory.cpp: CheckSignature (headerCache)"]}
{"id": "C25", "title": "Oversigned names protect against added headers", "statement": "If h= lists a name more often than the message contains it, then adding one more header field of that name anywhere in the header block changes the sequence of header fields that CheckSignature authenticates.", "quantifier": "every message, every h= list, every insertion position and added field", "why_tests_cant": "Security argument over all insertions.", "anchors": ["src/Validatory.cpp: CheckSignature", "src/Signatory.cpp: CreateSignature (oversign)"]}
{"id": "C26", "title": "CheckSignature authenticates exactly the announced bytes", "statement": "If CheckSignature returns, then the key's primitive accepted the signature data over the digest (named by a=) of: the selected canonicalized header fields each followed by CRLF, then the canonicalized signature field itself with only the bytes of the b= value removed, without CRLF. In every other case it throws PermanentError with authentication result fail or permerror.", "quantifier": "every message, signature and key", "why_tests_cant": "Soundness of accept must hold for all inputs; a test can only show some rejections.", "anchors": ["src/Validatory.cpp: CheckSignature"]}
{"id": "C27", "title": "Only the b= value is left out of the signature hash", "statement": "The signature field hashed by CheckSignature is the original field with the value of b= deleted and every other byte of the field kept, wherever the b= tag stands in the field.", "quantifier": "every signature field and every position of b=", "why_tests_cant": "An attacker chooses layout and position.", "anchors": ["src/Validatory.cpp: CheckSignature", "src/TagList.cpp: Parse"]}
{"id": "C28", "title": "Body hash check binds the body", "statement": "GetSignature/CheckBodyHash returns normally if and only if the decoded bh= equals the digest (named by a=) of the canonical body (mode from c=) cut to l= bytes when l= is present; otherwise it throws PermanentError with authentication result fail.", "quantifier": "every message and parsed signature", "why_tests_cant": "Decision must be right on every input, including length mismatch of bh=.", "anchors": ["src/Validatory.cpp: CheckBodyHash, GetSignature"]}
{"id": "C29", "title": "Mandatory signature tags are enforced", "statement": "Signature::Parse succeeds only if the field has d=, s=, a= (one of rsa-sha1, rsa-sha256, ed25519-sha256), a non-empty b=, bh=, an h= list containing From (any case), v=1 for DKIM, and for ARC an instance i= between 1 and 50; otherwise it throws PermanentError. The getters then return the values of those tags.", "quantifier": "every header field", "why_tests_cant": "Each omission in each combination must be refused.", "anchors": ["src/Signature.cpp: Parse"]}
{"id": "C30", "title": "i= must be in the signing domain", "statement": "If Signature::Parse succeeds on a DKIM signature with an i= tag, the part after '@' equals d= or ends in '.' followed by d=, compared case-insensitively; with no i= the identity domain is d=. In particular a domain that merely ends with the characters of d= without a dot boundary is refused.", "quantifier": "every pair of i= and d= values", "why_tests_cant": "Suffix matching bugs show on specific strings only.", "anchors": ["src/Signature.cpp: Parse (i=)"]}
{"id": "C31", "title": "l= is read as a number within range", "statement": "If l= consists of 1 to 76 decimal digits with value below 2^63, Signature::Parse takes exactly that number as body limit; larger numbers are refused with PermanentError; text that is not a number is refused.", "quantifier": "every l= value", "why_tests_cant": "Overflow, sign and junk cases are unbounded.", "anchors": ["src/Signature.cpp: Parse (l=)"]}
{"id": "C32", "title": "Parsing a signature does not depend on what was parsed before", "statement": "The result of Signature::Parse on a fresh Signature is a function of the header field and the current time only; in particular it does not depend on which other signatures were parsed earlier in the same thread.", "quantifier": "every history of earlier Parse calls and every header field", "why_tests_cant": "History dependence needs the right earlier input; each test starts fresh.", "anchors": ["src/Signature.cpp: Parse (errno, strtoul, strtol)"]}
{"id": "C33", "title": "Expired signatures are refused", "statement": "If x= is a decimal number smaller than the current time, or not a number at all (with a positive clock), Signature::Parse throws; if it is a decimal number not smaller than the current time, x= does not cause refusal.", "quantifier": "every x= value and every time", "why_tests_cant": "Boundary and overflow behaviour over all values.", "anchors": ["src/Signature.cpp: Parse (x=)"]}
{"id": "C34", "title": "Key records restrict what they say they restrict", "statement": "CheckSignature refuses (PermanentError) a signature whose hash is not in the key record's h= list, whose signature algorithm differs from k= (default rsa), or, when the record has flag t=s and the signature is not ARC, whose i= domain differs from d=. PublicKey::Parse refuses a record without p=, with empty p= (revoked), with v= other than DKIM1 or with unknown k=.", "quantifier": "every key record and every signature", "why_tests_cant": "Policy must hold for all records, including ones with unknown tokens.", "anchors": ["src/PublicKey.cpp: Parse", "src/Validatory.cpp: CheckSignature (sanity checking)"]}
{"id": "C35", "title": "GetSignatures lists exactly the signature fields", "statement": "A Validatory of type DKIM (ARC) lists, in message order, exactly the header fields whose name is DKIM-Signature (ARC-Message-Signature) compared case-insensitively; of type NONE it lists none.", "quantifier": "every message", "why_tests_cant": "Unbounded header blocks.", "anchors": ["src/Validatory.cpp: Validatory constructor, GetSignatures"]}
{"id": "C36", "title": "Every verification failure is a DKIM error", "statement": "For every message and every resolver answer, GetSignature, GetPublicKey and CheckSignature either return or throw PermanentError or TemporaryError; no other exception (such as std::out_of_range) can escape, so a caller that catches these two, like the shipped tool, never terminates abnormally on hostile mail.", "quantifier": "every message, signature fields below 2^31 bytes, every resolver answer, every clock value", "why_tests_cant": "Needs all paths through all parsers on hostile input.", "anchors": ["src/Validatory.cpp", "src/Signature.cpp", "src/PublicKey.cpp", "src/Exception.hpp", "tools/src/main.cpp"]}
{"id": "C37", "title": "Key lookup outcome maps to the right error class", "statement": "GetPublicKey queries selector._domainkey.domain once; a failed query gives TemporaryError (result temperror), an empty answer gives PermanentError (result permerror), and a non-empty answer is parsed as key record.", "quantifier": "every signature and resolver behaviour", "why_tests_cant": "All resolver behaviours, including partial output with failure.", "anchors": ["src/Validatory.cpp: GetPublicKey", "src/Resolver.cpp: GetTXT", "src/Exception.hpp"]}
{"id": "C38", "title": "DNS answer parsing never reads outside the answer", "statement": "For every DNS response buffer content and length, Resolver::GetTXT reads only bytes inside its answer buffer and terminates.", "quantifier": "every response packet, well-formed or hostile", "why_tests_cant": "Memory safety on attacker supplied packets.", "anchors": ["src/Resolver.cpp: GetTXT"]}
{"id": "C39", "title": "TXT record text is reassembled", "statement": "For every well-formed DNS response whose answer section has TXT records (each a sequence of character-strings) possibly mixed with other record types, GetTXT returns true and the concatenation of all character-strings of all TXT records in order.", "quantifier": "every well-formed response: any owner names, any number and sizes of strings", "why_tests_cant": "Long keys span several character-strings; sizes are unbounded combinations.", "anchors": ["src/Resolver.cpp: GetTXT"]}
{"id": "C40", "title": "Domain and selector validation accepts exactly dotted LDH names", "statement": "SetDomain/SetSelector accept a string if and only if it is one or more non-empty labels joined by single dots, every label made of ASCII letters, digits and hyphens, starting and ending with a letter or digit; otherwise they throw PermanentError and leave the previous value unchanged.", "quantifier": "every byte string", "why_tests_cant": "Infinitely many malformed names; acceptance of one bad byte allows tag injection.", "anchors": ["src/Util.cpp: ValidateDomain, ValidateSubDomain", "src/SignatoryOptions.cpp: SetDomain, SetSelector"]}
{"id": "C41", "title": "Options accumulate as a plain record", "statement": "After any sequence of SignatoryOptions setter calls the getters return the most recently set values (defaults as documented in the constructor), AddHeaders appends, DelHeaders removes every equal name, failed setters change nothing, and the first element of GetAdditionalSignatures is always the main signature seen by GetDomain/GetSelector/GetSignatureAlgorithm.", "quantifier": "every sequence of setter calls", "why_tests_cant": "Unbounded histories; internal pointers into a growing list must stay valid.", "anchors": ["src/SignatoryOptions.cpp", "src/SignatoryOptions.hpp"]}
{"id": "C42", "title": "Removed headers are not signed", "statement": "A header name removed with DelHeaders is not signed by CreateSignature.", "quantifier": "every option history and message", "why_tests_cant": "Depends on letter case and on how many names remain.", "anchors": ["src/SignatoryOptions.cpp: DelHeaders", "src/Signatory.cpp: CreateSignature (headersToSign, signAll)"]}
{"id": "C43", "title": "Each generated header names the algorithm it was signed with", "statement": "When CreateSignature produces several signatures, every produced header's a= tag names the algorithm of the key that made that signature.", "quantifier": "every option set with any number of additional signatures", "why_tests_cant": "Needs option sets with several signatures of different algorithms; tests only use one.", "anchors": ["src/Signatory.cpp: CreateSignature (Algorithm2String)"]}
{"id": "C44", "title": "Signing twice gives the same signature", "statement": "Calling CreateSignature again on the same Signatory with the same options returns the same header text (deterministic primitives and fixed timestamps).", "quantifier": "every message and option set", "why_tests_cant": "Depends on hidden parser and stream state left by the first call.", "anchors": ["src/Signatory.cpp: CreateSignature", "src/MailParser.cpp: Message::ParseLine"]}
{"id": "C45", "title": "Verification is repeatable and order independent", "statement": "On one Validatory, any sequence of GetSignature, CheckBodyHash, CheckSignature and GetSignatures calls gives each call the same result as making it alone on a fresh Validatory for the same message.", "quantifier": "every message and every sequence of calls", "why_tests_cant": "Unbounded call histories over a shared stream position.", "anchors": ["src/Validatory.cpp", "src/Canonicalization.cpp: CanonicalizationBody (clear/seekg)"]}
{"id": "C46", "title": "Reset restores a fresh object", "statement": "After Reset, a Signature, PublicKey, TagList or Message behaves exactly like a newly constructed one, whatever was parsed before, including parses that threw.", "quantifier": "every history of parses, successful or failed", "why_tests_cant": "Unbounded histories.", "anchors": ["src/Signature.cpp: Reset", "src/PublicKey.cpp: Reset", "src/TagList.cpp: Reset", "src/MailParser.cpp: Reset"]}
{"id": "C47", "title": "Encoded-word decoding is total, and transparent on plain text", "statement": "EncodedWord::Decode terminates on every input; text without '=' and CR is returned unchanged except for leading and trailing whitespace; malformed encoded words are returned verbatim; a sequence of valid Q or B encoded words separated by whitespace decodes to the concatenation of their contents.", "quantifier": "every byte string; every list of words", "why_tests_cant": "Unbounded inputs and word counts.", "anchors": ["src/EncodedWord.cpp: EncodedWord::Decode"]}
{"id": "C48", "title": "Memory safety of signature verification", "statement": "For every message and key record, CheckSignature performs no read outside the signature data and key data it was given.", "quantifier": "every message, signature data length and key", "why_tests_cant": "The failing inputs are short b= values of a particular algorithm.", "anchors": ["src/Validatory.cpp: CheckSignature (crypto_sign_verify_detached)"]}
{"id": "C49", "title": "The body limit cannot exceed the body at signing time", "statement": "CreateSignature with SetSignBodyLength(n) succeeds only if n is at most the length of the canonical body, and then the produced header carries l=n; otherwise it throws PermanentError.", "quantifier": "every message and n", "why_tests_cant": "All n around all chunk boundaries.", "anchors": ["src/Signatory.cpp: CreateSignature", "src/Canonicalization.cpp: CanonicalizationBody"]}
{"id": "C50", "title": "Generated signature lines are folded and keep their text", "statement": "In the header text produced by CreateSignature every line after the first starts with a tab, the base64 of the signature is split into lines of at most 80 characters and removing the folding gives back the base64 text, and the h= value unfolds to the signed header names joined by colons.", "quantifier": "every signature length and every list of header names", "why_tests_cant": "Fold positions depend on all lengths.", "anchors": ["src/Signatory.cpp: CreateSignature (h=, b= folding)"]}
{"id": "C51", "title": "RSA key handles are freed exactly once", "statement": "Over any sequence of option setter calls followed by destruction, every RSA key the library loaded itself or was given with ownership is freed exactly once, and a key given without ownership is never freed.", "quantifier": "every sequence of SetPrivateKey/SetRSAPrivateKey/AddAdditionalSignature calls and destruction", "why_tests_cant": "Unbounded histories; leaks and double frees depend on order.", "anchors": ["src/SignatoryOptions.cpp: SetPrivateKey, SetRSAPrivateKey, ~AdditionalSignaturesOptions", "src/PublicKey.cpp: Reset, Parse"]}
{"id": "C52", "title": "Parsed addresses contain no line ends", "statement": "The addresses ParseAddressList returns contain no CR LF, whatever folding the header value has.", "quantifier": "every header value", "why_tests_cant": "The failing inputs have several folds in particular places.", "anchors": ["src/Tokenizer.cpp: ParseAddressList, ReadWhiteSpace"]}
{"id": "C53", "title": "A key record for another service is not used", "statement": "A key record whose s= tag lists neither email nor * is refused (RFC 6376 3.6.1).", "quantifier": "every key record and message", "why_tests_cant": "An absent check: no test fails for it unless someone thinks of the tag.", "anchors": ["src/PublicKey.cpp: Parse", "src/Validatory.cpp: CheckSignature"]}
{"id": "C54", "title": "Ed25519 signature data of the wrong length are refused", "statement": "CheckSignature refuses an Ed25519 signature whose decoded b= is not 64 bytes long.", "quantifier": "every signature length", "why_tests_cant": "Needs crafted b= lengths in connection with a particular algorithm.", "anchors": ["src/Validatory.cpp: CheckSignature (crypto_sign_verify_detached)"]}
{"id": "C55", "title": "Memory safety of signing", "statement": "CreateSignature performs no read outside the key material it was given, for every history of option calls.", "quantifier": "every option history and message", "why_tests_cant": "The failing histories select an algorithm without setting a key.", "anchors": ["src/Signatory.cpp: CreateSignature (crypto_sign_detached)", "src/SignatoryOptions.cpp: SetSignatureAlgorithm, SetPrivateKey"]}
{"id": "C56", "title": "Whatever CreateSignature returns verifies", "statement": "If CreateSignature returns without throwing, each header it returns verifies on the message it is put before, given the matching key record - without any condition on message or options.", "quantifier": "every message and option history", "why_tests_cant": "The failing cases are combinations of options and message texts that tests do not try.", "anchors": ["src/Signatory.cpp: CreateSignature", "src/SignatoryOptions.cpp"]}
{"id": "C57", "title": "A signature with an empty domain or selector is refused", "statement": "Signature::Parse refuses a header whose d= or s= value is empty.", "quantifier": "every header text", "why_tests_cant": "An absent check.", "anchors": ["src/Signature.cpp: Parse"]}
{"id": "C58", "title": "The program's OK is a genuine signature", "statement": "In validation mode a line ending in OK is printed only for a signature field of the named file that parses, whose body hash matches, and whose signature is that of the key found in DNS for the printed domain and selector.", "quantifier": "every command line, set of files, DNS answer and clock", "why_tests_cant": "End-to-end soundness of a whole program over all files and arguments.", "anchors": ["tools/src/main.cpp: main (validate loop)"]}
{"id": "C59", "title": "The program reports every signature, independently, and in its exit status", "statement": "In validation mode the program prints exactly one line for each signature field of each file, in order, each line is what the library says of that field alone, it ends normally, and the exit status tells whether all were good.", "quantifier": "every command line, set of files, DNS answer and clock", "why_tests_cant": "Interference through errno needs an overlong number in a neighbouring field or argument.", "anchors": ["tools/src/main.cpp: main (validate loop)", "src/Signature.cpp: Parse (l=)"]}
{"id": "C60", "title": "What the program signs it also validates", "statement": "The header the program prints, put in front of the signed message and validated by the program within its lifetime with the matching key record, gives OK for the given domain and selector.", "quantifier": "every message, key, option combination and clock", "why_tests_cant": "Composition of argument parsing, signing, output and verification over all messages.", "anchors": ["tools/src/main.cpp: main"]}
{"id": "C61", "title": "A header the program prints can be used", "statement": "The header the program prints for a message stays valid for longer than a moment, and one is printed only for a message that could be read.", "quantifier": "every message, clock and file system", "why_tests_cant": "The expiry shows only after waiting; a missing file gives a normal looking header.", "anchors": ["tools/src/main.cpp: main (SetExpiration, std::ifstream)"]}
{"id": "C62", "title": "The program obeys its command line", "statement": "Every command line that follows the documented syntax has one reading and the program acts on it, the last value of an option counting; every other command line prints no header and no result.", "quantifier": "every list of arguments", "why_tests_cant": "Unbounded argument lists, abbreviations, clusters and permuted operands.", "anchors": ["tools/src/main.cpp: main (getopt_long)"]}
{"id": "C63", "title": "A verified signature is one its owner made, for this content", "statement": "If GetSignature and CheckSignature succeed with a key that accepts nothing but what its owner signed with this library, then one of the owner's CreateSignature calls was for the same header fields in canonical form, a body with the same digest, and the same domain, selector, identity, algorithms, canonicalization modes, header list, length limit and instance; and its expiry time has not passed.", "quantifier": "every message signed, every message verified (whatever was changed in between), every option set, key record and clock", "why_tests_cant": "Ranges over all alterations of a message and its signature field at once: refolding, respacing, reordering, changed tags, merged or split fields.", "anchors": ["src/Validatory.cpp: GetSignature, CheckSignature", "src/Signatory.cpp: CreateSignature", "src/Canonicalization.cpp: FilterHeader"]}
{"id": "C64", "title": "A cut-off DNS response never yields part of a key record", "statement": "For every well-formed DNS response that ends early at any byte, GetTXT returns the texts of the first k records for some k, never part of the text of a record, and reports failure; a TXT record whose character-strings overrun it is not used.", "quantifier": "every well-formed response and every cut position", "why_tests_cant": "Ranges over all responses and all positions of the cut.", "anchors": ["src/Resolver.cpp: GetTXT"]}
{"id": "C65", "title": "Every verification failure has the right result class", "statement": "GetSignature ends with permerror exactly when the field does not parse and with fail exactly when it parses and the body hash does not match; GetPublicKey ends with temperror exactly when the lookup fails and with permerror exactly when there is no record or it does not parse; CheckSignature ends with permerror exactly when the record does not permit the signature or a signed field has no canonical form and with fail exactly when the primitive rejects the signature data; there is no other outcome but success.", "quantifier": "every message, field, clock, resolver answer and key record", "why_tests_cant": "The classes decide between reject, retry and ignore; each is an exact condition over unbounded inputs.", "anchors": ["src/Validatory.cpp: GetSignature, GetPublicKey, CheckBodyHash, CheckSignature", "src/Exception.hpp: getAuthenticationResult"]}
{"id": "C66", "title": "The tags of a generated field say what the options say", "statement": "Each field CreateSignature returns is a well-formed tag list whose tags are, in order, v= (or i= for ARC), a=, c=, t=, x=, d=, s=, i=, l=, h=, bh=, b=, the optional ones exactly when the options ask for them, and each tag has the value the options give: version 1 or the instance number, algorithm and digest, canonicalization modes, the times in decimal, domain, selector, the identity in dkim-quoted-printable, the length limit, the names of the signed and oversigned fields, and the RFC 4648 base64 text of the digest of the canonical body up to the limit and of what the signing primitive returned.", "quantifier": "every message, clock, option set, number of signatures and signing primitive", "why_tests_cant": "Ranges over all combinations of options and all messages; a wrong tag often still verifies with the same library.", "anchors": ["src/Signatory.cpp: CreateSignature"]}
{"id": "C67", "title": "The expiry time lies after the time of signing", "statement": "In every generated field with t= and x=, the number of x= is greater than that of t= (RFC 6376, 3.5), so the signature is not born expired.", "quantifier": "every timestamp, expiration, absolute or relative, and clock", "why_tests_cant": "64-bit arithmetic over all times, including negative ones and those near the ends of the range.", "anchors": ["src/Signatory.cpp: CreateSignature (t=, x=)", "src/SignatoryOptions.cpp: SetTimestamp, SetExpiration"]}
{"id": "C68", "title": "Generated fields are one header field each", "statement": "Whatever the message and the options contain, every field CreateSignature returns begins with its own field name and every line break in it is followed by a blank or tab, so that inserting it adds exactly one header field.", "quantifier": "every message (attacker-controlled names and folding) and every sequence of option calls", "why_tests_cant": "Header injection needs one unforeseen byte sequence in any of the inputs.", "anchors": ["src/Signatory.cpp: CreateSignature", "src/MailParser.cpp: Header::parse (name)", "src/SignatoryOptions.cpp: setters"]}
{"id": "C69", "title": "SHA-1 is not used", "statement": "No generated signature uses rsa-sha1 and no rsa-sha1 signature is accepted (RFC 8301).", "quantifier": "every option set, message and key record", "why_tests_cant": "All histories of option calls; all messages.", "anchors": ["src/Signature.cpp: Parse (a=)", "src/SignatoryOptions.cpp: SetDigestAlgorithm"]}
{"id": "C70", "title": "Only the host name made of s= and d= is looked up", "statement": "GetPublicKey uses the DNS answer for one name only, the value of s=, \"._domainkey.\" and the value of d= in lower case, and that name consists of host name characters.", "quantifier": "every signature field that parses and every resolver", "why_tests_cant": "Attacker-controlled fields: all values of two tags.", "anchors": ["src/Validatory.cpp: GetPublicKey", "src/Signature.cpp: Parse (d=, s=)"]}
{"id": "C71", "title": "Fields put in front of a message do not disturb its signatures", "statement": "Putting complete header fields in front of a message (trace fields, further signatures) leaves the fields, the signature fields and the body of the message as they were; GetSignature gives the same signature object and outcome, and CheckSignature gives the same outcome for every signature whose h= does not list the name of an added field more often than the message had fields of that name. The same holds if fields are moved, added or removed anywhere as long as for each listed name the fields of that name are the same in the same order.", "quantifier": "every message, block of header fields in front, signature, key and clock", "why_tests_cant": "Every relay adds fields; selection is by name from the bottom and repeated names interact with repeated fields in all numbers.", "anchors": ["src/MailParser.cpp: Message::ParseLine", "src/Validatory.cpp: GetSignature, CheckSignature"]}
{"id": "C72", "title": "Harmless changes in transit do not disturb signatures", "statement": "A message with the same header lines and body lines but other line ends (LF or CRLF, mixed) and more or fewer empty lines at the end gives the same signatures, and the same outcome of GetSignature and CheckSignature for each, in all canonicalization modes. With relaxed body canonicalization the outcome of GetSignature, and with relaxed header canonicalization that of CheckSignature, does not depend on whitespace within and at the end of body lines, respectively on folding, whitespace and case of names in the other fields.", "quantifier": "every pair of messages that differ in such ways, every signature, key and clock", "why_tests_cant": "Ranges over all pairs of messages related by any number of simultaneous changes.", "anchors": ["src/Canonicalization.cpp: FilterHeader, CanonicalizationBody", "src/MailParser.cpp: Message::ParseLine", "src/Validatory.cpp: GetSignature, CheckSignature"]}
{"id": "C73", "title": "When a signature is accepted, exactly", "statement": "For every message, the calls GetSignature, GetPublicKey and CheckSignature for its i-th signature field succeed if and only if the field, the canonical body, the key record and the canonical header fields are as required: stated from the bytes of the message and of the key record alone, without the library's functions. The command line program prints OK for exactly these signatures.", "quantifier": "every message without a header field of 2 GiB or more, kind of signature, key record, DNS response, clock reading and choice of primitives", "why_tests_cant": "An equivalence over all messages and key records: any rejected good signature and any accepted bad one is a counterexample.", "anchors": ["src/Validatory.cpp: Validatory, GetSignature, CheckBodyHash, GetPublicKey, CheckSignature", "src/Signature.cpp: Parse", "src/PublicKey.cpp: Parse", "tools/src/main.cpp: main"]}
{"id": "C74", "title": "The recommended header fields are signed unless told otherwise", "statement": "Unless SetHeaders or DelHeaders is called, every field of the message whose name is one of those recommended by RFC 6376 5.4.1 (in any letter case, however often it occurs) is among the fields that each generated signature covers.", "quantifier": "every message, sequence of the other option calls, key and clock", "why_tests_cant": "All messages with any number of fields of any spelling, and all histories of option calls.", "anchors": ["src/SignatoryOptions.cpp: SignatoryOptions, AddHeaders", "src/Signatory.cpp: CreateSignature"]}
{"id": "C75", "title": "Address lists: what every text is read as", "statement": "For every text, whether or not it is an address list of RFC 5322, ParseAddressList returns exactly the addresses given by a small grammar: words, quoted strings, comments, brackets and separators; a segment between separators yields nothing, the joined words behind the last '<', or the addresses within a single quoted string. Texts outside of the grammar are refused.", "quantifier": "every text, with plain char signed or unsigned", "why_tests_cant": "Ranges over all texts, including malformed ones, with unbounded nesting of comments and of quoted lists.", "anchors": ["src/Tokenizer.cpp: NextAddressListToken, ParseAddressList", "src/Tokenizer.cpp: ReadWhiteSpace"]}
{"id": "C76", "title": "A signed message is accepted where it arrives", "statement": "A message signed with sensible options and keys, that then gets trace fields and further signatures in front, other line ends and other empty lines at the end, is accepted where it arrives: each signature field is found behind the ones put in front, and GetSignature and CheckSignature succeed for it with its key, unless a field put in front has an oversigned name. With relaxed canonicalization the message may also have been refolded and respaced.", "quantifier": "every message, option set with any number of signatures, primitives, block of fields in front, pair of line end styles, refolding, and time before expiry", "why_tests_cant": "End-to-end composition of signer, relays and verifier over all messages and option sets.", "anchors": ["src/Signatory.cpp: CreateSignature", "src/MailParser.cpp: Message::ParseLine", "src/Validatory.cpp: GetSignature, CheckSignature", "src/Canonicalization.cpp: FilterHeader"]}
{"id": "C77", "title": "A From field added to a signed message is noticed", "statement": "Whatever fields are added to a signed message, and wherever: if one of them is a From field, its signatures are not accepted any more (short of a collision of the primitives).", "quantifier": "every message, option set, and added fields at any position", "why_tests_cant": "Security argument over all insertions into all signed messages.", "anchors": ["src/SignatoryOptions.cpp: SignatoryOptions, SetOversignHeaders", "src/Signatory.cpp: CreateSignature", "src/Validatory.cpp: CheckSignature"]}
{"id": "C78", "title": "Signing fails exactly when it must, with permerror", "statement": "CreateSignature succeeds exactly when the canonical body is at least as long as the requested l=, no lone CR gets into what is signed in relaxed form (fields, oversigned names, domains, selectors), and every key yields signature data. Otherwise the error is permerror; no other class and no other exception leaves it for any options, keys and message. Header canonicalization is refused exactly for texts without colon or with a CR that is not followed by LF.", "quantifier": "every message, option set, key material and primitives; every text for header canonicalization", "why_tests_cant": "Exact success condition of the whole signer over all inputs.", "anchors": ["src/Signatory.cpp: CreateSignature", "src/Canonicalization.cpp: FilterHeader", "src/Tokenizer.cpp: ReadWhiteSpace"]}
{"id": "C79", "title": "The address parser recurses only logarithmically deep", "statement": "For every text, ParseAddressList has at most log2 of (the number of quotes and backslashes + 2) calls of itself active at a time, so no address field of realistic size can exhaust the stack; no smaller bound holds.", "quantifier": "all texts t, all limits d", "why_tests_cant": "Tests use at most two levels of quoting; the bound for every text needs an argument about escapes.", "anchors": ["src/Tokenizer.cpp:276-353", "src/Tokenizer.cpp:199-217"]}
{"id": "C80", "title": "A line of the report that says OK is a report that says OK", "statement": "Whatever the messages and files contain, each line of the verifier's output that reads [file][domain][selector] OK is the report of a signature of that domain and selector that verified.", "quantifier": "all files, clocks, DNS answers and command lines", "why_tests_cant": "Attackers choose the texts that are printed; tests look at the output for honest messages only.", "anchors": ["tools/src/main.cpp:175-199", "src/PublicKey.cpp:62-103", "src/Signature.cpp:86-284", "src/Validatory.cpp:92-124", "src/Canonicalization.cpp:60-66"]}
{"id": "C81", "title": "Reading a DNS answer forms no pointer outside the buffer", "statement": "While an answer is taken apart no pointer is computed that lies outside the 64 KiB buffer (or one past its end), whether or not it is read through.", "quantifier": "all DNS answers", "why_tests_cant": "Nothing is read through these pointers, so sanitizers and tests see nothing; the compiler may still assume they do not exist.", "anchors": ["src/Resolver.cpp:103-164"]}
{"id": "C82", "title": "Signing releases everything it allocates", "statement": "When CreateSignature has ended, with a result or an exception, every digest context and buffer it allocated has been released.", "quantifier": "all messages, options, keys, clocks and behaviours of the signing primitives", "why_tests_cant": "Leaks on error paths show up only in long-running processes.", "anchors": ["src/Signatory.cpp:60", "src/Signatory.cpp:89", "src/Signatory.cpp:196-201", "src/Signatory.cpp:217-236"]}
{"id": "C83", "title": "Objects that share a stream do not disturb each other", "statement": "Verifiers and signers made on one input stream each give the answers they would give alone on a stream with the same text, whatever calls the others get in between.", "quantifier": "all messages, all sequences of making objects, calls and rewinding, all options and primitives", "why_tests_cant": "The order of the calls on several objects is up to the caller; the interleavings are endless.", "anchors": ["src/Validatory.hpp:71", "src/Validatory.cpp:46-69", "src/Validatory.cpp:131-165", "src/Signatory.hpp:46", "src/Signatory.cpp:55-116"]}
{"id": "C84", "title": "Options objects do not disturb each other", "statement": "Each SignatoryOptions object shows, through its getters, the calls made on it since it was made (or the value assigned to it) and nothing else, whatever is done to other objects in between.", "quantifier": "all numbers of objects, all sequences of making, setting, assigning and destroying them", "why_tests_cant": "The interleavings of calls on several objects are endless.", "anchors": ["src/SignatoryOptions.hpp:84-165", "src/SignatoryOptions.cpp:28-37", "src/SignatoryOptions.cpp:86-88"]}
{"id": "C85", "title": "A list of names handed over is used as it was", "statement": "Handing the result of GetHeaders or GetOversignHeaders, of the same or another object, to a setter has the effect of handing over a copy of it.", "quantifier": "all histories of options objects, all setters that take a list and getters that return one", "why_tests_cant": "It depends on which object the list belongs to and on the history of both.", "anchors": ["src/SignatoryOptions.cpp:199-222", "src/SignatoryOptions.hpp:109-112"]}
{"id": "C86", "title": "Reading a header takes linear work", "statement": "The number of bytes that the header parser looks at and copies is at most a constant times the length of the message.", "quantifier": "all byte strings as messages", "why_tests_cant": "Tests use short messages, and time depends on the machine.", "anchors": ["src/MailParser.cpp:35-55", "src/MailParser.cpp:85-126"]}
{"id": "C87", "title": "Reading a list takes linear work", "statement": "The number of stream operations of ValueList is at most a constant times the length of its text.", "quantifier": "all byte strings as texts of lists", "why_tests_cant": "Tests use short lists, and time depends on the machine.", "anchors": ["src/Tokenizer.cpp:94-121", "src/Tokenizer.cpp:129-180"]}
{"id": "C88", "title": "The DNS is asked for the keys of plausible signatures only", "statement": "The program asks the DNS for selector._domainkey.domain of each signature that parses and whose body hash is right, in order and once each, and judges the signature by the answer to its own question; it asks nothing else.", "quantifier": "all command lines, files and answers, also answers that change", "why_tests_cant": "Which questions are asked depends on every byte of the files and on all answers.", "anchors": ["tools/src/main.cpp:167-200", "src/Validatory.cpp:80-124"]}
{"id": "C89", "title": "A message causes a limited number of DNS questions", "statement": "There is a number of DNS questions that verifying a message never exceeds.", "quantifier": "all messages", "why_tests_cant": "A message with that many signatures has to be thought of.", "anchors": ["tools/src/main.cpp:167-200", "src/Validatory.cpp:92-124"]}
{"id": "C90", "title": "A message that cannot be read to its end is neither signed nor accepted", "statement": "When reading the message fails before its end, no signature is created for it and none of its signatures is accepted.", "quantifier": "all messages and all places where reading can fail", "why_tests_cant": "The source has to fail at a chosen byte.", "anchors": ["src/MailParser.cpp:85-126", "src/Canonicalization.cpp:124-218", "src/Validatory.cpp:131-165", "src/Signatory.cpp:55-110"]}
{"id": "C91", "title": "Signatures that follow the RFC are read", "statement": "A DKIM-Signature field that follows the grammar of RFC 6376 3.5, has supported algorithms and is not expired is taken, and the getters return the values of its tags.", "quantifier": "all fields of the grammar", "why_tests_cant": "The grammar has infinitely many fields; the refused ones are rare.", "anchors": ["src/Signature.cpp:72-303", "src/TagList.cpp:38-190", "src/Tokenizer.cpp:125-190"]}
{"id": "C92", "title": "Key records that follow the RFC are read, others with a version are not", "statement": "A key record that follows the grammar of RFC 6376 3.6.1, whose key can be loaded, is taken and says what its tags say; a record in which v= is not the first tag is discarded.", "quantifier": "all records of the grammar", "why_tests_cant": "The grammar has infinitely many records.", "anchors": ["src/PublicKey.cpp:53-180", "src/TagList.cpp:38-190"]}
{"id": "C93", "title": "Parse errors name the byte that is wrong and its place", "statement": "The text of an exception of the tag-list, value-list and quoted-printable parsers names the first byte with which the text cannot be continued to a good one, and its position.", "quantifier": "all texts, all tag lists before", "why_tests_cant": "A message is compared for a few broken texts at most; the place of the first wrong byte has to be found for all.", "anchors": ["src/TagList.cpp:97-197", "src/Tokenizer.cpp:33-180", "src/QuotedPrintable.cpp:34-92", "src/Util.cpp:64-75"]}
{"id": "C94", "title": "Encoded words are displayed as RFC 2047 says", "statement": "Unstructured text with encoded words is decoded to what RFC 2047 displays: words are replaced by what they stand for, blanks between two words vanish, all other blanks and all other text stay.", "quantifier": "all texts of RFC 2047 parts, words of both encodings", "why_tests_cant": "Words, ordinary parts and folded blanks can follow one another in any order and number.", "anchors": ["src/EncodedWord.cpp:33-159"]}
{"id": "C95", "title": "Objects that are used for one field or record after another", "statement": "A Signature or PublicKey object that other fields or records were parsed into takes the next one as a new object would.", "quantifier": "all sequences of fields and records, taken or refused", "why_tests_cant": "The state left behind depends on every earlier text and on the place where each of them was refused.", "anchors": ["src/Signature.cpp:39-300", "src/PublicKey.cpp:36-180", "src/TagList.cpp:92-197", "src/Validatory.cpp:80-133"]}
{"id": "C96", "title": "The reasons that are stated", "statement": "The text of an exception of Signature::Parse, PublicKey::Parse, GetSignature, GetPublicKey and CheckSignature states the first reason, in a fixed order, for which the signature is refused; nothing else is ever said, and nothing when there is no reason.", "quantifier": "all fields, key records, answers of the resolver and messages", "why_tests_cant": "The reason depends on everything in front of it; the texts take in bytes and places of the input.", "anchors": ["src/Signature.cpp:72-300", "src/PublicKey.cpp:53-180", "src/Validatory.cpp:80-280", "src/Canonicalization.cpp:60-111"]}
{"id": "C97", "title": "The new signature field, byte by byte", "statement": "CreateSignature returns the text H exactly when H consists of one field for each signature, the last first, each made of the parts v= or i=, a=, c=, t=, x=, d=, s=, i=, l=, h=, bh=, b= in this order and spelling, h= and b= broken into lines where the next name or byte would not fit, b= being the signature of the canonical forms of the chosen fields and of the field up to b=.", "quantifier": "all messages, options, keys and clocks", "why_tests_cant": "Line breaks depend on the lengths of all names; the signed data depend on the bytes of the field itself.", "anchors": ["src/Signatory.cpp:55-267", "src/Canonicalization.cpp:44-122", "src/QuotedPrintable.cpp:97-134", "src/Base64.cpp:36-80"]}
{"id": "C98", "title": "Why and where signing stops", "statement": "CreateSignature returns a field exactly when nothing on its way stops it; otherwise it throws stating the first thing that does (the body limit, a chosen field or the new field that cannot be made relaxed, no key, no signature), or that is undefined behaviour (a name with a negative char, an expiry out of range, an Ed25519 key of fewer than 63 bytes). The setters refuse exactly bad keys, domains and selectors, with their texts. The signing program prints the field and ends with 0, or one line on standard error and ends with 1.", "quantifier": "all messages, options, keys, clocks and files", "why_tests_cant": "The first event depends on the order of the steps and on every field and option before it.", "anchors": ["src/Signatory.cpp:55-267", "src/SignatoryOptions.cpp:80-400", "src/Canonicalization.cpp:60-111", "tools/src/main.cpp:128-167"]}
{"id": "C99", "title": "Why a text is no address list", "statement": "ParseAddressList reads a text as addresses, or throws with a text that states the first thing wrong with it (a CR without LF and where, a string, comment or escape that is not finished, a NUL, a '<' without '>'), or, where plain char is unsigned, does not return; each exactly for the texts of the specification. Without quoted strings the place named is the byte behind a CR of the text.", "quantifier": "all byte strings, plain char signed and unsigned", "why_tests_cant": "Where the first error is depends on all tokens before it and on lists inside quoted strings.", "anchors": ["src/Tokenizer.cpp:29-127", "src/Tokenizer.cpp:182-353"]}
{"id": "C100", "title": "Bytes of 128 and above at tolower and isspace", "statement": "No message, signature field or key record makes the library call tolower or isspace with a negative char, for which ISO C leaves them undefined; where they are called so, it is exactly for a byte in the name of a header field or in the decoded domain of i=, and everything else ends as if they were defined.", "quantifier": "all messages, fields, records, options and command lines", "why_tests_cant": "glibc defines these calls, so that no test shows them.", "anchors": ["src/Validatory.cpp:55-68", "src/Validatory.cpp:206-252", "src/Signature.cpp:72-300", "src/PublicKey.cpp:106-149", "src/Canonicalization.cpp:44-122", "src/Signatory.cpp:55-267"]}
{"id": "C101", "title": "A verifying run of the program", "statement": "Run with --validate, dkimpp writes for every signature field of every file, in order, one line with the file, the domain, the selector and the result, the result being the first of the failures in the order of the code (reading the field, body hash, DNS, key record, check) or OK, and ends with status 0; it ends otherwise only at a header name or identity with a byte of 128 or more (where ISO C leaves tolower undefined) or at ed25519 signature data of less than 63 bytes.", "quantifier": "all usual command lines, files without a header field of 2 GiB or more, resolvers (as functions of the name), clocks and crypto primitives", "why_tests_cant": "Every line depends on errno left over from the signatures before it, on each tag and on the order of some forty tests.", "anchors": ["tools/src/main.cpp:60-190", "src/Validatory.cpp:49-345", "src/Signature.cpp:72-300", "src/PublicKey.cpp:49-149"]}
{"id": "C102", "title": "A run of the command line program", "statement": "For any command line, files, DNS answers and clock, what dkimpp writes to standard output and to standard error and how it ends are determined by a description of the command line, of a signing run and of a verifying run: status 0 with nothing on standard error, status 1 or 2 with nothing on standard output and a message on standard error; it does nothing undefined but what C98 and C101 name and --arcinstance.", "quantifier": "all command lines, files without a header field of 2 GiB or more to be verified, resolvers (as functions of the name), clocks and crypto primitives", "why_tests_cant": "A run depends on the order of words, abbreviations, every byte of the files and the order of all tests in the library.", "anchors": ["tools/src/main.cpp:21-200"]}
{"id": "C103", "title": "Signature fields of any length", "statement": "However long a signature field is, what CheckSignature leaves out of it is the value of b=, and it ends with a verdict or a DKIM error.", "quantifier": "every signature that Signature::Parse accepts, of any length, every key record, message and choice of primitives", "why_tests_cant": "The place of b= goes through int; only fields of more than 2 GiB show it.", "anchors": ["src/Validatory.cpp:241-246", "src/TagList.hpp:30-50"]}
{"id": "C104", "title": "How much of the body is read", "statement": "Checking the body hash of a signature reads the body once and with l= no further than it has to, and verifying a message reads a number of bytes of its body proportional to the length of the message.", "quantifier": "all messages, signature fields, limits, clocks and primitives", "why_tests_cant": "That work grows with the product of two lengths is not visible in the result.", "anchors": ["src/Canonicalization.cpp:124-199", "src/Validatory.cpp:80-165", "tools/src/main.cpp:175-199"]}
{"id": "C105", "title": "Texts are formatted", "statement": "Every call of StringFormat passes arguments of the number and types its format asks for and returns the format with the arguments in their places; a refusal can always be stated.", "quantifier": "all formats, arguments, fields, records, clocks and primitives", "why_tests_cant": "The arguments of variadic calls are not checked, and texts of 2 GiB are not tried.", "anchors": ["src/Util.cpp:64-75", "src/Signature.cpp:96-277", "src/TagList.cpp:118-190", "src/PublicKey.cpp:60-103", "src/Tokenizer.cpp:40-60", "src/QuotedPrintable.cpp:50-90"]}
{"id": "C106", "title": "Nested comments do not overflow", "statement": "However deep comments are nested, NextAddressListToken and ParseAddressList count them correctly: they return what they would with an unbounded counter.", "quantifier": "all texts, signed and unsigned char", "why_tests_cant": "The counter is an int; no test has 2^31 parentheses.", "anchors": ["src/Tokenizer.cpp:220-249", "src/Tokenizer.cpp:276-353"]}
{"id": "C107", "title": "The header is hashed in linear work", "statement": "While the signatures of a message are checked, the number of header bytes that are hashed is bounded by a constant times the length of the message, whatever its h= lists say.", "quantifier": "all messages, keys, signatures", "why_tests_cant": "A test does not count what is hashed.", "anchors": ["src/Validatory.cpp:206-252", "src/Signatory.cpp:117-134"]}
{"id": "C108", "title": "A message signed by one party after the other", "statement": "However many parties sign a message one after the other, with fields put in front in between, every one of their signatures is accepted at the end, each with its own key.", "quantifier": "all messages, options, keys, any number of signers", "why_tests_cant": "Tests sign a message once.", "anchors": ["src/Signatory.cpp:38-231", "src/Validatory.cpp:44-330"]}
{"id": "C109", "title": "Tag lists and relaxed header fields are read in linear work", "statement": "Reading a tag list, and bringing a header field into its relaxed form, takes a number of steps proportional to its length.", "quantifier": "all texts; all fields of all messages", "why_tests_cant": "Tests do not count steps.", "anchors": ["src/TagList.cpp:97-197", "src/Canonicalization.cpp:44-122"]}
{"id": "C110", "title": "The locale of the process makes no difference", "statement": "Whether a message is accepted, and which signature is made, does not depend on the locale the process has set.", "quantifier": "all messages, keys, options, locales", "why_tests_cant": "Tests run in one locale.", "anchors": ["src/Canonicalization.cpp:66", "src/Validatory.cpp:60,213,221", "src/Signature.cpp:77,90,138,146,195,232", "src/Signatory.cpp:108,122,137", "src/PublicKey.cpp:114"]}
{"id": "C111", "title": "Contradictory times in a signature are refused", "statement": "A signature whose x= is not after its t= (forbidden by RFC 6376, 3.5), or whose t= lies in the future, is not accepted. More generally, it is known which tags of a signature and of a key record are looked at.", "quantifier": "all signatures, key records, messages", "why_tests_cant": "Tests have consistent times; which tags are ignored shows only over all tag lists.", "anchors": ["src/Signature.cpp:72-300", "src/PublicKey.cpp:53-180"]}
{"id": "C112", "title": "The environment does not change what a command line means", "statement": "The program does the same whether or not the environment variable POSIXLY_CORRECT is set.", "quantifier": "all command lines, files, keys", "why_tests_cant": "Tests run in one environment.", "anchors": ["tools/src/main.cpp:66-123"]}
{"id": "C113", "title": "A file that changes while it is verified", "statement": "If a file changes between the calls of a verification, a signature is accepted only if the file had a valid one before or after the change.", "quantifier": "all contents of the file at each call, calls, keys", "why_tests_cant": "Tests do not change files during a verification.", "anchors": ["src/Validatory.cpp:46-85", "src/Validatory.cpp:131-165", "src/Canonicalization.cpp:124-218"]}
{"id": "C114", "title": "The width of long makes no difference", "statement": "A signature field is read alike on platforms where long has 32 bits and where it has 64.", "quantifier": "all fields, times, states of errno", "why_tests_cant": "Tests run on one platform.", "anchors": ["src/Signature.cpp:205-215", "src/Signature.cpp:249-265", "src/Signature.cpp:292-297"]}
{"id": "C115", "title": "Reading an address list takes linear work", "statement": "How often ParseAddressList reads from its stream is at most a fixed multiple of the length of the text.", "quantifier": "all texts", "why_tests_cant": "Tests measure no work, and try no nested quoted-strings.", "anchors": ["src/Tokenizer.cpp:182-266", "src/Tokenizer.cpp:268-353"]}
{"id": "C116", "title": "Quoted-printable and encoded words are decoded in linear work", "statement": "How often QuotedPrintable::Decode and EncodedWord::Decode read from their streams is at most a fixed multiple of the length of the text.", "quantifier": "all texts", "why_tests_cant": "Tests measure no work; the whitespace reader puts back what it has read.", "anchors": ["src/QuotedPrintable.cpp:34-92", "src/EncodedWord.cpp:33-159"]}
{"id": "C117", "title": "A DNS answer is read once", "statement": "GetTXT looks at no more bytes than the answer has behind its header, up to a constant, and the text it gives is shorter than the answer.", "quantifier": "all packets", "why_tests_cant": "Tests have no answers made to be slow (many labels, pointers, records).", "anchors": ["src/Resolver.cpp:100-167"]}
{"id": "C118", "title": "Lines of a generated field can be sent", "statement": "Every line of the header text CreateSignature returns has at most 998 bytes, as RFC 5322 section 2.1.1 demands.", "quantifier": "all messages, options, keys and times", "why_tests_cant": "Tests use short names, domains and identities, so that no line can be too long.", "anchors": ["src/Signatory.cpp:140-290"]}
{"id": "C119", "title": "Address lists put one behind the other", "statement": "If two texts are read as address lists, the text made of the first, a comma or semicolon, and the second is read as the addresses of the first followed by those of the second; if the second is refused, so is the whole.", "quantifier": "all texts, signed and unsigned char", "why_tests_cant": "Tests read a few lists; that no address is lost when lists are joined is a statement about all pairs of texts.", "anchors": ["src/Tokenizer.cpp:130-353"]}
