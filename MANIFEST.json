{
 "claims": [
  {
   "property": "C01",
   "status": "proved",
   "theorems": [
    "C01_qp_round_trip"
   ],
   "note": ""
  },
  {
   "property": "C02",
   "status": "proved",
   "theorems": [
    "C02_qp_output_safe"
   ],
   "note": ""
  },
  {
   "property": "C03",
   "status": "proved",
   "theorems": [
    "C03_qp_decode_grammar"
   ],
   "note": ""
  },
  {
   "property": "C04",
   "status": "proved",
   "theorems": [
    "C04_base64_round_trip",
    "C04_base64_folded",
    "C04_base64_rfc4648"
   ],
   "note": "OpenSSL base64 is modelled by RFC 4648; invalid text goes to an arbitrary oracle."
  },
  {
   "property": "C05",
   "status": "proved",
   "theorems": [
    "C05_read_wsp",
    "C05_read_wsp_loose",
    "C05_read_crlf",
    "C05_read_fws"
   ],
   "note": ""
  },
  {
   "property": "C06",
   "status": "proved",
   "theorems": [
    "C06_value_list_render_parse",
    "C06_value_list_exact",
    "C06_value_list_all"
   ],
   "note": ""
  },
  {
   "property": "C07",
   "status": "partial",
   "theorems": [
    "C07_value_list_clean_partial",
    "C07_ends",
    "C07_value_list_clean_refuted"
   ],
   "note": "The clause that items carry no surrounding whitespace is false: a CRLF not followed by WSP is rolled back and then read as item text. The refutation is proved; the rest is proved for all inputs, and the whitespace clause for inputs whose CRLFs are folds."
  },
  {
   "property": "C08",
   "status": "partial",
   "theorems": [
    "C08_address_list_total_partial",
    "C08_unsigned_char_refuted",
    "C08_unsigned_char_exact",
    "C08_addresses",
    "C08_char_independent"
   ],
   "note": "Holds where plain char is signed. Where it is unsigned an unclosed quoted string never ends; exactly the texts that lead to one are read for ever (C08_unsigned_char_exact), all others behave as the property says, and without a byte 0xff they are read as with a signed char."
  },
  {
   "property": "C09",
   "status": "proved",
   "theorems": [
    "C09_address_list_render_parse"
   ],
   "note": "Grammar: ordinary bytes exclude , ; < > quote ( WSP CR NUL, no two adjacent folds, no byte 0xff inside quotes."
  },
  {
   "property": "C10",
   "status": "partial",
   "theorems": [
    "C10_comment_front",
    "C10_comment_tame",
    "C10_comment_bare_partial",
    "C10_comment_angle_partial",
    "C10_comment_refuted"
   ],
   "note": "Comments with two adjacent escapes are the exception, proved as the refutation; the other clauses hold for tame comments. In front of any text exactly the comments of the relation skipped are skipped whole (C10_comment_front), the tame ones among them."
  },
  {
   "property": "C11",
   "status": "proved",
   "theorems": [
    "C11_tag_value_at_offset",
    "C11_tag_position"
   ],
   "note": ""
  },
  {
   "property": "C12",
   "status": "proved",
   "theorems": [
    "C12_tag_list_render_parse"
   ],
   "note": ""
  },
  {
   "property": "C13",
   "status": "proved",
   "theorems": [
    "C13_accepted_iff",
    "C13_total",
    "C13_duplicate_refused"
   ],
   "note": ""
  },
  {
   "property": "C14",
   "status": "proved",
   "theorems": [
    "C14_lossless_crlf",
    "C14_no_blank_line_crlf",
    "C14_lossless",
    "C14_no_blank_line"
   ],
   "note": ""
  },
  {
   "property": "C15",
   "status": "proved",
   "theorems": [
    "C15_fields",
    "C15_folded"
   ],
   "note": ""
  },
  {
   "property": "C16",
   "status": "proved",
   "theorems": [
    "C16_body_canonical",
    "C16_spec_total"
   ],
   "note": ""
  },
  {
   "property": "C17",
   "status": "proved",
   "theorems": [
    "C17_body_limit"
   ],
   "note": ""
  },
  {
   "property": "C18",
   "status": "proved",
   "theorems": [
    "C18_total",
    "C18_idempotent",
    "C18_newline_convention",
    "C18_empty_lines"
   ],
   "note": ""
  },
  {
   "property": "C19",
   "status": "proved",
   "theorems": [
    "C19_relaxed_same_iff",
    "C19_visible_bytes_kept"
   ],
   "note": ""
  },
  {
   "property": "C20",
   "status": "proved",
   "theorems": [
    "C20_exact",
    "C20_one",
    "C20_relaxed",
    "C20_simple",
    "C20_complete",
    "C20_message_fields_fold"
   ],
   "note": "Every field of a message satisfies crlf_folds (C20_message_fields_fold). Names: empty or blank names are not fields; C20_complete says so. C20_exact and C20_one are for all texts, also those that are no fields."
  },
  {
   "property": "C21",
   "status": "proved",
   "theorems": [
    "C21_idempotent",
    "C21_idempotent_all",
    "C21_refolding"
   ],
   "note": ""
  },
  {
   "property": "C22",
   "status": "partial",
   "theorems": [
    "C22_stream_partial",
    "C22_simple_exact",
    "C22_relaxed_exact",
    "C22_first_only",
    "C22_read_plain",
    "C22_leading_space_refuted"
   ],
   "note": "Proved in relaxed mode for all messages; in simple mode when neither message begins with WSP. False otherwise (C22_leading_space_refuted); C22_simple_exact says exactly when two streams agree: when the fields are the same after a field that begins with WSP, which only the first of a message can (C22_first_only), is joined to the one hashed before it."
  },
  {
   "property": "C23",
   "status": "proved",
   "theorems": [
    "C23_round_trip"
   ],
   "note": "The conditions are those listed in the quantifier of C23: sound_options, sound_fields, serves in SpecSign.v and no leading space. The clock must not have passed x=, and errno must not be set when l= is used."
  },
  {
   "property": "C24",
   "status": "proved",
   "theorems": [
    "C24_selection",
    "C24_iff",
    "C24_once"
   ],
   "note": ""
  },
  {
   "property": "C25",
   "status": "proved",
   "theorems": [
    "C25_oversigned",
    "C25_stream"
   ],
   "note": "C25_oversigned for the selected fields themselves; C25_stream for the hashed bytes (with the restriction of C22 in simple mode)."
  },
  {
   "property": "C26",
   "status": "partial",
   "theorems": [
    "C26_iff",
    "C26_strict",
    "C26_announced",
    "C26_otherwise_partial",
    "C26_ed_trailing_refuted"
   ],
   "note": "Success is characterised exactly (C26_iff), the signed bytes by the canonical forms (C26_announced). Missing: an Ed25519 signature shorter than 63 bytes is undefined behaviour instead of an exception (C48), and of a longer one only the first 64 bytes are given to the primitive (C26_ed_trailing_refuted). Field text below 2^31 bytes (int conversion of the offset; C103_exact has fields of any length)."
  },
  {
   "property": "C27",
   "status": "proved",
   "theorems": [
    "C27_position",
    "C27_only_b"
   ],
   "note": "Field text below 2^31 bytes (int conversion of the offset)."
  },
  {
   "property": "C28",
   "status": "proved",
   "theorems": [
    "C28_body_hash",
    "C28_get_signature",
    "C28_parse_failure",
    "C28_one_body"
   ],
   "note": "in_use: the Validatory after any earlier calls (see C45)."
  },
  {
   "property": "C29",
   "status": "proved",
   "theorems": [
    "C29_mandatory",
    "C29_headers",
    "C29_lacking_refused",
    "C29_total",
    "C29_sufficient",
    "C29_exact"
   ],
   "note": "The field is given with its value offset inside the text, as MailParser produces it. Where the C library makes tolower of a negative char undefined (strict) C29_mandatory still holds; the totality theorems are for glibc (strict = false; see C100_field for the other). An ARC i= may carry text after the number."
  },
  {
   "property": "C30",
   "status": "proved",
   "theorems": [
    "C30_identity",
    "C30_outside_refused",
    "C30_no_at_refused"
   ],
   "note": ""
  },
  {
   "property": "C31",
   "status": "partial",
   "theorems": [
    "C31_limit_partial",
    "C31_no_limit",
    "C31_refused_partial",
    "C31_accepted",
    "C31_not_a_number_refuted"
   ],
   "note": "Numbers in range are taken exactly and numbers out of range refused. Not every text that is not a number is refused: the empty text, signs and wrapped negative numbers are accepted (C31_not_a_number_refuted); C31_limit_partial says exactly which. C31_accepted is for errno not ERANGE (see C32)."
  },
  {
   "property": "C32",
   "status": "partial",
   "theorems": [
    "C32_history_refuted",
    "C32_exact",
    "C32_without_limit_partial",
    "C32_quiet_history_partial"
   ],
   "note": "False as stated: errno left by an earlier Parse (C32_history_refuted). Holds without l=, and when no earlier field had a number of 2^63 or more; C32_exact: errno matters exactly for fields with l= that are good otherwise."
  },
  {
   "property": "C33",
   "status": "proved",
   "theorems": [
    "C33_expired",
    "C33_decimal_expired",
    "C33_not_expired"
   ],
   "note": "A number followed by other text counts as that number, as strtol reads it."
  },
  {
   "property": "C34",
   "status": "partial",
   "theorems": [
    "C34_exact",
    "C34_record",
    "C34_record_text",
    "C34_testing",
    "C34_refused",
    "C34_hash_partial",
    "C34_algorithm",
    "C34_same_domain",
    "C34_hash_refuted"
   ],
   "note": "False for h= that lists only unknown hashes (C34_hash_refuted); proved when h= lists a known one. The rest is proved. C34_exact: a record refuses exactly the signatures that record_allows does not have (h= with a known hash, k=, t=s), and makes no other difference."
  },
  {
   "property": "C35",
   "status": "proved",
   "theorems": [
    "C35_listed",
    "C35_total"
   ],
   "note": "For C libraries where tolower of a negative char is undefined: 7 bit header names (C35_total)."
  },
  {
   "property": "C36",
   "status": "partial",
   "theorems": [
    "C36_dkim_errors_partial",
    "C36_short_ed_refuted"
   ],
   "note": "Proved except for Ed25519 signature data shorter than 63 bytes, where CheckSignature reads out of bounds (C36_short_ed_refuted). The signature field below 2^31 bytes (int conversion of the offset; C103_exact has fields of any length)."
  },
  {
   "property": "C37",
   "status": "proved",
   "theorems": [
    "C37_lookup",
    "C37_only_query",
    "C37_query_failed",
    "C37_query_answered"
   ],
   "note": "The resolver is a function; that it is called at most once is visible in the model, which has one call."
  },
  {
   "property": "C38",
   "status": "proved",
   "theorems": [
    "C38_in_bounds",
    "C38_lookup"
   ],
   "note": "Reads only: forming pointers beyond the buffer (answer + len - 10 and the like) is not modelled."
  },
  {
   "property": "C39",
   "status": "proved",
   "theorems": [
    "C39_reassembled"
   ],
   "note": ""
  },
  {
   "property": "C40",
   "status": "proved",
   "theorems": [
    "C40_domain",
    "C40_selector"
   ],
   "note": ""
  },
  {
   "property": "C41",
   "status": "partial",
   "theorems": [
    "C41_getters",
    "C41_main_first",
    "C41_on_main",
    "C41_on_more",
    "C41_signatures",
    "C41_key",
    "C41_failed_partial",
    "C41_failed_refuted"
   ],
   "note": "Proved except that a failed load of an RSA key that is not PEM drops the key set before (C41_failed_refuted)."
  },
  {
   "property": "C42",
   "status": "partial",
   "theorems": [
    "C42_removed_partial",
    "C42_exact",
    "C42_letter_case_refuted",
    "C42_all_removed_refuted"
   ],
   "note": "False as stated: DelHeaders compares letter case (C42_letter_case_refuted), and removing every name makes CreateSignature sign all fields (C42_all_removed_refuted). Proved when all spellings are removed, names remain, and the name is not oversigned; exactly which names are listed after a removal is C42_exact."
  },
  {
   "property": "C43",
   "status": "partial",
   "theorems": [
    "C43_algorithm_partial",
    "C43_mixed_refuted"
   ],
   "note": "False as stated: an additional signature of another algorithm gets the a= of the first one (C43_mixed_refuted). C43_algorithm_partial says exactly when: a= of every field is that of the first signature, right iff the algorithm is the same."
  },
  {
   "property": "C44",
   "status": "partial",
   "theorems": [
    "C44_second_call",
    "C44_unended",
    "C44_third_refuted",
    "C44_exact",
    "C44_left_whole",
    "C44_left_none",
    "C44_left_pieces",
    "C44_zero_partial",
    "C44_same_partial",
    "C44_body_refuted",
    "C44_no_body_refuted"
   ],
   "note": "False as stated: a second call signs an empty body (C44_second_call says exactly what it signs), and the last field twice if there is no empty line. Same text if the canonical body is that of an empty one, and with SetSignBodyLength(0). C44_exact: what any second call signs, by what the first one left on the stream, for messages with an empty line; C44_unended: what any further call signs without one. A third call can sign a line of the body as a field (C44_third_refuted)."
  },
  {
   "property": "C45",
   "status": "partial",
   "theorems": [
    "C45_repeatable_partial",
    "C45_errno_refuted"
   ],
   "note": "Proved when each call is compared with the same call alone under the same errno; false if errno is carried over from an earlier GetSignature (C45_errno_refuted)."
  },
  {
   "property": "C46",
   "status": "proved",
   "theorems": [
    "C46_reset"
   ],
   "note": ""
  },
  {
   "property": "C47",
   "status": "proved",
   "theorems": [
    "C47_total",
    "C47_exact",
    "C47_decoded",
    "C47_plain",
    "C47_verbatim",
    "C47_malformed",
    "C47_words"
   ],
   "note": "A lone CR outside a word makes Decode throw PermanentError. C47_exact says what every text is decoded to; text with = but no ?= is kept as it is."
  },
  {
   "property": "C48",
   "status": "partial",
   "theorems": [
    "C48_in_bounds_partial",
    "C48_exact",
    "C48_short_ed_refuted"
   ],
   "note": "Proved except for Ed25519 signature data shorter than 63 bytes (C48_short_ed_refuted); C48_exact: undefined exactly for these, if the key is for the signature and all fields have a canonical form."
  },
  {
   "property": "C49",
   "status": "proved",
   "theorems": [
    "C49_at_most",
    "C49_refused",
    "C49_tag"
   ],
   "note": "C49_tag for names that can stand in h= (signable_name) and options that give a well-formed field (plain_options; C66_options)."
  },
  {
   "property": "C50",
   "status": "proved",
   "theorems": [
    "C50_b",
    "C50_folded"
   ],
   "note": "Names that can stand in h= (signable_name) and plain_options (see C66_options) for C50_folded."
  },
  {
   "property": "C51",
   "status": "partial",
   "theorems": [
    "C51_once_partial",
    "C51_lent",
    "C51_only_owned",
    "C51_exactly_once_partial",
    "C51_two_loads_refuted",
    "C51_load_after_lent_refuted",
    "C51_copy_refuted",
    "C51_public_once",
    "C51_public_all_partial",
    "C51_public_refuted",
    "C51_exact",
    "C51_public_exact"
   ],
   "note": "False as stated: an element given two keys leaks the first, a key loaded after a lent one leaks, and PublicKey::Parse twice without Reset leaks. Beyond the quantifier, copying an AdditionalSignaturesOptions frees its key twice. Proved: never freed twice without copies, lent keys never freed, and exactly once when each element gets at most one key; C51_exact and C51_public_exact say exactly which objects are freed, hence which leak."
  },
  {
   "property": "C52",
   "status": "partial",
   "theorems": [
    "C52_folded_partial",
    "C52_bytes",
    "C52_two_folds_refuted",
    "C52_quoted_refuted"
   ],
   "note": "False as stated: two adjacent folds, or a fold in a quoted string, put CRLF into an address. Proved for values with plain folding and no quoted strings."
  },
  {
   "property": "C53",
   "status": "partial",
   "theorems": [
    "C53_ignored",
    "C53_other_refuted",
    "C53_indistinct_refuted"
   ],
   "note": "False: s= is parsed and never looked at."
  },
  {
   "property": "C54",
   "status": "partial",
   "theorems": [
    "C54_short_partial",
    "C54_63_refuted",
    "C26_ed_trailing_refuted",
    "C48_short_ed_refuted"
   ],
   "note": "False: 63 bytes can be accepted, bytes after the 64th are ignored, fewer than 63 are read out of bounds. Proved that fewer than 63 are never accepted."
  },
  {
   "property": "C55",
   "status": "partial",
   "theorems": [
    "C55_safe_partial",
    "C55_exact",
    "C55_no_key_refuted",
    "C55_overflow_refuted"
   ],
   "note": "False when ED25519 is selected without a key (C55_no_key_refuted). Proved for histories that give each Ed25519 signature a key, with the law that crypto_sign_seed_keypair returns 64 bytes. C55_exact: exactly when signing leaves the language, for keys that always or never sign and where tolower of a negative char is harmless."
  },
  {
   "property": "C56",
   "status": "partial",
   "theorems": [
    "C56_read_exact",
    "C56_leading_space_refuted",
    "C56_oversigned_unsigned_refuted",
    "C56_oversigned_signature_refuted",
    "C56_arc_identity_refuted",
    "C56_mixed_algorithms_refuted",
    "C56_ed25519_sha1_refuted",
    "C56_semicolon_name_refuted",
    "C56_no_from_refuted",
    "C56_identity_refuted",
    "C23_round_trip"
   ],
   "note": "False: the refutations are nine different ways. The part that holds is C23_round_trip; exactly when GetSignature reads a produced field is C56_read_exact (which does not speak of CheckSignature)."
  },
  {
   "property": "C57",
   "status": "partial",
   "theorems": [
    "C57_domain_refuted",
    "C57_selector_refuted",
    "C29_lacking_refused"
   ],
   "note": "False: empty values are accepted; only absent tags are refused (C29_lacking_refused)."
  },
  {
   "property": "C58",
   "status": "proved",
   "theorems": [
    "C58_ok"
   ],
   "note": "For files without a header field of 2 GiB or more (the int offset of a field)."
  },
  {
   "property": "C59",
   "status": "partial",
   "theorems": [
    "C59_lines",
    "C59_independent_partial",
    "C59_ends_partial",
    "C59_neighbour_refuted",
    "C59_instance_refuted",
    "C59_status_refuted"
   ],
   "note": "False as stated: the exit status is always 0 (C59_status_refuted) and an overlong number in one field or in -A spoils later fields with l= through errno (C59_neighbour_refuted, C59_instance_refuted). Proved: one line per field in order (C59_lines); independence when nothing sets errno; normal end except for short Ed25519 signatures and checked iterators. C101 describes every verifying run exactly, errno included."
  },
  {
   "property": "C60",
   "status": "proved",
   "theorems": [
    "C60_round_trip"
   ],
   "note": "The program signs with x= one second ahead, so the clock of the verifying run may be at most one second later (C61). The message must have a From field and must not begin with white space."
  },
  {
   "property": "C61",
   "status": "partial",
   "theorems": [
    "C61_short_lived",
    "C61_expired_refuted",
    "C61_absent_refuted"
   ],
   "note": "False: the header expires after one second (SetExpiration(1, false)), proved for every run (C61_short_lived), and an unreadable message file is signed as an empty message."
  },
  {
   "property": "C62",
   "status": "partial",
   "theorems": [
    "C62_unique",
    "C62_obeyed",
    "C62_help",
    "C62_otherwise",
    "C62_no_value",
    "C62_keytype",
    "C62_instance_refuted",
    "C62_keytype_refuted",
    "C62_format_refuted"
   ],
   "note": "False as documented: --keytype is not known, --arcinstance takes no value and leads to strtoul(NULL), unknown key formats mean rsa. Proved for the syntax the program implements: one reading, acted on, and nothing printed for other command lines. C102 describes every run exactly, C101_settings the numbers of --instance."
  },
  {
   "property": "C63",
   "status": "proved",
   "theorems": [
    "C63_signer_text",
    "C63_binding",
    "C63_authentic"
   ],
   "note": "Unforgeability and collision resistance are a hypothesis of C63_authentic (what the key accepts was signed by its owner); C63_signer_text proves that this is what CreateSignature signs. The owner uses meaningful options (sound_options), signable field names, and messages that do not begin with white space (C22_leading_space_refuted shows the need); with simple canonicalization the verified message does not begin with white space either."
  },
  {
   "property": "C64",
   "status": "partial",
   "theorems": [
    "C64_whole_records",
    "C64_failure_partial",
    "C64_failure_refuted",
    "C64_strings_refuted",
    "C64_exact"
   ],
   "note": "Proved: only whole records are used, whatever the cut (C64_whole_records), and a cut behind the name of a record is a failure. False for a cut in front of or inside of a name, and for overlong character strings: the response is taken for complete. C64_exact says what is read from any packet at all."
  },
  {
   "property": "C65",
   "status": "partial",
   "theorems": [
    "C65_signature",
    "C65_key",
    "C65_check_partial",
    "C65_names"
   ],
   "note": "Proved but for Ed25519 signature data shorter than 63 bytes, for which CheckSignature reads out of bounds (C48)."
  },
  {
   "property": "C66",
   "status": "proved",
   "theorems": [
    "C66_tags",
    "C66_options",
    "C66_two_instances"
   ],
   "note": "For names that can stand in h= (signable_name) and all options but those of a forwarder with an identity, which gives two i= tags (plain_options, C66_options, C66_two_instances). The times wrap if negative (shown_time); see C67. a= is that of the first signature; see C43."
  },
  {
   "property": "C67",
   "status": "partial",
   "theorems": [
    "C67_later_partial",
    "C67_exact",
    "C67_absolute_refuted",
    "C67_zero_refuted",
    "C67_back_refuted",
    "C67_negative_refuted"
   ],
   "note": "False as stated: absolute, zero and negative expirations and negative timestamps are not refused (the four refutations). Proved for a positive relative expiration and a nonnegative time of signing; C67_exact says exactly when it holds."
  },
  {
   "property": "C68",
   "status": "partial",
   "theorems": [
    "C68_lines_partial",
    "C68_folded_partial",
    "C68_exact",
    "C68_message_refuted",
    "C68_oversign_refuted"
   ],
   "note": "False as stated: a field name that ends in a fold breaks the field (C68_message_refuted), and line breaks in oversigned names are copied (C68_oversign_refuted). Proved for every message and every sequence of setter calls without line breaks in oversigned names: no line begins with anything but a blank, a tab, a colon or a semicolon, so no field can be injected; and with blanks and tabs only if no signed name ends in LF. C68_exact: the fields are one header field each exactly if no signed name ends in LF and every line of the oversigned names begins with a blank."
  },
  {
   "property": "C69",
   "status": "partial",
   "theorems": [
    "C69_signing_partial",
    "C69_sha1_refuted",
    "C34_hash_partial"
   ],
   "note": "False: rsa-sha1 is signed when asked for and accepted. Proved: not used for signing unless SetDigestAlgorithm(SHA1) is called, and refused if the key record lists only other hashes the library knows (C34_hash_partial)."
  },
  {
   "property": "C70",
   "status": "partial",
   "theorems": [
    "C70_name_partial",
    "C70_blank_refuted",
    "C70_selector_refuted"
   ],
   "note": "The first half is proved (C70_name_partial); the second is false: neither value is checked."
  },
  {
   "property": "C71",
   "status": "proved",
   "theorems": [
    "C71_front",
    "C71_front_exact",
    "C71_named"
   ],
   "note": "C71_front_exact: for fields in front, what a signature covers is the same exactly when they are out of its reach."
  },
  {
   "property": "C72",
   "status": "proved",
   "theorems": [
    "C72_line_ends",
    "C72_relaxed"
   ],
   "note": "The signature field itself is the same in both messages."
  },
  {
   "property": "C73",
   "status": "proved",
   "theorems": [
    "C73_exact",
    "C73_published",
    "C73_lines"
   ],
   "note": "For lenient tolower (strict = false; C100_verify carries it over to the other). The raw tag list of the signature object is left open. In the lines of the program, which clock reading and errno are not said."
  },
  {
   "property": "C74",
   "status": "proved",
   "theorems": [
    "C74_usual",
    "C74_recommended"
   ],
   "note": "For names that can stand in h= and options other than those of a forwarder with an identity (C66)."
  },
  {
   "property": "C75",
   "status": "proved",
   "theorems": [
    "C75_every_text"
   ],
   "note": "With an unsigned char, texts outside of the grammar may also not terminate (exactly when: C08_unsigned_char_exact)."
  },
  {
   "property": "C76",
   "status": "proved",
   "theorems": [
    "C76_line_ends",
    "C76_relaxed"
   ],
   "note": "Conditions on options and field names as in C23. The signature fields themselves are unchanged."
  },
  {
   "property": "C77",
   "status": "partial",
   "theorems": [
    "C77_oversigned_partial",
    "C77_noticed",
    "C77_second_from_refuted",
    "C77_front_unnoticed"
   ],
   "note": "False as stated: nothing is oversigned by default, so a second From can be put in front (C77_second_from_refuted; C77_front_unnoticed for every message and all options without oversigned names). Proved if From is among the oversigned names, for fields added anywhere and in any order; C77_noticed for any signature and any added field that it lists more often than the message had such fields (C71_front_exact: for fields in front this is exact)."
  },
  {
   "property": "C78",
   "status": "proved",
   "theorems": [
    "C78_header",
    "C78_exact",
    "C78_succeeds",
    "C78_class"
   ],
   "note": "The condition is for platforms where tolower of a negative char is harmless (otherwise C33), for x= that fits in time_t, and for keys that always or never sign."
  },
  {
   "property": "C79",
   "status": "proved",
   "theorems": [
    "C79_depth",
    "C79_length",
    "C79_exact"
   ],
   "note": "pal cs d is the model with at most d active calls; C79_exact gives texts that need all of them. The size of a stack frame is not modelled."
  },
  {
   "property": "C80",
   "status": "partial",
   "theorems": [
    "C80_ok_line_partial",
    "C80_output_partial",
    "C80_printed",
    "C80_record_refuted",
    "C80_fold_refuted",
    "C80_brackets_refuted",
    "C80_control_refuted"
   ],
   "note": "Holds when DNS answers have no LF and the names on the line have no \"]\". Refuted without that: a key record can write the line (C80_record_refuted), a folded s= can write it with a CR at the end (C80_fold_refuted), a d= with brackets shows another domain (C80_brackets_refuted); control characters are printed too (C80_control_refuted). C80_ok_line_partial leaves exception texts of fixed words and numbers open; C80_output_partial is about the bytes printed (C80_printed: these are among them)."
  },
  {
   "property": "C81",
   "status": "partial",
   "theorems": [
    "C81_response_partial",
    "C81_stray_refuted",
    "C81_harmless",
    "C81_bound"
   ],
   "note": "False: 24 bytes with a record length of 65535 are enough (C81_stray_refuted). Proved for well-formed responses; and for all answers that a stray pointer lies at most 65535 bytes behind the buffer and that, on flat addresses, the answer is then refused or yields nothing."
  },
  {
   "property": "C82",
   "status": "partial",
   "theorems": [
    "C82_same_result",
    "C82_released_partial",
    "C82_left_refuted",
    "C82_exact"
   ],
   "note": "False: evpmdhead2 is left behind when the field is refused (C82_left_refuted). Proved: nothing else is ever left, nothing when signing succeeds or header canonicalization is simple; C82_exact gives the exact condition for options made by the setters (a lone CR in an oversigned name). std::string and other RAII objects are not counted, and allocation never fails in the model."
  },
  {
   "property": "C83",
   "status": "partial",
   "theorems": [
    "C83_verifier_partial",
    "C83_signer_partial",
    "C83_verifier_exact",
    "C83_signer_exact",
    "C83_left_behind",
    "C83_second_refuted",
    "C83_body_refuted",
    "C83_signer_refuted"
   ],
   "note": "False without rewinding: a second verifier sees no signature or one from the body (C83_second_refuted, C83_body_refuted), a signer signs something else (C83_signer_refuted). Proved for verifiers made, and signers first used, right after the stream is opened or rewound; and exactly, for all sequences, what each object takes for the message (C83_verifier_exact, C83_signer_exact). A signer used twice is C44."
  },
  {
   "property": "C84",
   "status": "partial",
   "theorems": [
    "C84_values_partial",
    "C84_own_calls",
    "C84_shared",
    "C84_domain",
    "C84_dangling",
    "C84_assigned_refuted",
    "C84_freed_refuted",
    "C84_gone"
   ],
   "note": "False after one object is assigned to another, which the class allows: it copies pointers (C84_assigned_refuted, C84_freed_refuted). Proved for all histories without such an assignment; and of every assignment that it ties the two objects together (C84_shared, C84_domain) or leaves pointers to freed memory (C84_dangling)."
  },
  {
   "property": "C85",
   "status": "partial",
   "theorems": [
    "C85_values_partial",
    "C85_exact",
    "C85_own_refuted"
   ],
   "note": "False when an object is handed its own list of names to add or to remove (C85_own_refuted). Proved for all other calls; C85_exact says exactly which calls leave the language."
  },
  {
   "property": "C86",
   "status": "partial",
   "theorems": [
    "C86_linear_partial",
    "C86_bound",
    "C86_linear_refuted",
    "C86_blank_lines_refuted"
   ],
   "note": "False: every line of a field without a colon makes the program search the whole field again (C86_linear_refuted, C86_blank_lines_refuted). Proved for messages whose fields have the colon in their first line; C86_bound limits the work of all others. The work is counted by functions beside the model (Work.v) that follow its control flow."
  },
  {
   "property": "C87",
   "status": "partial",
   "theorems": [
    "C87_linear_partial",
    "C87_message",
    "C87_bound",
    "C87_in_record",
    "C87_linear_refuted",
    "C87_blanks_refuted"
   ],
   "note": "False: blanks in front of a CRLF that is no fold are read and put back at every one of them (C87_linear_refuted, C87_blanks_refuted), which a key record can contain (C87_in_record). Proved for texts without such a CRLF, so for all tags of all messages (C87_message); C87_bound limits the work of all others. The work is counted by functions beside the model (Work.v) that follow its control flow."
  },
  {
   "property": "C88",
   "status": "proved",
   "theorems": [
    "C88_exact",
    "C88_names",
    "C88_same"
   ],
   "note": "The program with its questions (ToolAsk.v) is proved to be that of Tool.v when answers do not change."
  },
  {
   "property": "C89",
   "status": "partial",
   "theorems": [
    "C89_fields_partial",
    "C89_limit_refuted",
    "C89_same_name_refuted"
   ],
   "note": "False: every signature field with the right body hash causes a question, also for a name asked before (C89_limit_refuted, C89_same_name_refuted); such fields need no key. What holds is the limit by the number of signature fields."
  },
  {
   "property": "C90",
   "status": "partial",
   "theorems": [
    "C90_signed_refuted",
    "C90_accepted_refuted",
    "C90_signing_partial",
    "C90_verifier_partial",
    "C90_verifying_partial",
    "C90_checking_partial",
    "C90_kept",
    "C90_same"
   ],
   "note": "False: the state of the stream is not looked at. A file of which nothing can be read is signed as an empty message (C90_signed_refuted) and a signature is accepted without the body (C90_accepted_refuted). Proved: exactly which part of the message is signed or verified instead; the unfinished header line or the last incomplete buffer is dropped."
  },
  {
   "property": "C91",
   "status": "partial",
   "theorems": [
    "C91_exact",
    "C91_getters_partial",
    "C91_query_refuted",
    "C91_length_refuted",
    "C91_local_part_refuted",
    "C91_identity_refuted"
   ],
   "note": "False: a second query method in q=, a length of 2^63 or more, and an \"@\" in the quoted local part of i= are refused (or i= is misread, C91_identity_refuted). C91_exact says exactly which fields are taken; errno is clear before (C32). x-sig-q-tag-args are any printable text here."
  },
  {
   "property": "C92",
   "status": "partial",
   "theorems": [
    "C92_read",
    "C92_version_refuted"
   ],
   "note": "The first half is proved (C92_read, an equivalence). The second is false: the place of v= is not looked at (C92_version_refuted)."
  },
  {
   "property": "C93",
   "status": "partial",
   "theorems": [
    "C93_tags",
    "C93_list",
    "C93_quoted",
    "C93_same",
    "C93_end_refuted",
    "C93_blank_refuted"
   ],
   "note": "Proved as equivalences (what is said is exactly what the specification allows) with three exceptions, which are part of the statements: at the end of the text a byte 0xff at position -1 is named (C93_end_refuted), in front of a CRLF that is no fold the first blank (C93_blank_refuted, in quoted-printable only), and for a name that occurs twice the name but no place. The texts for address lists are in C99."
  },
  {
   "property": "C94",
   "status": "partial",
   "theorems": [
    "C94_displayed_partial",
    "C94_blank_refuted",
    "C94_semicolon_refuted",
    "C94_inside_refuted",
    "C94_across_refuted"
   ],
   "note": "For texts whose ordinary parts have no \"=?\" and whose Q words have no \";\", the decoded text is the displayed one exactly when no word stands behind an ordinary part. The blank before such a word is lost (C94_blank_refuted); a Q word with \";\" is not decoded (C94_semicolon_refuted); text that is no word by RFC 2047 is decoded (C94_inside_refuted, C94_across_refuted). Character sets are not converted by the code and are no part of the statement; nor is the limit of 75 characters."
  },
  {
   "property": "C95",
   "status": "partial",
   "theorems": [
    "C95_exact",
    "C95_kept",
    "C95_left",
    "C95_as_new",
    "C95_once",
    "C95_key_exact",
    "C95_same_key",
    "C95_key_kept",
    "C95_key_left",
    "C95_key_as_new",
    "C95_key_once",
    "C95_identity_refuted",
    "C95_place_refuted",
    "C95_anything_refuted",
    "C95_testing_refuted"
   ],
   "note": "The claim as stated is false; what holds instead is proved for all histories of calls: a used object reads a field as a new one would read the tags it holds and those of the field together (C95_exact, C95_key_exact; for keys up to what the checks can tell, C95_same_key), all other texts are refused, and exactly what they leave behind is stated. Objects without tags are as good as new. GetSignature and GetPublicKey do not call Reset (C46). C95_exact is stated for strict = false (calls before it are arbitrary)."
  },
  {
   "property": "C96",
   "status": "partial",
   "theorems": [
    "C96_signature",
    "C96_signature_tags",
    "C96_signature_refused",
    "C96_record",
    "C96_record_tags",
    "C96_record_refused",
    "C96_fetched",
    "C96_body",
    "C96_field",
    "C96_check_partial",
    "C96_positive_refuted",
    "C96_storage_refuted",
    "C96_digits_refuted",
    "C96_expired_refuted",
    "C96_local_refuted",
    "C96_domain_refuted",
    "C96_byte_refuted"
   ],
   "note": "Proved as equivalences with a specification of the reasons and their order (sig_reason, key_reason, check_reason), for new objects and strict = false (C100_verify carries them over to strict = true). Some reasons are not true of the input they are given for; these are part of the specification and refuted: C96_positive_refuted, C96_storage_refuted, C96_digits_refuted, C96_expired_refuted, C96_local_refuted, C96_domain_refuted, C96_byte_refuted. Missing: Ed25519 signature data of the wrong length (C48), fields of 2 GB (the texts of the signer are in C98)."
  },
  {
   "property": "C97",
   "status": "proved",
   "theorems": [
    "C97_exact"
   ],
   "note": "An equivalence, for strict and not strict; the cryptographic primitives are the oracles of Crypto.v. That a= names the algorithm of the first signature also for the others is part of what is stated."
  },
  {
   "property": "C98",
   "status": "proved",
   "theorems": [
    "C98_refused",
    "C98_undefined",
    "C98_made",
    "C98_ends",
    "C98_call",
    "C98_call_ends",
    "C98_tool"
   ],
   "note": "Equivalences, for strict and not strict; the cryptographic primitives are the oracles of Crypto.v. That the bytes of a name with a negative char are undefined for tolower only when strict is the reading of ISO C of DESIGN.md. Failures of BIO_new and of allocation are not modelled. C98_tool speaks of the run after the command line has been read (C62)."
  },
  {
   "property": "C99",
   "status": "proved",
   "theorems": [
    "C99_exact",
    "C99_same",
    "C99_place",
    "C99_place_refuted",
    "C99_closed_refuted"
   ],
   "note": "Equivalences for every text and both signs of char. Two things said are not true of the text, part of the specification and refuted: a place inside a lone quoted string counts from the beginning of that string without its escapes (C99_place_refuted), and where plain char is signed a string with a byte 0xff is called unclosed (C99_closed_refuted)."
  },
  {
   "property": "C100",
   "status": "proved",
   "theorems": [
    "C100_same",
    "C100_filter",
    "C100_open",
    "C100_field",
    "C100_key",
    "C100_verify",
    "C100_tool",
    "C100_name_refuted",
    "C100_tool_refuted",
    "C100_identity_refuted"
   ],
   "note": "The claim as first put is false (C100_name_refuted, C100_tool_refuted, C100_identity_refuted); exactly when it fails is proved for opening, reading signatures and the canonical form of fields; for signing it is part of C98. For reused signature objects and key objects only C100_same. C100_tool is one direction. This carries the theorems for strict = false (C29, C73, C96) over to strict = true wherever nothing undefined is reached."
  },
  {
   "property": "C101",
   "status": "proved",
   "theorems": [
    "C101_run",
    "C101_one",
    "C101_signature",
    "C101_settings"
   ],
   "note": "An equivalence between the text written and the ending on the one side and a description that uses of the model only types, base64 (C04) and the crypto primitives on the other; the description has exactly one outcome (C101_one). The resolver is a function of the name that answers (true, record) or (false, anything); the text written before an undefined operation is the text of the lines finished by then (buffering is not modelled)."
  },
  {
   "property": "C102",
   "status": "proved",
   "theorems": [
    "C102_exact",
    "C102_one",
    "C102_line",
    "C102_status",
    "C102_same",
    "C102_name_refuted"
   ],
   "note": "As an equivalence (C102_exact) with one outcome (C102_one). Also undefined: a start without even the name of the program, where a null pointer is printed (C102_name_refuted). The date of the build has no percent sign. Buffering of output and POSIXLY_CORRECT are not modelled."
  },
  {
   "property": "C103",
   "status": "partial",
   "theorems": [
    "C103_exact",
    "C103_near",
    "C103_ends_refuted",
    "C103_place_refuted"
   ],
   "note": "False from 2 GiB on: when the value of b= begins 2 GiB or more behind the start of the field value, the conversion to int makes the place negative and std::out_of_range, which the program does not catch, leaves CheckSignature (C103_ends_refuted); from 4 GiB on other bytes are left out (C103_place_refuted). C103_exact says for fields of any length how the check ends, by the place modulo 2^32; below 2 GiB this is as required (C103_near). Tag values of 2 GiB or more that are decoded from base64 (BIO_write takes an int) are not modelled."
  },
  {
   "property": "C104",
   "status": "partial",
   "theorems": [
    "C104_read",
    "C104_one",
    "C104_whole",
    "C104_limit",
    "C104_exact",
    "C104_fields_partial",
    "C104_linear_refuted",
    "C104_product_refuted"
   ],
   "note": "The first half is proved: C104_read gives the bytes read exactly (the body in pieces of 8096 bytes, as few as make l bytes of the canonical form certain; all of it without l=). The second is false: the body is read again for every signature field that parses, with the right hash or not (C104_exact, C104_product_refuted), so that the work can be larger than any multiple of the length of the message (C104_linear_refuted); what holds is the number of fields times the length of the body. body_work counts beside the model; C104_read ties it to the position of the stream."
  },
  {
   "property": "C105",
   "status": "partial",
   "theorems": [
    "C105_exact",
    "C105_calls",
    "C105_signature",
    "C105_record",
    "C105_field",
    "C105_stated_refuted"
   ],
   "note": "C105_exact is what StringFormat returns for all formats and arguments; C105_calls ties the library calls to the texts of C93, C96 and C98. The last part is false from 2 GiB on: vasprintf fails and std::bad_alloc leaves Parse in place of a DKIM error (C105_stated_refuted); below 1 GiB it holds by the bounds C105_signature, C105_record and C105_field. The call for an unsupported query type (Validatory.cpp:120) cannot be reached and is left out."
  },
  {
   "property": "C106",
   "status": "partial",
   "theorems": [
    "C106_token",
    "C106_list",
    "C106_list_exact",
    "C106_defined_refuted",
    "C106_well_formed_refuted"
   ],
   "note": "False from 2^31 open parentheses on, where the int overflows (C106_defined_refuted, a text of 2^31 bytes); C106_token says for one token exactly when, C106_list_exact for lists of any length (and otherwise nothing changes), C106_list that all lists below 2^31 bytes are safe. C106_well_formed_refuted: also a list that is well formed."
  },
  {
   "property": "C107",
   "status": "partial",
   "theorems": [
    "C107_data",
    "C107_check",
    "C107_message",
    "C107_sign",
    "C107_fields_partial",
    "C107_linear_refuted",
    "C107_product_refuted"
   ],
   "note": "Holds for each signature by itself (C107_check, C107_message): a field is hashed at most once however often h= has its name; also for signing, for all signatures together (C107_sign). For all signatures of a message it is false: each of them hashes the fields again, so that it is the product (C107_linear_refuted, C107_product_refuted). C107_fields_partial bounds it by the number of signature fields times the length. "
  },
  {
   "property": "C108",
   "status": "partial",
   "theorems": [
    "C108_kept",
    "C108_signers",
    "C108_unspared_refuted"
   ],
   "note": "C108_kept: any number of signers and of parties that put lines in front, in any order; every signature is accepted with its own key, unless a later field has a name its signer oversigned. C108_signers: when only signers follow, it is enough that none of them makes fields with such a name. Without the condition it is false (C108_unspared_refuted: ARC-Message-Signature oversigned in a DKIM signature)."
  },
  {
   "property": "C109",
   "status": "proved",
   "theorems": [
    "C109_tags",
    "C109_relaxed",
    "C109_signature",
    "C109_relaxed_refuted"
   ],
   "note": "C109_tags: every text, also one that is refused. C109_relaxed and C109_signature: every field of every message, also the signature field without the value of b=. Counted are peek, get, putback and tellg, and for the relaxed form the bytes the string operations look at or move; the comparisons of names in the map of tags are not. Of texts that are no field of a message the second is false (C109_relaxed_refuted), and such texts do not reach the code."
  },
  {
   "property": "C110",
   "status": "partial",
   "theorems": [
    "C110_c",
    "C110_open",
    "C110_verify",
    "C110_identity_refuted",
    "C110_sign",
    "C110_names_refuted",
    "C110_capital_refuted",
    "C110_lost_refuted",
    "C110_signed_refuted"
   ],
   "note": "Proved for every locale that agrees with the \"C\" locale on ASCII and keeps other bytes apart from it: the same signatures are found and every check ends alike for all messages and keys (C110_open, C110_verify; only GetMailDomain can differ, C110_identity_refuted), and the same is signed if no signed name has other bytes (C110_sign, C110_names_refuted). False in Turkish locales, where tolower does not turn I into i: no field spelled DKIM-Signature is found (C110_capital_refuted, C110_lost_refuted) and what is signed with relaxed header fields is refused elsewhere (C110_signed_refuted). The program itself never calls setlocale."
  },
  {
   "property": "C111",
   "status": "partial",
   "theorems": [
    "C111_looked",
    "C111_key",
    "C111_times_refuted"
   ],
   "note": "Proved for all fields and records: exactly which tags are looked at. Two signature fields that agree on v a b bh c d h i l q s x give the same result (C111_looked), and two key records that agree on v h k p s t make every check of every message end alike (C111_key). So t= is never compared with anything: a signature with x= before t= and t= in the future is accepted (C111_times_refuted), where RFC 6376 says that x= MUST be greater than t=."
  },
  {
   "property": "C112",
   "status": "partial",
   "theorems": [
    "C112_documented",
    "C112_dashes",
    "C112_all",
    "C112_refuted"
   ],
   "note": "Proved for all command lines with the options in front of the files, the order the help gives (C112_documented). For all others it is proved what happens: the program with the variable set does what it does without it when \"--\" is put in front of the first file (C112_dashes; C112_all for every command line, readable or not). So an option behind a file is taken for a file (C112_refuted)."
  },
  {
   "property": "C113",
   "status": "partial",
   "theorems": [
    "C113_splice",
    "C113_total",
    "C113_once",
    "C113_refuted"
   ],
   "note": "False in general (C113_refuted): the header is read once and the body at each call. Proved instead, for all contents at each call: every answer is the one for the message made of the header first read and of the body that lies behind as many bytes at the time of the call, empty if the file has become too short (C113_splice); there is exactly one such message (C113_total, C113_once). Changes during a call, and the buffer that std::ifstream keeps, are not modelled."
  },
  {
   "property": "C114",
   "status": "partial",
   "theorems": [
    "C114_wide",
    "C114_same_partial",
    "C114_late",
    "C114_late_refuted",
    "C114_length",
    "C114_length_refuted",
    "C114_negative_refuted"
   ],
   "note": "False: with a long of 32 bits strtol ends at 2^31 - 1, so that from 2038 on every signature with x= is refused (C114_late, C114_late_refuted); l= of 2^31 or more is refused (C114_length, C114_length_refuted); negative numbers wrap around differently (C114_negative_refuted). Proved for times before 2038, if l= is below 2^31 and l= and i= are not negative: GetSignature ends alike and leaves the same object (C114_same_partial; errno can differ). time_t of 32 bits, %lu with a wider time_t (signing) and size_t of 32 bits are not modelled."
  },
  {
   "property": "C115",
   "status": "partial",
   "theorems": [
    "C115_linear_partial",
    "C115_log_partial",
    "C115_bound",
    "C115_tight",
    "C115_linear_refuted",
    "C115_blanks_refuted"
   ],
   "note": "False: quoted-strings in quoted-strings are read once for each level, which costs a logarithm (C115_linear_refuted, C115_tight), and blanks in front of a CRLF that is no fold make it quadratic (C115_blanks_refuted). Proved: linear without carriage returns, double quotes and backslashes (C115_linear_partial), with the logarithm without carriage returns (C115_log_partial), a bound for every text (C115_bound). Where plain char is signed; otherwise there need be no end (C08). Copies of strings and list nodes are not counted."
  },
  {
   "property": "C116",
   "status": "proved",
   "theorems": [
    "C116_quoted",
    "C116_words"
   ],
   "note": "For every text, decoded or refused. Copies of strings are not counted, of Base64 only the bytes handed over."
  },
  {
   "property": "C117",
   "status": "proved",
   "theorems": [
    "C117_once",
    "C117_text"
   ],
   "note": "For every packet, with both behaviours of dn_skipname. The memset of the buffer and the query itself are not counted."
  },
  {
   "property": "C118",
   "status": "partial",
   "theorems": [
    "C118_lines_refuted",
    "C118_exact",
    "C118_enough",
    "C118_usual_partial"
   ],
   "note": "False: d=, s=, i= and l= are written on one line, so that an identity of a thousand bytes makes a field that verifies but has a longer line (C118_lines_refuted). C118_exact says for every limit from 131 bytes on exactly when it is kept: when that line and every listed name with three bytes more have room. C118_usual_partial: it holds for 998 if identity, domain, selector and names are not longer than usual."
  },
  {
   "property": "C119",
   "status": "partial",
   "theorems": [
    "C119_joined_refuted",
    "C119_exact",
    "C119_segment",
    "C119_kept_partial",
    "C119_many_partial",
    "C119_refused"
   ],
   "note": "False: the last segment of the first list is taken for part of a display name when its last word has no @, so that an address with a blank behind its @ disappears (C119_joined_refuted). C119_exact says for all pairs of texts what is read, C119_kept_partial that the claim holds when the last segment has no words or an @ in the last one, C119_many_partial the same for any number of lists, C119_refused that the second half holds."
  }
 ]
}