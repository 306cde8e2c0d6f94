{"claims": [
 {"property": "C01", "status": "proved", "theorems": ["C01_parse_ber_recursive", "C01_parse_der_recursive", "C01_entry_points", "C01_readers", "C01_any", "C01_integers", "C01_containers", "C01_implicit", "C01_sequence_of", "C01_objects"], "note": "Callbacks passed to the combinators are assumed to return; those passed to SEQUENCE OF/SET OF must also return a suffix of their input, as nom parsers do."},
 {"property": "C02", "status": "proved", "theorems": ["C02_parse_ber", "C02_parse_der", "C02_with_tag", "C02_element_unique"], "note": ""},
 {"property": "C03", "status": "proved", "theorems": ["C03_parse_ber", "C03_parse_der", "C03_with_tag", "C03_integers", "C03_containers", "C03_entry_points"], "note": ""},
 {"property": "C04", "status": "proved", "theorems": ["C04_parse_ber", "C04_parse_der", "C04_with_tag", "C04_containers", "C04_integers", "C04_entry_points"], "note": ""},
 {"property": "C05", "status": "proved", "theorems": ["C05_nesting", "C05_zero", "C05_rejects", "C05_entry_points"], "note": "The DER half of C05_rejects assumes that the OID and time decoders never answer UnknownTag."},
 {"property": "C06", "status": "proved", "theorems": ["C06_limit_irrelevant"], "note": ""},
 {"property": "C07", "status": "proved", "theorems": ["C07_parse_ber", "C07_parse_der"], "note": ""},
 {"property": "C08", "status": "proved", "theorems": ["C08_ber_header", "C08_der_header"], "note": ""},
 {"property": "C09", "status": "proved", "theorems": ["C09_parse_ber", "C09_with_tag"], "note": "Same content or same error, for elements nested at most 49 indefinite lengths deep (one level is the container itself)."},
 {"property": "C10", "status": "partial", "theorems": ["C10_refuted", "C10_stray_refuted", "C10_partial", "C10_exact_partial"], "note": "False: any tag-0 length-0 header terminates, whatever its class, form and length form. C10_partial is the exact behaviour; with the terminator 00 00 the content is exact."},
 {"property": "C11", "status": "proved", "theorems": ["C11_parse_ber", "C11_parse_der", "C11_no_wrappers"], "note": "The DER half assumes that the OID and time decoders never answer UnknownTag."},
 {"property": "C12", "status": "proved", "theorems": ["C12_tag_requested", "C12_other_tag", "C12_agrees_ber", "C12_agrees_der", "C12_converse_ber", "C12_converse_der"], "note": "Agreement of parse_der_with_tag with parse_der needs the size to be within MAX_OBJECT_SIZE."},
 {"property": "C13", "status": "partial", "theorems": ["C13_refuted", "C13_partial"], "note": "False of the code: the typed readers ignore the class (82 01 05 is accepted by parse_ber_integer). C13_partial: the returned header keeps the class found in the input, so a caller can check it."},
 {"property": "C14", "status": "proved", "theorems": ["C14_u64", "C14_u32"], "note": "as_u64/as_u32 on INTEGER contents of any length: value iff in range, IntegerNegative iff negative, IntegerTooLarge iff too large."},
 {"property": "C15", "status": "partial", "theorems": ["C15_refuted", "C15_in_range_refuted", "C15_i64_partial", "C15_i32_partial"], "note": "False as stated: 2^63 is returned as -2^63, and -1 in nine octets is refused. The partial theorems describe every outcome."},
 {"property": "C16", "status": "proved", "theorems": ["C16_bigint", "C16_biguint"], "note": "num-bigint constructors are modelled by their documented meaning."},
 {"property": "C17", "status": "proved", "theorems": ["C17_u64", "C17_u32"], "note": "Value of the bits of the string for any unused-bit count."},
 {"property": "C18", "status": "proved", "theorems": ["C18_is_set"], "note": "Bit n of the data, false outside."},
 {"property": "C19", "status": "proved", "theorems": ["C19_u32", "C19_u64", "C19_i32", "C19_i64"], "note": "Exact acceptance condition (iff) and errors for values that do not fit. A negative value in more octets than the type has is refused even when in range."},
 {"property": "C20", "status": "proved", "theorems": ["C20_u32", "C20_u64", "C20_i32", "C20_i64"], "note": "Accepted iff minimal and in range; the content octets are determined by the value."},
 {"property": "C21", "status": "proved", "theorems": ["C21_boolean", "C21_accepts"], "note": "parse_der_bool ignores the class (see C13); the constraint holds whatever the class."},
 {"property": "C22", "status": "partial", "theorems": ["C22_refuted", "C22_partial"], "note": "False: superfluous leading FF octets are accepted (02 02 FF FF). Proved: not empty and no superfluous leading zero octet."},
 {"property": "C23", "status": "partial", "theorems": ["C23_refuted", "C23_partial"], "note": "False only for the empty bit string, whose unused-bit count may be 1 to 7 (03 01 07)."},
 {"property": "C24", "status": "partial", "theorems": ["C24_partial", "C24_refuted", "C24_content_refuted"], "note": "False of parse_der_explicit_optional and parse_der_implicit, which call the BER functions and accept an indefinite length, and of der_read_element_content when handed a header of another class that says indefinite; proved (with the exact error) for every other DER reader."},
 {"property": "C25", "status": "proved", "theorems": ["C25_strings_primitive", "C25_nested"], "note": ""},
 {"property": "C26", "status": "proved", "theorems": ["C26_times_end_with_Z"], "note": ""},
 {"property": "C27", "status": "partial", "theorems": ["C27_refuted", "C27_partial"], "note": "False: nested elements are decoded as BER. C27_partial says what does hold of them; C25_nested that strings are primitive at every depth."},
 {"property": "C28", "status": "proved", "theorems": ["C28_der_in_ber"], "note": "Assumes that the OID and time decoders never answer UnknownTag."},
 {"property": "C29", "status": "proved", "theorems": ["C29_optional", "C29_explicit_optional"], "note": "The callback is assumed not to panic."},
 {"property": "C30", "status": "proved", "theorems": ["C30_ber_iff", "C30_der_iff", "C30_errors", "C30_objects"], "note": ""},
 {"property": "C31", "status": "proved", "theorems": ["C31_ber_iff", "C31_der_iff", "C31_wrong_tag", "C31_objects"], "note": "parse_der_implicit delegates to the BER combinator, so it also accepts the indefinite form (see C24)."},
 {"property": "C32", "status": "partial", "theorems": ["C32_ber_partial", "C32_der_partial", "C32_objects_partial", "C32_generic_parsers", "C32_refuted"], "note": "The equivalence also requires that the element parser answers Incomplete on empty input; without it the claim is false (C32_refuted). For parse_ber/parse_der as element parser it holds as stated (C32_generic_parsers)."},
 {"property": "C33", "status": "proved", "theorems": ["C33_ber_container", "C33_der_container", "C33_defined", "C33_no_element", "C33_slices"], "note": ""},
 {"property": "C34", "status": "proved", "theorems": ["C34_callback_errors", "C34_element_errors"], "note": ""},
 {"property": "C35", "status": "partial", "theorems": ["C35_shortest", "C35_read_back_partial", "C35_refuted"], "note": "What is written is proved for every header with tag <= 30. Reading back fails for a primitive header of indefinite length (04 80 is written, C35_refuted); proved for all others, with the BER and DER header readers."},
 {"property": "C36", "status": "proved", "theorems": ["C36_round_trip", "C36_parse_ber"], "note": "Assumes that the OID decoders do not depend on the length field (length_blind) and that the bytes written fit in the address space. Also: re-encoding the second object gives the same bytes."},
 {"property": "C37", "status": "partial", "theorems": ["C37_partial", "C37_refuted", "C37_enum_refuted", "C37_utctime_refuted"], "note": "False for Tagged (the class is lost), ENUMERATED values of 2^32 and above, UTCTime. Proved for everything else; a GeneralizedTime must be one the time decoder reads from its printed form."},
 {"property": "C38", "status": "proved", "theorems": ["C38_panics", "C38_otherwise_ok", "C38_independent"], "note": ""},
 {"property": "C39", "status": "proved", "theorems": ["C39_any_parser", "C39_explicit", "C39_encodes"], "note": "C39_any_parser covers nested tagging with a matching inner parser."},
 {"property": "C40", "status": "proved", "theorems": ["C40_implicit", "C40_encodes"], "note": ""},
 {"property": "C41", "status": "partial", "theorems": ["C41_partial", "C41_optional_some_partial", "C41_refuted", "C41_optional_refuted", "C41_enum_refuted", "C41_utctime_refuted"], "note": "False for EndOfContent (00 01 00), Optional(None) (00 00), ENUMERATED 0 and values with a leading octet >= 80, UTCTime (four-digit year). Proved for the other variants; the text of a GeneralizedTime is left to asn1-rs."},
 {"property": "C42", "status": "proved", "theorems": ["C42_visits", "C42_run"], "note": ""},
 {"property": "C43", "status": "partial", "theorems": ["C43_refuted", "C43_partial"], "note": "False: objects inside Tagged and Optional are not visited. Proved: visited objects are exactly those reachable through SEQUENCE and SET."},
 {"property": "C44", "status": "proved", "theorems": ["C44_neutral", "C44_run"], "note": ""},
 {"property": "C45", "status": "proved", "theorems": ["C45_ref_iter", "C45_index"], "note": ""},
 {"property": "C46", "status": "partial", "theorems": ["C46_refuted", "C46_partial"], "note": "False for an empty SEQUENCE or SET, which yields itself once. Proved for every other object."},
 {"property": "C47", "status": "partial", "theorems": ["C47_charset_partial", "C47_refuted"], "note": "Proved for all four types except that VisibleString also admits DEL (7F), as asn1-rs does; C47_refuted is that witness."},
 {"property": "C48", "status": "proved", "theorems": ["C48_text", "C48_accepts"], "note": ""},
 {"property": "C49", "status": "partial", "theorems": ["C49_limit_partial", "C49_error_partial", "C49_refuted"], "note": "False of der_read_element_content_as and parse_der_with_tag on BIT STRING, which check no size; proved for everything else."},
 {"property": "C50", "status": "partial", "theorems": ["C50_refuted", "C50_partial"], "note": "False for the indefinite form (try_from fails) and for non-universal classes (the class is ignored). Proved for universal definite elements within MAX_OBJECT_SIZE."},
 {"property": "C51", "status": "proved", "theorems": ["C51_accessors", "C51_strings", "C51_numbers", "C51_objects"], "note": "as_u32/as_u64/as_i32/as_i64 on INTEGER and BIT STRING contents: see the integer properties."},
 {"property": "C52", "status": "partial", "theorems": ["C52_relative", "C52_absolute_partial", "C52_refuted", "C52_root_arc_refuted", "C52_panics", "C52_injective_relative", "C52_injective_partial", "C52_injective_refuted"], "note": "False: 2.40 and above panic, root arcs 3 to 6 are accepted, [0] and [0,0] have the same octets. Proved: relative identifiers in full, absolute ones with second arc below 40, injectivity on lists of two or more components, exact panic condition."},
 {"property": "C53", "status": "proved", "theorems": ["C53_history", "C53_step"], "note": ""},
 {"property": "C54", "status": "partial", "theorems": ["C54_ber_incomplete_refuted", "C54_der_incomplete_refuted", "C54_error_refuted", "C54_ber_partial", "C54_der_partial", "C54_needed_refuted", "C54_missing_content_partial", "C54_missing_typed_partial"], "note": "Both directions are false. Partial: a prefix of an accepted input is accepted, Incomplete, or stops inside a long-form tag; Incomplete from parse_ber asks for no more than is missing, from parse_der for no more than the whole input."},
 {"property": "C55", "status": "proved", "theorems": ["C55_parse_ber_exact"], "note": ""},
 {"property": "C56", "status": "proved", "theorems": ["C56_parse_der_exact"], "note": "Assumes that the OID and time decoders never answer UnknownTag; for a limit of at least 1."},
 {"property": "C57", "status": "proved", "theorems": ["C57_canonical", "C57_exact", "C57_der"], "note": ""},
 {"property": "C58", "status": "proved", "theorems": ["C58_injective"], "note": ""},
 {"property": "C59", "status": "proved", "theorems": ["C59_shape"], "note": ""},
 {"property": "C60", "status": "proved", "theorems": ["C60_replaced"], "note": ""},
 {"property": "C61", "status": "proved", "theorems": ["C61_dotted", "C61_exact", "C61_only_refuted"], "note": "C61_only_refuted: dotted decimal alone is not all that is accepted. White space other than ASCII is not modelled."},
 {"property": "C62", "status": "proved", "theorems": ["C62_ber_exact", "C62_der_exact", "C62_types"], "note": ""},
 {"property": "C63", "status": "proved", "theorems": ["C63_identifier", "C63_assertions"], "note": ""},
 {"property": "C64", "status": "partial", "theorems": ["C64_refuted", "C64_partial"], "note": "False: the unused bits are part of the slice. Proved: the slice is the declared bits followed by exactly the unused bits, and its k-th bit is what is_set reports."},
 {"property": "C65", "status": "proved", "theorems": ["C65_pieces", "C65_as_pretty"], "note": ""},
 {"property": "C66", "status": "proved", "theorems": ["C66_decimal"], "note": ""},
 {"property": "C67", "status": "proved", "theorems": ["C67_spaces"], "note": ""},
 {"property": "C68", "status": "partial", "theorems": ["C68_contained", "C68_next_indent", "C68_refuted", "C68_partial"], "note": "False: no line feed is written between the members of a SEQUENCE or SET. Proved: the text of every inner object is part of the text, and the first object inside another one starts on a new line."},
 {"property": "C69", "status": "partial", "theorems": ["C69_header_kept_partial", "C69_agrees", "C69_refuted", "C69_write_back"], "note": "False: no end-of-contents octets are written for an indefinite header, so a parsed element of indefinite length is not written back; C69_write_back says which ones are (the canonical ones of C57). Missing in the rest: primitive headers of indefinite length, which no reader accepts."},
 {"property": "C70", "status": "partial", "theorems": ["C70_ber_content", "C70_der_content", "C70_der_element_content", "C70_implicit_der", "C70_implicit_ber_partial", "C70_implicit_refuted"], "note": "Exact for every content reader and for IMPLICIT in DER; IMPLICIT in BER: C70_implicit_ber_partial says exactly what is read, which is the elements of definite length; those of indefinite length never are (the content reader looks for end-of-contents octets that the combinator has removed), so the claim is false of them."},
 {"property": "C71", "status": "proved", "theorems": ["C71_invisible", "C71_stored", "C71_tree"], "note": ""},
 {"property": "C72", "status": "proved", "theorems": ["C72_called_once", "C72_objects", "C72_optional"], "note": ""},
 {"property": "C73", "status": "proved", "theorems": ["C73_elements", "C73_trace"], "note": ""},
 {"property": "C74", "status": "proved", "theorems": ["C74_refines", "C74_refines_objects"], "note": ""},
 {"property": "C75", "status": "proved", "theorems": ["C75_any", "C75_with_tag", "C75_other_tag"], "note": ""},
 {"property": "C76", "status": "proved", "theorems": ["C76_exact", "C76_reflexive", "C76_symmetric", "C76_decoded", "C76_der_ber", "C76_read_back", "C76_encode"], "note": "PartialEq of asn1-rs's Header is modelled from memory (see DESIGN.md). C76_der_ber assumes that the OID and time decoders never answer UnknownTag; C76_read_back that the bytes written number less than 2^64."},
 {"property": "C77", "status": "proved", "theorems": ["C77_ber", "C77_der"], "note": "The DER half assumes that the OID and time decoders never answer UnknownTag; for a limit of at least 1."},
 {"property": "C78", "status": "partial", "theorems": ["C78_refuted", "C78_partial"], "note": "False: an object without raw tag equals two decoded objects with different identifier octets for the same tag. Proved when the object in the middle has all its raw tags, e.g. among decoded objects."},
 {"property": "C79", "status": "proved", "theorems": ["C79_same", "C79_bound", "C79_others", "C79_least", "C79_least_others"], "note": "Stated on versions of the readers that also count headers (Cost.v); C79_same proves that they give the same results."},
 {"property": "C80", "status": "proved", "theorems": ["C80_same_octets", "C80_vec", "C80_others", "C80_no_refusal"], "note": "Writers are modelled by Default, AsRef and write; the kind of an io::Error is not modelled."},
 {"property": "C81", "status": "partial", "theorems": ["C81_refuted", "C81_partial", "C81_slice_partial", "C81_slice_header"], "note": "False for &mut [u8], which meets the type bounds: its Default is the empty slice, so no object can be encoded into it (C81_slice_partial). Proved for a writer of fixed capacity such as ArrayVec: succeeds exactly if there is room, otherwise BufferTooSmall."},
 {"property": "C82", "status": "partial", "theorems": ["C82_refuted", "C82_bit_string_refuted", "C82_partial"], "note": "False for strings split into segments: a segmented OCTET STRING is returned with the headers of its segments in it, a segmented BIT STRING is refused. Proved for all encodings without segments, for ENUMERATED below 2^32 and not negative and tag numbers below 2^32 (supported); C113 says what happens to the segmented ones. Times, REAL and implicit tags are not among the values."},
 {"property": "C83", "status": "partial", "theorems": ["C83_refuted", "C83_partial", "C83_exact"], "note": "False for negative ENUMERATED values: -1 is decoded as 255. Proved for ENUMERATED from 0 to 2^32-1, tag numbers below 2^32 and encodings below 2^32 octets; C83_exact: outside explicit tags these are exactly the values for which it holds."},
 {"property": "C84", "status": "partial", "theorems": ["C84_refuted", "C84_unsigned", "C84_signed_partial"], "note": "False: as_i64 of 2^63 gives -2^63. Proved in full for the unsigned readers; for the signed ones the accessors are exact except for values from 2^(w-1) to 2^w-1, for which they give the value minus 2^w."},
 {"property": "C85", "status": "partial", "theorems": ["C85_refuted", "C85_partial", "C85_round_trip", "C85_exact"], "note": "False for ENUMERATED: 128 is written as the encoding of -128. Proved for ENUMERATED values other than 0 whose first octet is below 128, and tag numbers below 31 (stands); C85_exact: these are exactly the objects for which it holds."},
 {"property": "C86", "status": "proved", "theorems": ["C86_one_value", "C86_injective", "C86_canonical"], "note": "For encodings without segments, values within the limits of C82/C83 (supported) and objects as in C85 (stands)."},
 {"property": "C87", "status": "partial", "theorems": ["C87_ends_refuted", "C87_rewrites", "C87_only", "C87_ends_partial"], "note": "Termination is false: a visitor that puts every object into a SEQUENCE never ends (stack overflow in Rust, Diverge in the model). The result is proved to be the top-down rewriting for all such visitors, and termination for those that never make the tree deeper."},
 {"property": "C88", "status": "proved", "theorems": ["C88_ber", "C88_der", "C88_only", "C88_oid_constant"], "note": "Within the limits of C82/C83: no segmented strings, ENUMERATED and tag numbers below 2^32, at most 49 levels, DER elements below 2^32 octets. as_i64/as_i32 outside their range are C15/C84."},
 {"property": "C89", "status": "proved", "theorems": ["C89_ber", "C89_der", "C89_one_value", "C89_class_refuted", "C89_zero_refuted", "C89_only_refuted"], "note": "DEFAULT and implicit tags on constructed types other than SEQUENCE are not in the schema language. The refuted theorems show that the conditions on tags and empty values are needed and that the converse fails."},
 {"property": "C90", "status": "proved", "theorems": ["C90_writes", "C90_round_trip", "C90_absent_refuted"], "note": "The absent-component refutation is about objects returned by the parser, which are not among the made objects."},
 {"property": "C91", "status": "proved", "theorems": ["C91_der", "C91_ber", "C91_schema", "C91_enum_refuted", "C91_tag_refuted"], "note": "The refuted theorems show that the limits on ENUMERATEDs and tag numbers are needed."},
 {"property": "C92", "status": "proved", "theorems": ["C92_shows", "C92_main", "C92_braces"], "note": "Failing output is not modelled; what was written before a panic is not kept in the model."},
 {"property": "C93", "status": "partial", "theorems": ["C93_depth_partial", "C93_unlimited", "C93_depth_refuted"], "note": "False as stated: octets are parsed again with a fresh limit, any depth is reached. Proved: at most one level per two octets of the file."},
 {"property": "C94", "status": "partial", "theorems": ["C94_left_partial", "C94_left_refuted"], "note": "False as stated: remaining octets of primitive objects are dropped silently. Proved: the warnings are exactly those for constructed objects."},
 {"property": "C95", "status": "proved", "theorems": ["C95_array"], "note": ""},
 {"property": "C96", "status": "proved", "theorems": ["C96_writer", "C96_buffer"], "note": "Texts made by other crates are parameters and are handed over like literals."},
 {"property": "C97", "status": "proved", "theorems": ["C97_reads", "C97_writes", "C97_any_order_refuted", "C97_listed_refuted", "C97_choice_refuted", "C97_unsorted_refuted"], "note": "The refuted theorems show what the statement says about other orders."},
 {"property": "C98", "status": "proved", "theorems": ["C98_returns", "C98_exact", "C98_shape"], "note": "Exactness and shape need the alternatives of a CHOICE to have different tag numbers; C100 shows why."},
 {"property": "C99", "status": "partial", "theorems": ["C99_partial", "C99_refuted", "C99_optional", "C99_present"], "note": "False with OPTIONAL components (C99_refuted); C99_partial covers the types without. For proper types with OPTIONAL components C99_optional says exactly how the results may differ and C99_present when they are equal. Inputs of less than 2^32 octets."},
 {"property": "C100", "status": "proved", "theorems": ["C100_alt", "C100_exact", "C100_one", "C100_order", "C100_same_tag_refuted", "C100_class_refuted"], "note": "The refuted theorems show what the statement says about equal tag numbers and classes. That encodings of the alternatives are read is in C89."},
 {"property": "C101", "status": "proved", "theorems": ["C101_reads", "C101_exact"], "note": ""},
 {"property": "C102", "status": "proved", "theorems": ["C102_header", "C102_element", "C102_parse_ber", "C102_any_with_tag", "C102_content", "C102_with_tag"], "note": ""},
 {"property": "C103", "status": "proved", "theorems": ["C103_header", "C103_parse_der", "C103_content", "C103_with_tag"], "note": "parse_der needs leaf decoders that do not answer UnknownTag, since that error alone is turned into an Unknown object."},
 {"property": "C104", "status": "proved", "theorems": ["C104_container", "C104_defined", "C104_explicit", "C104_implicit", "C104_of", "C104_objects"], "note": "parse_der_implicit calls the BER function, so its errors are the BER ones."},
 {"property": "C105", "status": "partial", "theorems": ["C105_same", "C105_readers", "C105_integers_partial", "C105_refuted", "C105_encoder"], "note": "Readers and encoder are bounded as stated. False for the integer accessors on BER input: C105_refuted gives, for every n from 1 to 2^32 - 1, an input of n octets 00 whose value as_u64 computes with n nested calls; C105_integers_partial has the bound that holds, and the bound 2 for DER. Calls are those of the source text; an optimising compiler may turn the tail call into a loop."},
 {"property": "C106", "status": "proved", "theorems": ["C106_structs", "C106_left_over", "C106_wrong_tag", "C106_tagged", "C106_range", "C106_app_refusals"], "note": "An implicitly tagged integer of indefinite length is never read (see C70); the specification says so."},
 {"property": "C107", "status": "proved", "theorems": ["C107_exact", "C107_never_refuses", "C107_agrees", "C107_refuted"], "note": "C107_refuted is the witness for the claim in parentheses."},
 {"property": "C108", "status": "proved", "theorems": ["C108_exact", "C108_errors", "C108_mapped"], "note": ""},
 {"property": "C109", "status": "proved", "theorems": ["C109_readers", "C109_combinators"], "note": ""},
 {"property": "C110", "status": "proved", "theorems": ["C110_errors", "C110_chunks", "C110_short_tags", "C110_demand", "C110_refuted"], "note": "C110_refuted is the witness for the exception."},
 {"property": "C111", "status": "proved", "theorems": ["C111_readers", "C111_combinators", "C111_objects", "C111_wait", "C111_optional", "C111_refuted"], "note": "C111_refuted is the witness that a composed parser gives up in a loop."},
 {"property": "C112", "status": "proved", "theorems": ["C112_same", "C112_bound", "C112_others", "C112_refuted"], "note": "C112_refuted is the witness that no constant factor serves."},
 {"property": "C113", "status": "proved", "theorems": ["C113_outcome", "C113_seen", "C113_exact", "C113_recover"], "note": ""},
 {"property": "C114", "status": "partial", "theorems": ["C114_readers", "C114_typed", "C114_accepts", "C114_same", "C114_containers", "C114_encoder", "C114_headers", "C114_tagged_encoders", "C114_bits_partial", "C114_bits_refuted"], "note": "Proved for readers, containers and encoder. False of as_u64 and as_u32 on a BIT STRING of 2^29 octets or more: on a 32-bit target the number of bits overflows, which panics with overflow checks and gives a wrong value without (C114_bits_refuted); below that the same values (C114_bits_partial)."},
 {"property": "C115", "status": "proved", "theorems": ["C115_same", "C115_bound", "C115_types", "C115_least"], "note": "C115_types is the witness that the octets alone give no bound."},
 {"property": "C116", "status": "proved", "theorems": ["C116_ber", "C116_der"], "note": "C116_der reduces to C116_ber: the DER reader gives an object equal to the BER one (C76)."},
 {"property": "C117", "status": "partial", "theorems": ["C117_objects", "C117_other_tag", "C117_unwrap", "C117_unwrap_panics", "C117_pairs", "C117_series", "C117_same_partial", "C117_includes_partial", "C117_same_refuted"], "note": "Proved except the last sentence, which is false: many1 drops what is not an INTEGER (30 05 02 01 05 05 00 gives one integer, parse_ber_sequence_of refuses it) and refuses the empty sequence (C117_same_refuted). C117_includes_partial: whatever parse_ber_sequence_of accepts, except the empty sequence, it accepts with the same result."},
 {"property": "C118", "status": "proved", "theorems": ["C118_made", "C118_made_as", "C118_ber", "C118_der", "C118_typed"], "note": "PartialEq of asn1-rs headers is modelled (Equal.v)."},
 {"property": "C119", "status": "proved", "theorems": ["C119_by_hand", "C119_combinator", "C119_ia5", "C119_integers", "C119_octets"], "note": ""},
 {"property": "C120", "status": "proved", "theorems": ["C120_check", "C120_complete", "C120_needed"], "note": "Members of a SET are taken in the order given (see C85)."},
 {"property": "C121", "status": "proved", "theorems": ["C121_same", "C121_placed", "C121_inside", "C121_apart"], "note": "That asn1-rs borrows the raw tag and the octets of an object identifier is from memory."},
 {"property": "C122", "status": "proved", "theorems": ["C122_overwrite", "C122_overwrite_der"], "note": "For parse_der the leaf decoders do not answer UnknownTag, as in C56."},
 {"property": "C123", "status": "proved", "theorems": ["C123_edit"], "note": "Encodings of less than 2^64 octets; leaf decoders that do not look at the length field, as asn1-rs."},
 {"property": "C124", "status": "proved", "theorems": ["C124_equal", "C124_components", "C124_raw", "C124_raw_refuted", "C124_constants"], "note": "The rules of asn1_rs::oid! are from memory, and its encoder is taken to be the one of der-oid-macro. That equal octets mean equal identifiers is refuted (C124_raw_refuted). For parse_der the leaf decoders do not answer UnknownTag, as in C56."},
 {"property": "C125", "status": "proved", "theorems": ["C125_accepts", "C125_malformed"], "note": ""}
]}
