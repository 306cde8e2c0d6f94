{"id": "C01", "title": "Parsers never panic and always terminate", "statement": "Every public parsing entry point (parse_ber, parse_ber_recursive, parse_der, parse_der_recursive, parse_{ber,der}_with_tag and the typed wrappers, parse_{ber,der}_slice, parse_ber_any*, parse_{ber,der}_{i32,i64,u32,u64}, the container/sequence/set/tagged/optional combinators applied to non-panicking callbacks) returns Ok or Err on every input: no slice index, subtraction, assertion or loop in them can panic or run forever.", "quantifier": "all byte strings, all depth limits, all expected tags, all callbacks that themselves return (for SEQUENCE OF/SET OF also: that leave an end of their input)", "why_tests_cant": "The fuzz tests only pin a handful of inputs; the indexing and the len>=2 assertion depend on arbitrary nesting of indefinite lengths.", "anchors": ["src/ber/parser.rs:ber_skip_object_content,ber_get_object_content", "src/ber/wrap_any.rs:try_berobject_from_any", "src/der/parser.rs:der_read_element_content_as,der_read_content_bitstring"]}
{"id": "C02", "title": "Success consumes exactly one TLV and returns the untouched tail", "statement": "If parse_ber/parse_der/parse_*_with_tag succeeds with remainder rem, then rem is a suffix of the input and the consumed prefix is exactly the identifier and length octets described by the returned header, followed by the content octets (exactly the announced number when definite; up to and including the matching end-of-contents when indefinite). At least two bytes are consumed.", "quantifier": "all inputs, all depth limits, all tags", "why_tests_cant": "A framing slip only shows for particular lengths/nestings; tests check a few vectors.", "anchors": ["src/ber/parser.rs:parse_ber,parse_ber_with_tag", "src/der/parser.rs:parse_der,parse_der_with_tag", "src/ber/wrap_any.rs:parse_ber_any_r"]}
{"id": "C03", "title": "Result does not depend on bytes after the object", "statement": "If a parser succeeds on i with (rem, obj), it succeeds on i followed by any x with (rem followed by x, obj): data that follows an object never changes how the object is decoded.", "quantifier": "all inputs, all appended byte strings, all depth limits, all entry points except the optional combinators", "why_tests_cant": "Requires comparing infinitely many pairs of runs.", "anchors": ["src/ber/parser.rs:parse_ber,parse_ber_with_tag", "src/der/parser.rs:parse_der", "src/ber/multi.rs:parse_ber_container", "src/der/multi.rs:parse_der_container"]}
{"id": "C04", "title": "Accepted encodings are prefix-free", "statement": "If a parser accepts i consuming all of it, it accepts no proper prefix of i: truncating a valid object is always detected.", "quantifier": "all inputs and all their proper prefixes", "why_tests_cant": "Truncation tests cover a few objects and cut points.", "anchors": ["src/ber/parser.rs:parse_ber", "src/der/parser.rs:parse_der"]}
{"id": "C05", "title": "The recursion limit bounds the returned tree", "statement": "parse_ber_recursive(i, d) and parse_der_recursive(i, d) never return an object whose SEQUENCE/SET nesting is deeper than max(d,1); with d = 0 parse_ber_recursive always fails with BerMaxDepth; an input whose SEQUENCE/SET nesting exceeds d is always rejected.", "quantifier": "all inputs, all limits d", "why_tests_cant": "The stack-safety argument is about unbounded nesting.", "anchors": ["src/ber/parser.rs:parse_ber_recursive", "src/ber/wrap_any.rs:parse_ber_any_r,try_berobject_from_any", "src/der/parser.rs:parse_der_recursive"]}
{"id": "C06", "title": "Raising the recursion limit never changes an accepted result", "statement": "If parse_ber_recursive(i, d) (resp. parse_der_recursive) succeeds, then for every d' >= d it succeeds with the same remainder and the same object.", "quantifier": "all inputs, all pairs of limits d <= d'", "why_tests_cant": "Relates runs with different limits on all inputs.", "anchors": ["src/ber/parser.rs:parse_ber_recursive", "src/der/parser.rs:parse_der_recursive"]}
{"id": "C07", "title": "Zero-copy: every slice in a parsed object is a sub-slice of the input", "statement": "Every byte string reachable from an object returned by parse_ber/parse_der (integers, strings, bit strings, OIDs, unknown objects, raw tags, at any depth) is a contiguous sub-slice of the consumed input; nothing is invented or re-encoded.", "quantifier": "all inputs, all nodes of the returned tree", "why_tests_cant": "Tests check few leaves.", "anchors": ["src/ber/wrap_any.rs:try_berobject_from_any", "src/ber/parser.rs:ber_get_object_content", "src/der/parser.rs:der_read_content_bitstring"]}
{"id": "C08", "title": "Header reading accepts exactly the X.690 identifier and length octets (within documented limits)", "statement": "ber_read_element_header succeeds exactly on inputs starting with identifier octets (low form, or high form of at most 5 subsequent octets) followed by length octets (short, long with value < 2^64, or indefinite on a constructed identifier), and returns the class, constructed bit, tag number (mod 2^32) and length they denote; der_read_element_header is the same minus the indefinite form.", "quantifier": "all inputs", "why_tests_cant": "Infinite input space; both directions of an iff.", "anchors": ["src/ber/parser.rs:ber_read_element_header", "src/der/parser.rs:der_read_element_header"]}
{"id": "C09", "title": "Indefinite-length and definite-length forms decode to the same content", "statement": "For a constructed SEQUENCE or SET whose elements are e1..en (none of them an end-of-contents), the indefinite-length form (30 80 e1..en 00 00) and the definite-length form decode to the same list of elements, and the remainder is what follows the end-of-contents.", "quantifier": "all element lists, all following bytes, all depth limits for which the elements are accepted", "why_tests_cant": "Nested unbounded structure.", "anchors": ["src/ber/parser.rs:ber_skip_object_content,ber_get_object_content", "src/ber/wrap_any.rs:try_berobject_from_any"]}
{"id": "C10", "title": "Only the octets 00 00 terminate indefinite-length content", "statement": "Indefinite-length content ends at the universal, primitive end-of-contents octets 00 00 and at nothing else, and the returned content excludes exactly those octets (X.690 8.1.5).", "quantifier": "all indefinite-length inputs", "why_tests_cant": "The wrong terminators are unusual encodings that no test exercises.", "anchors": ["src/ber/parser.rs:ber_skip_object_content,ber_get_object_content"]}
{"id": "C11", "title": "Content variant is determined by class and tag", "statement": "A parsed object's content variant is the one its universal tag denotes; every object of another class, or with an unmapped universal tag, is Unknown with its header and raw content preserved. Optional and Tagged never come out of parse_ber/parse_der.", "quantifier": "all inputs, all nodes of the returned tree", "why_tests_cant": "All 2^32 tags x 4 classes x nesting.", "anchors": ["src/ber/wrap_any.rs:try_berobject_from_any", "src/ber/ber.rs:BerObjectContent"]}
{"id": "C12", "title": "parse_*_with_tag accepts only the requested tag number and agrees with the generic parser", "statement": "parse_ber_with_tag(i,t) succeeds only if the header tag number is t; if the header is readable with another tag the error is UnexpectedTag{expected:t, actual}; when it succeeds on a universal-class element, parse_ber returns the same remainder and an equal object.", "quantifier": "all inputs, all tags", "why_tests_cant": "Relates two parsers on all inputs.", "anchors": ["src/ber/parser.rs:parse_ber_with_tag", "src/der/parser.rs:parse_der_with_tag"]}
{"id": "C13", "title": "Typed parsers accept only universal-class elements", "statement": "parse_ber_integer, parse_ber_sequence, parse_ber_sequence_of, parse_ber_u32 ... (documented as reading an INTEGER, a SEQUENCE, ...) only accept elements of class UNIVERSAL.", "quantifier": "all inputs, all typed parsers", "why_tests_cant": "Tests feed only universal-class data.", "anchors": ["src/ber/parser.rs:parse_ber_with_tag", "src/ber/multi.rs:parse_ber_sequence_defined_g", "src/der/parser.rs:parse_der_with_tag"]}
{"id": "C14", "title": "as_u64/as_u32 return the exact INTEGER value or a precise error", "statement": "On an INTEGER object as_u64 (as_u32) returns v iff the two's complement value of its octets is v and 0 <= v < 2^64 (2^32); it returns IntegerNegative iff the value is negative and IntegerTooLarge iff it is at least 2^64 (2^32), whatever the number of leading zero octets.", "quantifier": "all integer octet strings of any length", "why_tests_cant": "Arbitrary-length integers and leading zeros.", "anchors": ["src/ber/integer.rs:decode_array_uint8,decode_array_uint4,remove_zeroes", "src/ber/ber.rs:as_u64,as_u32"]}
{"id": "C15", "title": "as_i64/as_i32 return the exact INTEGER value or an error", "statement": "On an INTEGER object as_i64 (as_i32), when it succeeds, returns the two's complement value of the octets; values outside the type's range give IntegerTooLarge; in-range values succeed.", "quantifier": "all integer octet strings of any length", "why_tests_cant": "Boundary values and non-minimal encodings of any length.", "anchors": ["src/ber/integer.rs:decode_array_int8,decode_array_int4", "src/ber/ber.rs:as_i64,as_i32"]}
{"id": "C16", "title": "as_bigint/as_biguint are exact", "statement": "as_bigint returns the two's complement value for every INTEGER object; as_biguint returns it when non-negative and IntegerNegative otherwise.", "quantifier": "all integer octet strings of any length", "why_tests_cant": "Unbounded integers.", "anchors": ["src/ber/ber.rs:as_bigint,as_biguint"]}
{"id": "C17", "title": "as_u64/as_u32 of a BIT STRING are the exact bit value", "statement": "On a BIT STRING with data bytes b and u unused bits, as_u64 returns the integer denoted by the first 8*len-u bits iff there are at most 64 of them, IntegerTooLarge iff more, InvalidLength iff u exceeds 8*len; as_u32 additionally rejects values above 2^32-1.", "quantifier": "all bit strings of any length, all unused-bit counts 0..255", "why_tests_cant": "u8 unused-bit counts above 7 and any length.", "anchors": ["src/ber/parser.rs:bitstring_to_u64", "src/ber/ber.rs:as_u64,as_u32"]}
{"id": "C18", "title": "BitStringObject::is_set reads bit n, most significant first", "statement": "is_set(n) is true iff n is inside the data and bit n, counting from the most significant bit of the first byte, is 1; it is false (not a panic) outside.", "quantifier": "all data, all bit numbers", "why_tests_cant": "All indices and data lengths.", "anchors": ["src/ber/ber.rs:BitStringObject::is_set"]}
{"id": "C19", "title": "parse_ber_{u32,u64,i32,i64} return the exact value or an error", "statement": "When parse_ber_u32/u64/i32/i64 succeed the element is a primitive INTEGER, the returned value is its two's complement value and it fits the type; when the value does not fit the result is IntegerTooLarge (IntegerNegative for a negative value read as unsigned).", "quantifier": "all inputs", "why_tests_cant": "All lengths and leading-zero patterns.", "anchors": ["src/ber/parser.rs:parse_ber_i32,parse_ber_i64,parse_ber_u32,parse_ber_u64"]}
{"id": "C20", "title": "parse_der_{u32,u64,i32,i64} accept only the minimal encoding of each value", "statement": "When parse_der_u32/u64/i32/i64 succeed, the returned value is exact and the content octets are the unique minimal two's complement encoding: two accepted elements with the same value have identical content octets.", "quantifier": "all pairs of inputs", "why_tests_cant": "Uniqueness relates all pairs of encodings.", "anchors": ["src/der/parser.rs:parse_der_i32,parse_der_i64,parse_der_u32,parse_der_u64"]}
{"id": "C21", "title": "DER BOOLEAN is one octet, 00 or FF", "statement": "When parse_der/parse_der_bool accept a universal BOOLEAN its content is exactly one octet equal to 00 (false) or FF (true); every other BOOLEAN is rejected.", "quantifier": "all inputs", "why_tests_cant": "All lengths and octet values.", "anchors": ["src/der/parser.rs:der_read_element_content_as,parse_der_bool"]}
{"id": "C22", "title": "DER INTEGER is minimally encoded", "statement": "When parse_der/parse_der_integer accept a universal INTEGER, its content is not empty and the first nine bits are neither all zero nor all one (X.690 8.3.2), so a value has one encoding.", "quantifier": "all inputs", "why_tests_cant": "All integer contents.", "anchors": ["src/der/parser.rs:der_read_element_content_as,parse_der_integer"]}
{"id": "C23", "title": "DER BIT STRING padding is valid", "statement": "When parse_der/parse_der_bitstring accept a universal BIT STRING, it is primitive, the unused-bit count is at most 7, every unused bit of the last octet is zero, and an empty bit string has unused-bit count zero (X.690 8.6.2, 11.2).", "quantifier": "all inputs", "why_tests_cant": "All bit strings.", "anchors": ["src/der/parser.rs:der_read_content_bitstring,der_read_element_content_as"]}
{"id": "C24", "title": "DER parsers never accept an indefinite length for the outer element", "statement": "No parse_der*, parse_der_with_tag, parse_der_slice, DER container/sequence/set/tagged combinator succeeds on an element with indefinite length, and der_read_element_content_as rejects an indefinite length argument.", "quantifier": "all inputs, all callbacks", "why_tests_cant": "All inputs.", "anchors": ["src/der/parser.rs:parse_der,parse_der_with_tag,der_read_element_content_as", "src/der/multi.rs:parse_der_container"]}
{"id": "C25", "title": "DER string types are never constructed", "statement": "When parse_der/parse_der_with_tag accept an element whose universal tag is a character string type or BIT STRING, the element is primitive.", "quantifier": "all inputs, all twelve character string tags and BIT STRING", "why_tests_cant": "All inputs.", "anchors": ["src/der/parser.rs:der_read_element_content_as"]}
{"id": "C26", "title": "DER times end with Z", "statement": "When parse_der/parse_der_utctime/parse_der_generalizedtime accept a UTCTime or GeneralizedTime, its content is not empty and its last octet is 'Z'.", "quantifier": "all inputs", "why_tests_cant": "All contents.", "anchors": ["src/der/parser.rs:der_read_element_content_as"]}
{"id": "C27", "title": "DER constraints hold for every nested element", "statement": "'DER constraints are verified' (parse_der documentation): whenever parse_der succeeds, every element nested in the result (inside SEQUENCE/SET) satisfies the DER constraints (definite length, BOOLEAN 00/FF, minimal INTEGER, BIT STRING padding).", "quantifier": "all inputs, all nested elements", "why_tests_cant": "Nesting is unbounded; tests only look at top-level primitives.", "anchors": ["src/der/parser.rs:parse_der,der_read_element_content_as", "src/ber/wrap_any.rs:try_berobject_from_any"]}
{"id": "C28", "title": "Whatever parse_der accepts, parse_ber accepts identically", "statement": "If parse_der_recursive(i,d) succeeds with d>=1 then parse_ber_recursive(i,d) succeeds with the same remainder and an equal object (equality as the crate defines it: the raw tag of an Unknown object is compared only when both sides have one).", "quantifier": "all inputs, all limits", "why_tests_cant": "Relates two parsers on every input.", "anchors": ["src/der/parser.rs:parse_der_recursive,der_read_element_content_recursive", "src/ber/parser.rs:parse_ber_recursive"]}
{"id": "C29", "title": "Optional parsers never fail and restore the input", "statement": "parse_ber_optional(f)(i) and parse_{ber,der}_explicit_optional never return an error: they return Optional(Some(obj)) with f's remainder exactly when f succeeds, and otherwise Optional(None) with the whole input as remainder, for every kind of failure.", "quantifier": "all inner parsers that return, all inputs", "why_tests_cant": "All callbacks.", "anchors": ["src/ber/parser.rs:parse_ber_optional,parse_ber_explicit_optional", "src/der/parser.rs:parse_der_explicit_optional"]}
{"id": "C30", "title": "EXPLICIT tagging checks class, tag number and constructed bit, and isolates the content", "statement": "parse_{ber,der}_tagged_explicit(_g)(t,f) succeeds iff the element is not universal, has tag number t, is constructed, its whole content is present, and f succeeds on exactly the content octets; the remainder is what follows the element, whatever f left unread; the error for a wrong class, tag or primitive element is UnexpectedClass, UnexpectedTag or ConstructExpected.", "quantifier": "all inputs, all tags, all callbacks, all error types", "why_tests_cant": "Polymorphic in callback and error type.", "anchors": ["src/ber/tagged.rs:parse_ber_tagged_explicit,parse_ber_tagged_explicit_g", "src/der/tagged.rs:parse_der_tagged_explicit,parse_der_tagged_explicit_g"]}
{"id": "C31", "title": "IMPLICIT tagging checks the tag number and passes header and exact content", "statement": "parse_{ber,der}_tagged_implicit(_g)(t,f) (and parse_{ber,der}_implicit) succeed iff the header has tag number t, the whole content is present and f succeeds on exactly the content octets with that header; the result keeps the element's own header; the remainder is what follows the element.", "quantifier": "all inputs, all tags, all callbacks, all error types", "why_tests_cant": "Polymorphic in callback and error type.", "anchors": ["src/ber/tagged.rs:parse_ber_tagged_implicit,parse_ber_tagged_implicit_g", "src/der/tagged.rs:parse_der_tagged_implicit,parse_der_tagged_implicit_g"]}
{"id": "C32", "title": "SEQUENCE OF / SET OF return all elements or fail", "statement": "parse_{ber,der}_{sequence,set}_of(_v)(f) succeed with [v1..vn] iff the element has the right tag and its content splits into consecutive non-empty pieces on which f yields v1..vn in order with nothing left over; a malformed, truncated or trailing element never yields a partial list.", "quantifier": "all inputs, all element parsers, all error types, any number of elements", "why_tests_cant": "Unbounded number of elements, arbitrary element parser.", "anchors": ["src/ber/multi.rs:parse_ber_sequence_of_v,parse_ber_set_of_v,parse_ber_sequence_of,parse_ber_set_of", "src/der/multi.rs:parse_der_sequence_of_v,parse_der_set_of_v"]}
{"id": "C33", "title": "Containers hand the callback exactly the content octets", "statement": "parse_{ber,der}_container(f), parse_{ber,der}_{sequence,set}_defined(_g)(f) call f with exactly the element's content octets and its header, return f's value, and return as remainder exactly what follows the element; f cannot read past the element and what f leaves unread inside the element is dropped.", "quantifier": "all inputs, all callbacks, all error types", "why_tests_cant": "Polymorphic in callback.", "anchors": ["src/ber/multi.rs:parse_ber_container,parse_ber_sequence_defined_g,parse_ber_set_defined_g", "src/der/multi.rs:parse_der_container,parse_der_sequence_defined_g,parse_der_set_defined_g"]}
{"id": "C34", "title": "Callback errors reach the caller unchanged", "statement": "When a container or tagged combinator reaches its callback and the callback fails with Error(e), Failure(e) or Incomplete(n), the combinator fails with that same value (custom error types included); SEQUENCE OF/SET OF turn an element's Error(e) into Failure(e) with the same e.", "quantifier": "all inputs, all callbacks, all error types", "why_tests_cant": "Arbitrary custom error type.", "anchors": ["src/ber/multi.rs:parse_ber_container,parse_ber_sequence_of_v", "src/der/multi.rs:parse_der_container"]}
{"id": "C35", "title": "Encoded headers are minimal and read back", "statement": "ber_encode_header writes, for every header with tag number at most 30, one identifier octet and the shortest definite length octets (or 80 for indefinite); reading them back yields the same class, constructed bit, tag and length.", "quantifier": "all headers with tag <= 30, all lengths < 2^64", "why_tests_cant": "2^64 lengths.", "anchors": ["src/ber/serialize.rs:ber_encode_header,encode_length"]}
{"id": "C36", "title": "Parse, encode, parse is the identity", "statement": "If parse_ber accepts an input (no UTCTime/GeneralizedTime inside), to_vec either panics because a tag number exceeds 30 or returns bytes that parse_ber accepts completely, yielding an equal object up to length and raw tag fields.", "quantifier": "all inputs, all nesting", "why_tests_cant": "Quantifies over all trees.", "anchors": ["src/ber/serialize.rs:to_vec,ber_encode_object,ber_encode_object_content", "src/ber/parser.rs:parse_ber"]}
{"id": "C37", "title": "Objects built with from_obj/from_seq/from_set encode to what they denote", "statement": "For every tree built from well-formed contents with from_obj, from_int_slice, from_seq and from_set, to_vec yields bytes that parse_ber decodes completely to an object with the same content tree.", "quantifier": "all trees of bounded depth (<= the recursion limit), any width, any leaf contents valid for their type", "why_tests_cant": "Quantifies over all trees.", "anchors": ["src/ber/ber.rs:from_obj,from_seq,from_set,from_int_slice", "src/ber/serialize.rs:to_vec"]}
{"id": "C38", "title": "The serializer fails only on tag numbers above 30", "statement": "to_vec panics (unimplemented) iff some header that has to be written has a tag number above 30; in every other case it returns Ok. The header's length field and raw tag never influence the output.", "quantifier": "all objects", "why_tests_cant": "All trees.", "anchors": ["src/ber/serialize.rs:ber_encode_header,ber_encode_object,to_vec"]}
{"id": "C39", "title": "EXPLICIT tagged encoding round-trips", "statement": "ber_encode_tagged_explicit(tag, class, obj), for a non-universal class and tag <= 30, produces bytes that parse_ber_tagged_explicit(tag, parse_ber) decodes to a Tagged object of that class and tag around an object equal to obj; ber_encode_object of the resulting Tagged object produces the same bytes again.", "quantifier": "all tags <= 30, all non-universal classes, all objects parse_ber can yield or whose contents are valid for their headers; with another inner parser, all objects it decodes", "why_tests_cant": "All objects.", "anchors": ["src/ber/serialize.rs:ber_encode_tagged_explicit", "src/ber/tagged.rs:parse_ber_tagged_explicit"]}
{"id": "C40", "title": "IMPLICIT tagged encoding round-trips", "statement": "ber_encode_tagged_implicit(tag, class, obj), tag <= 30, produces bytes that parse_ber_tagged_implicit(tag, parse_ber_content(obj's tag)) decodes to an object with obj's content under the new tag and class.", "quantifier": "all tags <= 30, all classes, all universal-class objects whose contents are valid for their headers, within the crate's size limit", "why_tests_cant": "All objects.", "anchors": ["src/ber/serialize.rs:ber_encode_tagged_implicit", "src/ber/tagged.rs:parse_ber_tagged_implicit"]}
{"id": "C41", "title": "Every content variant encodes to valid contents octets", "statement": "to_vec of from_obj(c) is the X.690 encoding of c for every variant, including EndOfContent (00 00), Optional(None) (nothing) and UTCTime (two-digit year).", "quantifier": "all content variants", "why_tests_cant": "The failing variants have no test.", "anchors": ["src/ber/serialize.rs:ber_encode_object_content,ber_encode_datetime"]}
{"id": "C42", "title": "The visitor visits every SEQUENCE/SET descendant exactly once, in document order, with its depth", "statement": "visit_ber_bfs / Visit::run calls visit_ber on the object and on every object reachable through SEQUENCE/SET children exactly once, parents before children and siblings in order, with depth = number of SEQUENCE/SET levels above it, and each visit_ber is followed by exactly the callback of its variant.", "quantifier": "all object trees, all visitors", "why_tests_cant": "All trees.", "anchors": ["src/ber/visit.rs:visit_ber_bfs,Visit"]}
{"id": "C43", "title": "The visitor is called for every BER object", "statement": "Visit::visit_ber documentation: 'Called for every BER object': every object contained in the tree, including those inside Tagged and Optional, is visited.", "quantifier": "all object trees", "why_tests_cant": "All trees.", "anchors": ["src/ber/visit.rs:Visit::visit_ber"]}
{"id": "C44", "title": "Mutable traversal with a neutral visitor changes nothing and visits the same objects", "statement": "VisitMut::run with callbacks that do not modify the object leaves the tree unchanged and makes the same sequence of calls as Visit::run.", "quantifier": "all object trees, all non-modifying visitors", "why_tests_cant": "All trees.", "anchors": ["src/ber/visit_mut.rs:VisitMut", "src/ber/visit.rs:Visit"]}
{"id": "C45", "title": "ref_iter and indexing expose exactly the children", "statement": "ref_iter on a SEQUENCE/SET yields its children in order then None forever; on any other object it yields nothing; obj[i] is the i-th child, and panics iff there is no such child.", "quantifier": "all objects, all indices", "why_tests_cant": "All sizes.", "anchors": ["src/ber/ber.rs:BerObjectRefIterator,ref_iter,Index"]}
{"id": "C46", "title": "Consuming iteration yields exactly the children of a constructed object", "statement": "into_iter on a SEQUENCE/SET yields exactly its children in order (nothing when it is empty), and yields the object itself once for any other content.", "quantifier": "all objects", "why_tests_cant": "All sizes including zero.", "anchors": ["src/ber/ber.rs:BerObjectIntoIterator"]}
{"id": "C47", "title": "Restricted character strings contain only permitted characters", "statement": "When parse_ber/parse_der accept a NumericString, PrintableString, VisibleString or IA5String, it is primitive and every octet is in the permitted set of the type.", "quantifier": "all inputs, all nodes of the returned tree", "why_tests_cant": "All contents.", "anchors": ["src/ber/wrap_any.rs:from_obj!,try_berobject_from_any"]}
{"id": "C48", "title": "as_str is always valid UTF-8 and BMPString valid UTF-16", "statement": "For every object returned by parse_ber/parse_der, as_str (when it succeeds) is the UTF-8 encoding of a sequence of Unicode scalar values, and a BMPString content is an even number of octets that is a well-formed big-endian UTF-16 sequence; every well-formed UTF8String content is accepted.", "quantifier": "all inputs, all nodes of the returned tree", "why_tests_cant": "All code point sequences.", "anchors": ["src/ber/wrap_any.rs:from_obj!,try_berobject_from_any", "src/ber/ber.rs:as_str"]}
{"id": "C49", "title": "Objects above the size limit are rejected", "statement": "parse_ber_with_tag, parse_der, parse_der_recursive and the content readers never accept a definite length above MAX_OBJECT_SIZE (2^32-1), and report InvalidLength for it.", "quantifier": "all inputs, all lengths", "why_tests_cant": "Needs inputs larger than memory.", "anchors": ["src/ber/parser.rs:MAX_OBJECT_SIZE", "src/ber/wrap_any.rs:try_read_berobjectcontent_as", "src/der/parser.rs:parse_der_recursive"]}
{"id": "C50", "title": "BerObject::try_from(Any) agrees with direct parsing", "statement": "For every Any obtained from a successful Any::from_ber on an input, BerObject::try_from(any) succeeds iff parse_ber does on that input, with an equal object.", "quantifier": "all inputs", "why_tests_cant": "Relates two code paths on all inputs.", "anchors": ["src/ber/ber.rs:TryFrom<Any>", "src/ber/wrap_any.rs:parse_ber_any"]}
{"id": "C51", "title": "Accessors return the stored value for their variants and a type error otherwise", "statement": "as_bool, as_oid, as_sequence, as_set, as_bitstring, as_optional, as_tagged, as_slice, as_str succeed exactly on the variants they document and return the stored value; on every other variant they return BerTypeError (as_i32/as_i64/as_bigint/as_biguint return BerValueError on non-integers); as_slice and as_str agree on string types.", "quantifier": "all objects", "why_tests_cant": "All variants x values.", "anchors": ["src/ber/ber.rs:as_bool,as_oid,as_sequence,as_set,as_slice,as_str,as_tagged,as_optional,as_bitstring"]}
{"id": "C52", "title": "The oid! macro encoder is the X.690 base-128 encoding", "statement": "encode_components(relative, comps) of der-oid-macro equals, for relative OIDs, the concatenation of the base-128 big-endian encodings of the components, and for absolute OIDs the same with the first two arcs combined as 40*a+b; it is injective on component lists.", "quantifier": "all lists of arbitrarily large components", "why_tests_cant": "Components are unbounded big integers; the loop packs bits across bytes.", "anchors": ["der-oid-macro/src/lib.rs:encode_components,encode_oid"]}
{"id": "C53", "title": "Pretty-printer flags form a set", "statement": "PrettyBer::set_flag/unset_flag maintain a set of flags: after set_flag(f) f is set and others unchanged; after unset_flag(f) f is unset and others unchanged, whatever the call history; next_indent hands the same flags to the nested printer.", "quantifier": "all sequences of flag operations", "why_tests_cant": "All histories.", "anchors": ["src/ber/print.rs:PrettyBer"]}
{"id": "C54", "title": "Incomplete means that more input is needed", "statement": "If parse_ber/parse_der return Incomplete on i then some extension of i is accepted; if some extension of i is accepted and i is not, the result on i is Incomplete, and the number of octets it asks for is not more than those that were missing.", "quantifier": "all inputs and extensions", "why_tests_cant": "Quantifies over all extensions.", "anchors": ["src/ber/parser.rs:parse_ber,ber_read_element_header", "src/ber/wrap_any.rs:try_read_berobjectcontent_as", "src/der/parser.rs:parse_der"]}
{"id": "C55", "title": "parse_ber decodes exactly the specified values", "statement": "parse_ber_recursive(i, d) succeeds with remainder rem and object o iff i starts with one element whose header is o's header, followed by rem, and o's content is the value that the element's content octets denote under the X.690-style value specification at nesting limit d (completeness as well as soundness, at every depth).", "quantifier": "all inputs, limits, remainders and objects", "why_tests_cant": "An exact characterisation of an infinite accepted language with unbounded nesting; tests cannot show that nothing else is accepted.", "anchors": ["src/ber/parser.rs:parse_ber_recursive", "src/ber/wrap_any.rs:try_berobject_from_any,try_read_berobjectcontent_as", "src/ber/parser.rs:ber_get_object_content,ber_skip_object_content"]}
{"id": "C56", "title": "parse_der decodes exactly the specified values", "statement": "For d >= 1, parse_der_recursive(i, d) succeeds with remainder rem and object o iff i starts with one definite-length element of at most MAX_OBJECT_SIZE content octets, followed by rem, whose outer header and content satisfy the DER constraints the crate checks (BOOLEAN 00/FF, no superfluous leading zero in INTEGER, BIT STRING primitive with at most 7 zero unused bits, strings primitive, times ending in Z), and o's content is the value its content octets denote at nesting limit d.", "quantifier": "all inputs, limits >= 1, remainders and objects", "why_tests_cant": "An exact characterisation of an infinite accepted language; tests cannot show that nothing else is accepted.", "anchors": ["src/der/parser.rs:parse_der_recursive,der_read_element_content_as,der_read_element_content_recursive,der_read_content_bitstring"]}
{"id": "C57", "title": "Re-encoding gives the same bytes exactly for canonical input", "statement": "If parse_ber or parse_der decodes an input to an object without times, to_vec of the object is exactly the octets read if, and only if, the input uses definite shortest lengths and tag numbers up to 30 throughout (elements of other classes are not looked into), BOOLEANs 00/FF, empty NULLs, ENUMERATEDs without leading zero octet, and no end-of-contents other than 00 01 00.", "quantifier": "all accepted inputs of less than 2^64 octets, all nesting, all recursion limits", "why_tests_cant": "Byte-for-byte identity of decode/encode over unbounded nesting and widths is an inductive statement; round-trip tests cover a handful of certificates.", "anchors": ["src/ber/serialize.rs:to_vec,ber_encode_object", "src/ber/parser.rs:parse_ber,parse_ber_recursive"]}
{"id": "C58", "title": "Encoding is injective", "statement": "Two objects whose contents are valid for their headers and that differ in more than length and raw tag fields never have the same to_vec encoding.", "quantifier": "all pairs of such objects, any nesting", "why_tests_cant": "Injectivity relates all pairs of objects.", "anchors": ["src/ber/serialize.rs:to_vec,ber_encode_object_content"]}
{"id": "C59", "title": "A mutable visitor that edits leaves keeps the shape of the tree", "statement": "VisitMut::run with any visitor whose visit_ber_mut, visit_ber_sequence_mut and visit_ber_set_mut change no object terminates and yields a tree with the same headers, variants and nesting; octet strings, UTF8 strings, times, NULL and end-of-contents objects are unchanged.", "quantifier": "all objects, all visitors with arbitrary state and leaf callbacks, all start depths", "why_tests_cant": "Quantifies over all trees and all visitor behaviours.", "anchors": ["src/ber/visit_mut.rs:visit_ber_bfs_mut,VisitMut"]}
{"id": "C60", "title": "A mutable visitor's edits reach every visited leaf and nothing else", "statement": "For every function g on leaf contents and depths that the VisitMut callbacks can express, running the visitor that applies g yields exactly the tree in which each leaf reachable through SEQUENCE/SET holds g(content, depth), everything else unchanged.", "quantifier": "all objects, all leaf functions g, all start depths", "why_tests_cant": "Quantifies over all trees and all edit functions.", "anchors": ["src/ber/visit_mut.rs:visit_ber_bfs_mut,VisitMut"]}
{"id": "C61", "title": "The oid! macro reads dotted notation", "statement": "For every component list written in dotted decimal notation (any decimal spelling, white space around the numbers), with or without the 'rel ' prefix, encode_oid emits encode_components of exactly these components. No other text is accepted, except that numbers may carry a plus sign and, after the first digit, underscores.", "quantifier": "all texts", "why_tests_cant": "Unboundedly many component lists, magnitudes and spellings.", "anchors": ["der-oid-macro/src/lib.rs:encode_oid"]}
{"id": "C62", "title": "Every reader of one type accepts exactly the elements of that type", "statement": "Each parse_ber_<type> / parse_der_<type> function (25 BER readers, 26 DER readers including visiblestring) succeeds with remainder rem and object o iff the input starts with one element with o's header, followed by rem, whose tag number is the X.680 number of that type (whatever the class), within the size limit, for DER satisfying the DER constraints, and o's content is the value its content octets denote; the content is then of the variant of that type.", "quantifier": "all typed readers, all inputs, remainders and objects", "why_tests_cant": "An exact characterisation of 51 infinite accepted languages.", "anchors": ["src/ber/parser.rs:parse_ber_bool..parse_ber_bmpstring", "src/der/parser.rs:parse_der_bool..parse_der_universalstring"]}
{"id": "C63", "title": "Header queries report the identifier octet", "statement": "On every object returned by parse_ber, parse_der, parse_ber_with_tag or parse_der_with_tag, is_universal / is_application / is_contextspecific / is_private / is_constructed / is_primitive / tag report bits 8-7, bit 6 and bits 5-1 of the first input octet; assert_class / assert_tag / assert_constructed / assert_primitive succeed exactly on the value found and otherwise name it.", "quantifier": "all inputs, all objects, classes and tags", "why_tests_cant": "Relates every input to every query.", "anchors": ["src/ber/ber.rs:BerObject"]}
{"id": "C64", "title": "as_bitslice exposes exactly the declared bits of a BIT STRING", "statement": "as_bitslice of a BIT STRING with u unused bits yields exactly the 8n-u declared bits, most significant first, in agreement with is_set.", "quantifier": "all BIT STRINGs", "why_tests_cant": "Unboundedly long strings.", "anchors": ["src/ber/ber.rs:as_bitslice,BitStringObject::as_bitslice"]}
{"id": "C65", "title": "The pretty printer writes every object once, in document order, indented by its depth", "statement": "The text of a PrettyBer is the concatenation of pieces: for every object reachable through SEQUENCE/SET members (when Recursive is set) and tagged objects, exactly one beginning (spaces for indent + depth*inc, the header if ShowHeader is set, then name and value), and for each bracketed object exactly one closing bracket, in the order begin < everything inside, in order < end. Without Recursive nothing below a SEQUENCE or SET is written.", "quantifier": "all objects, flags, indentations, all texts of foreign types", "why_tests_cant": "Quantifies over trees of unbounded depth and width.", "anchors": ["src/ber/print.rs:fmt::Debug for PrettyBer,dbg_header,next_indent"]}
{"id": "C66", "title": "Numbers are printed in decimal", "statement": "Tag numbers, lengths, ENUMERATED values and unused-bit counts are written as decimal digits denoting the number, without superfluous leading zeros.", "quantifier": "all numbers", "why_tests_cant": "Unbounded numbers.", "anchors": ["src/ber/print.rs:fmt::Debug for PrettyBer,dbg_header,next_indent"]}
{"id": "C67", "title": "Indentation adds nothing but spaces", "statement": "For any two choices of indent and inc the texts of the same object with the same flags are equal after removing the spaces.", "quantifier": "all objects, flags, indentations", "why_tests_cant": "Quantifies over trees of unbounded depth and width.", "anchors": ["src/ber/print.rs:fmt::Debug for PrettyBer,dbg_header,next_indent"]}
{"id": "C68", "title": "Every inner object is printed on its own line", "statement": "The text of every object inside another one, printed at its depth, is part of the text and is preceded by a line feed.", "quantifier": "all objects, flags, paths", "why_tests_cant": "Quantifies over trees of unbounded depth and width.", "anchors": ["src/ber/print.rs:fmt::Debug for PrettyBer,dbg_header,next_indent"]}
{"id": "C69", "title": "The raw encoder writes the header it is given", "statement": "ber_encode_object_raw writes the given header, so that a header reader finds the same class, form, tag and length again, followed by the same content octets that to_vec writes; it produces the same octets as to_vec exactly when the given header announces the length of the contents; writing back a parsed object with its own header gives the octets that were read.", "quantifier": "all headers with tag number up to 30, all contents", "why_tests_cant": "Quantifies over all headers, including false ones, and over contents of unbounded size.", "anchors": ["src/ber/serialize.rs:ber_encode_object_raw,ber_encode_header,to_vec"]}
{"id": "C70", "title": "Contents read under a given header", "statement": "The content readers (parse_ber_content(2), parse_der_content(2), der_read_element_content), which are given an already read header, succeed exactly when the input starts with the octets the header announces and these are valid contents of the type told, subject to the DER constraints for the DER ones; with the IMPLICIT combinators they read exactly the elements with the outer tag and contents of that type.", "quantifier": "all inputs, headers, tags, depths", "why_tests_cant": "Exact characterisation over all inputs and headers.", "anchors": ["src/ber/parser.rs:parse_ber_content,parse_ber_content2,ber_read_element_content_as", "src/der/parser.rs:parse_der_content,parse_der_content2,der_read_element_content,der_read_element_content_as", "src/ber/tagged.rs:parse_ber_tagged_implicit", "src/der/tagged.rs:parse_der_tagged_implicit"]}
{"id": "C71", "title": "Stored identifier octets", "statement": "The parser stores with an object exactly the identifier octets it read; replacing them (set_raw_tag) changes neither what is written nor the result of any header query, and can be undone.", "quantifier": "all objects, all inputs", "why_tests_cant": "Quantifies over all objects and identifier octets of any length.", "anchors": ["src/ber/ber.rs:set_raw_tag", "src/ber/parser.rs:parse_ber_recursive", "src/ber/serialize.rs:to_vec"]}
{"id": "C72", "title": "Containers call a closure once or not at all", "statement": "The container and defined-content combinators call their FnMut closure exactly once, in its current state and with the contents and header of the element, if the input starts with an element with the right tag, and return the state it leaves and its value with what follows the element; otherwise they do not call it. parse_ber_optional calls it once and keeps the state it leaves even when the value is absent.", "quantifier": "all closures with state, all states, all inputs", "why_tests_cant": "Quantifies over all stateful closures.", "anchors": ["src/ber/multi.rs:parse_ber_container,parse_ber_sequence_defined_g,parse_ber_set_defined_g,parse_ber_sequence_of_v,parse_ber_set_of_v", "src/der/multi.rs:parse_der_container,parse_der_sequence_defined_g,parse_der_set_defined_g,parse_der_sequence_of_v,parse_der_set_of_v", "src/ber/parser.rs:parse_ber_optional"]}
{"id": "C73", "title": "SEQUENCE OF / SET OF call a closure from left to right", "statement": "The OF combinators call their FnMut closure once per element from left to right, each time on what is left of the contents and in the state the previous call left, plus one last time; state and verdict come from the last call: success with all values if it asks for more input when nothing is left, Failure if it fails, an error if it asks for more input earlier or consumes nothing.", "quantifier": "all closures with state returning suffixes, all states, all inputs", "why_tests_cant": "Quantifies over all stateful closures and over series of unbounded length.", "anchors": ["src/ber/multi.rs:parse_ber_container,parse_ber_sequence_defined_g,parse_ber_set_defined_g,parse_ber_sequence_of_v,parse_ber_set_of_v", "src/der/multi.rs:parse_der_container,parse_der_sequence_defined_g,parse_der_set_defined_g,parse_der_sequence_of_v,parse_der_set_of_v"]}
{"id": "C74", "title": "State that does not matter does not show", "statement": "If the answers of a closure do not depend on its state, the combinators give the same results as for the stateless function.", "quantifier": "all closures whose answers do not depend on the state, all states, all inputs", "why_tests_cant": "Quantifies over all closures; makes every property proved of stateless callbacks hold of FnMut closures of this kind.", "anchors": ["src/ber/multi.rs:parse_ber_container,parse_ber_sequence_defined_g,parse_ber_set_defined_g,parse_ber_sequence_of_v,parse_ber_set_of_v", "src/der/multi.rs:parse_der_container,parse_der_sequence_defined_g,parse_der_set_defined_g,parse_der_sequence_of_v,parse_der_set_of_v", "src/ber/parser.rs:parse_ber_optional"]}
{"id": "C75", "title": "Undecoded elements and decoding with a required tag", "statement": "parse_ber_any returns exactly the elements of the input, undecoded; parse_ber_any_with_tag_r accepts exactly the elements with the requested tag number and decodes them to their value; an element with another tag number is reported with both tag numbers, whatever its content.", "quantifier": "all inputs, tags, limits", "why_tests_cant": "Equivalence over all inputs, including nested indefinite lengths.", "anchors": ["src/ber/wrap_any.rs:parse_ber_any,parse_ber_any_with_tag_r"]}
{"id": "C76", "title": "Equality of objects", "statement": "Two objects are equal (==) exactly if they agree in everything but length fields and raw tags, and in the raw tags where both have one. == is reflexive and symmetric. Equal objects are encoded alike; an object without raw tags, encoded and read back, equals itself; the BER and DER decodings of an input are equal.", "quantifier": "all objects, all inputs", "why_tests_cant": "Quantifies over all pairs of object trees.", "anchors": ["src/ber/ber.rs:BerObject,BerObjectContent (derived PartialEq)", "src/ber/serialize.rs:to_vec"]}
{"id": "C77", "title": "Decoded trees are no larger than the input", "statement": "The octets referred to by a decoded tree, plus one per object, number at most the octets consumed, and there are at most half as many objects: decoding cannot amplify the input.", "quantifier": "all inputs and limits", "why_tests_cant": "A resource bound over all inputs.", "anchors": ["src/ber/parser.rs:parse_ber_recursive", "src/der/parser.rs:parse_der_recursive"]}
{"id": "C78", "title": "Equality of objects is transitive", "statement": "If a == b and b == c then a == c.", "quantifier": "all objects", "why_tests_cant": "Quantifies over all triples of objects.", "anchors": ["src/ber/ber.rs:BerObject (derived PartialEq)"]}
{"id": "C79", "title": "The work is linear in the input", "statement": "Counting every element header the reader reads or tries to read (also those passed over while the end of an indefinite length is looked for, and those read again when the contents are decoded): with recursion limit d, parse_ber_recursive reads at most d headers per two octets consumed when it succeeds and at most (d+1)*len/2 + 1 whatever the result; parse_der_recursive likewise; the readers of one tag at most 51*len/2 + 1. So no input, however nested, makes the reader do more than linear work. When a reader succeeds it has read at least one header per object of the result, and exactly one per object if all lengths are definite (for parse_der_recursive: if the leaf decoders of asn1-rs never answer with an unknown tag).", "quantifier": "all inputs, all limits, all tags, all results", "why_tests_cant": "A bound over all inputs; nested indefinite lengths make the end be searched again at every level, so the worst case is not seen on ordinary inputs.", "anchors": ["src/ber/parser.rs:ber_skip_object_content", "src/ber/wrap_any.rs:try_berobject_from_any", "src/der/parser.rs:parse_der_recursive"]}
{"id": "C80", "title": "Encoding into any writer gives the octets of to_vec or an error", "statement": "For every writer that starts empty and appends what it says it took, whatever it refuses or takes only in part: if ber_encode_object (or the header, raw, explicit and implicit encoders) succeeds, the writer holds what it held before followed by exactly the octets that to_vec produces; the encoder panics only where to_vec does. With a writer that takes everything there is no other failure.", "quantifier": "all writers, all objects, all initial contents of the writer", "why_tests_cant": "The encoder is generic in the writer and builds inner writers with Default; tests only use Vec.", "anchors": ["src/ber/serialize.rs:ber_encode_object", "src/ber/serialize.rs:ber_encode_object_content"]}
{"id": "C81", "title": "Encoding succeeds when the writer has room", "statement": "If a writer would take all octets of to_vec, ber_encode_object into it succeeds.", "quantifier": "all writers meeting the type bounds, all objects", "why_tests_cant": "Quantifies over writers; tests only use Vec.", "anchors": ["src/ber/serialize.rs:ber_encode_object"]}
{"id": "C82", "title": "Every basic encoding decodes to its value", "statement": "For an ASN.1 value (BOOLEAN, INTEGER, BIT STRING, OCTET STRING, NULL, OBJECT IDENTIFIER, RELATIVE-OID, ENUMERATED, character strings, SEQUENCE, SET, explicit tags, nested) and every encoding of it that X.690 clause 8 allows (any length form, indefinite length, segmented strings, any non-zero TRUE, any unused bits), parse_ber succeeds, consumes exactly the encoding and returns an object that stands for that value.", "quantifier": "all values, all their basic encodings, all following octets, nesting below the recursion limit", "why_tests_cant": "Values and their encodings are both infinite; tests use a few encodings of small values.", "anchors": ["src/ber/parser.rs:parse_ber", "src/ber/parser.rs:try_read_berobjectcontent_as"]}
{"id": "C83", "title": "Every distinguished encoding decodes to its value", "statement": "For an ASN.1 value and its distinguished encoding (X.690 clauses 10 and 11), parse_der succeeds, consumes exactly the encoding and returns an object that stands for that value.", "quantifier": "all values, their distinguished encodings, all following octets, nesting below the recursion limit", "why_tests_cant": "Infinite domain of values.", "anchors": ["src/der/parser.rs:parse_der"]}
{"id": "C84", "title": "All ways of reading an INTEGER agree", "statement": "For every encoding of an INTEGER z, parse_ber_uN/parse_ber_iN, parse_der_uN/parse_der_iN and the accessors as_uN/as_iN of the decoded object give z if it is in the range of the type; otherwise none of them gives a number. as_bigint gives z, as_biguint gives z exactly if it is not negative.", "quantifier": "all integers, all widths, all encodings", "why_tests_cant": "Integers of any size; tests check a few numbers per width.", "anchors": ["src/ber/integer.rs", "src/ber/ber.rs:as_u32", "src/ber/ber.rs:as_i64", "src/der/parser.rs:parse_der_u64"]}
{"id": "C85", "title": "Encoding gives the distinguished encoding of the value", "statement": "For every object built for an ASN.1 value v, to_vec gives the distinguished encoding of v (shortest lengths, 255 for TRUE, minimal integers), and decoding that with parse_ber or parse_der gives back v.", "quantifier": "all values, all objects built for them", "why_tests_cant": "Infinite domain; tests encode a few objects.", "anchors": ["src/ber/serialize.rs:ber_encode_object"]}
{"id": "C86", "title": "One value per object, one encoding per value", "statement": "For values within the limits of the library (ENUMERATED from 0 to 2^32-1, tag numbers below 2^32) and strings not split into segments: an object decoded from an encoding of v stands for v and for no other value. Two distinguished encodings decoded to the same object are the same octets. Two objects built for values (ENUMERATED other than 0 with a first octet below 128, tag numbers below 31) are encoded to the same octets exactly if the values are the same, whatever the length fields and raw tags of their headers are.", "quantifier": "all values, all pairs of encodings, all pairs of objects", "why_tests_cant": "Quantifies over pairs of values and over all objects for a value.", "anchors": ["src/ber/parser.rs:parse_ber", "src/der/parser.rs:parse_der", "src/ber/serialize.rs:ber_encode_object"]}
{"id": "C87", "title": "Mutable visitors rewrite the tree top down and come to an end", "statement": "For a VisitMut visitor that replaces objects in visit_ber_mut and member lists in visit_ber_sequence_mut and visit_ber_set_mut: the traversal ends, and its result is the top-down rewriting of the tree: the object left by visit_ber_mut is the one whose callback is called and whose (new) members are visited, each once, left to right, one level deeper, with the visitor's state threaded through.", "quantifier": "all stateful visitors, all trees, all start depths", "why_tests_cant": "The tests contain one visitor on one tree; the statement is about all visitors, including ones that change the tree while it is walked.", "anchors": ["src/ber/visit_mut.rs:visit_ber_bfs_mut", "src/ber/visit_mut.rs:run_at"]}
{"id": "C88", "title": "A decoded value can be read back completely through the accessors", "statement": "For every abstract value and every unsegmented BER encoding of it (with parse_ber) or DER encoding (with parse_der): a program that follows the type and uses only the public accessors finds the value: class and tag number, booleans, integers in every width that holds them, every bit of a BIT STRING and its number, octets, identifiers equal to the oid! constant of any dotted notation, ENUMERATED numbers, texts, the members of SEQUENCE and SET in order, and, parsing the contents of an explicitly tagged element with the same parser, the value inside; and an accessor succeeds on values of its own types only. An oid! constant made into an object, encoded, decoded and read is the same constant.", "quantifier": "all abstract values within the limits of the library (at most 49 levels, ENUMERATED and tag numbers below 2^32), all their encodings, all following input", "why_tests_cant": "Each test reads one literal; the claim relates unboundedly many values, encodings and nesting shapes to what the chain parser, accessor, parser, accessor returns.", "anchors": ["src/ber/ber.rs:BerObject", "src/ber/ber.rs:BerObjectContent", "src/ber/parser.rs:parse_ber", "src/der/parser.rs:parse_der", "der-oid-macro/src/lib.rs"]}
{"id": "C89", "title": "Parsers composed from the combinators read every encoding of their type", "statement": "Take any type built from the universal types, SEQUENCE with mandatory and OPTIONAL components, SET with such components sent in the order of the type, SEQUENCE OF, SET OF, CHOICE, explicit tags and implicit tags, in which an OPTIONAL component's tag number differs from those of the components that may follow it and the alternatives of a CHOICE have different tag numbers, and the parser written for it with parse_*_with_tag, parse_*_sequence_defined, parse_*_set_defined, parse_ber_optional, parse_*_sequence_of, parse_*_set_of, parse_*_tagged_explicit, parse_*_tagged_implicit, parse_*_content and nom's alt (for CHOICE). On every encoding of every value of the type, followed by any input, the parser returns the object that holds exactly that value (absent components absent, present ones present) and leaves the following input: all distinguished encodings for the DER functions; all basic encodings with unsplit strings for the BER ones, except empty values under an implicit tag number 0. The encoding determines the value, and no encoding of the type is a proper beginning of another. Tags that differ in class only, and those empty values, are misread; octets that encode no value of the type may be accepted.", "quantifier": "all types of unbounded size and nesting, all their values, all encodings with at most 49 levels and 2^32-1 octets, all following input", "why_tests_cant": "A test fixes one type, one value and one encoding; the claim is about every composition of the combinators.", "anchors": ["src/ber/parser.rs:parse_ber_with_tag,parse_ber_optional,parse_ber_content", "src/ber/multi.rs:parse_ber_sequence_defined,parse_ber_set_defined,parse_ber_sequence_of,parse_ber_set_of", "src/ber/tagged.rs:parse_ber_tagged_explicit,parse_ber_tagged_implicit", "src/der/parser.rs:parse_der_with_tag,parse_der_content", "src/der/multi.rs:parse_der_sequence_defined,parse_der_set_defined,parse_der_sequence_of,parse_der_set_of", "src/der/tagged.rs:parse_der_tagged_explicit,parse_der_tagged_implicit"]}
{"id": "C90", "title": "Objects made for a type are written and read back", "statement": "For every type as in C89 and every object that a program makes to hold a value of the type (any headers with the right class, form and number, lengths and raw tags arbitrary; absent components left out; a present OPTIONAL component bare or inside Optional): to_vec succeeds and writes the distinguished encoding of the value, and both the BER and the DER parser for the type read the same value back from it, whatever input follows. An absent component kept as Optional(None), which is what the parser returns for it, is written as an extra element, and the result is not read back.", "quantifier": "all types of unbounded size and nesting, all their values with at most 49 levels and encodings below 2^32 octets, all objects that hold them, all following input", "why_tests_cant": "A test writes one object; the claim composes encoder and parser over all types and values.", "anchors": ["src/ber/serialize.rs:ber_encode_object,ber_encode_object_content,ber_encode_header,encode_length", "src/ber/multi.rs:parse_ber_sequence_defined", "src/der/multi.rs:parse_der_sequence_defined", "src/ber/parser.rs:parse_ber_optional"]}
{"id": "C91", "title": "Reading and writing back", "statement": "For every value without ENUMERATEDs that the encoder does not write correctly and without tag numbers above 30 (what is inside an explicit tag does not matter): its distinguished encoding, read by parse_der or parse_ber and written by to_vec, is unchanged; any basic encoding of it (strings unsplit), read by parse_ber and written, becomes an encoding of the same value, which is read as the same value again. The distinguished encodings of data of any type as in C89 in which no component is absent, read by the parser composed for the type and written, are unchanged as well. ENUMERATED 0 is changed by this, and tag numbers above 30 make to_vec panic.", "quantifier": "all abstract values and all types of unbounded size, encodings with at most 49 levels and below 2^32 octets, all following input", "why_tests_cant": "A test checks one document; the claim is an equation between input and output for all of them, through reader and encoder.", "anchors": ["src/ber/serialize.rs:ber_encode_object,ber_encode_object_content,ber_encode_header,encode_length", "src/ber/parser.rs:parse_ber", "src/der/parser.rs:parse_der", "src/ber/multi.rs:parse_ber_sequence_defined", "src/der/multi.rs:parse_der_sequence_defined"]}
{"id": "C92", "title": "The example dumper shows every object of the file at its depth", "statement": "For every file that parses (as BER or DER), examples/dump-der.rs ends and writes exactly the lines of the objects found in it: the object, below it its members or, between matching braces, the objects read one after another from the octets of an OCTET STRING or an object of unknown type, each one level deeper, recursively; then a warning if octets follow the object. For every list of arguments the program either writes the dumps of all files, each taken as BER or DER as the last option before it says, or panics because a file cannot be read or parsed; it never runs forever.", "quantifier": "all files, all argument lists, both modes", "why_tests_cant": "The program calls itself on contents it finds, so termination and completeness depend on unbounded nesting of two kinds; a test dumps one file.", "anchors": ["examples/dump-der.rs:try_print_encapsulated,visit_ber,main", "src/ber/visit.rs:visit_ber_bfs,run_at"]}
{"id": "C93", "title": "The example dumper respects the recursion limit", "statement": "No object is shown deeper than the recursion limit of the parser (50).", "quantifier": "all files", "why_tests_cant": "A limit that holds for the parser is lost when its results are parsed again; only files built for it show this.", "anchors": ["examples/dump-der.rs:try_print_encapsulated"]}
{"id": "C94", "title": "The example dumper accounts for all octets of what it opens", "statement": "If the objects read from the octets of a shown object do not use up these octets, a warning with the number of remaining octets and the depth of the object is written, and such warnings are written in no other case.", "quantifier": "all files, all objects in them", "why_tests_cant": "Which octets are dropped depends on where the reading stops at any depth of any file.", "anchors": ["examples/dump-der.rs:try_print_encapsulated"]}
{"id": "C95", "title": "The oid! macro prints an array of exactly the encoded octets", "statement": "For every text given to encode_oid: either the text it hands back to the compiler is an array literal, and the only list of numbers this literal denotes is the list of encoded octets, each below 256; or the encoder panics and nothing is printed.", "quantifier": "all texts", "why_tests_cant": "A formatting slip may concern one octet value or one length only; the claim is about every octet list.", "anchors": ["der-oid-macro/src/lib.rs:encode_oid"]}
{"id": "C96", "title": "The pretty printer reports the failure of its writer", "statement": "Printing an object to any fmt::Write hands over the text of C65 in pieces and in order, up to the first piece that the writer refuses, and answers Ok exactly if none is refused. In a buffer of limited size the printer leaves a beginning of the text, and all of it exactly if it answers Ok, which it does exactly if the text fits.", "quantifier": "all objects, flags and indentations, all writers with any state, all ways of dividing the texts of the single write! calls", "why_tests_cant": "Failure can strike at any of unboundedly many writes, in any nesting; tests print to a String, which does not fail.", "anchors": ["src/ber/print.rs:PrettyBer::fmt,dbg_header"]}
{"id": "C97", "title": "SET with components and the order of its elements", "statement": "For a SET type that lists its components in the canonical order of their tags (class, then number; for a CHOICE every alternative in its place), the parsers written with parse_der_set_defined and parse_ber_set_defined read every distinguished encoding (components in ascending order of their tags), and to_vec writes exactly the distinguished encoding of every object made for the type. Outside of that the order matters: a basic encoding with the components in another order is not read, a type that lists its components in another order neither reads nor writes its distinguished encodings, for a type with a CHOICE among its components no order may do, and neither parse_der nor the SET OF functions look at the order of the elements, nor does to_vec arrange them.", "quantifier": "all SET types with any number of components of any type as in C89, mandatory and OPTIONAL, all their values, all following input", "why_tests_cant": "A test fixes one type and one arrangement; the claim is about all permutations of all component lists.", "anchors": ["src/ber/multi.rs:parse_ber_set_defined,parse_ber_set_of", "src/der/multi.rs:parse_der_set_defined,parse_der_set_of", "src/ber/serialize.rs:ber_encode_set"]}
{"id": "C98", "title": "Exactly what a composed parser accepts and returns", "statement": "A parser put together from parse_*_sequence_defined, parse_*_set_defined, parse_*_sequence_of, parse_*_set_of, parse_*_tagged_explicit, parse_*_tagged_implicit, parse_ber_optional, nom's alt and the readers for universal types, after any type, returns on every input without panicking. It accepts an input with a remainder and an object if and only if they are in a relation that is said in terms of elements only: the element has the tag number asked for (its class counts only for explicit tags), its contents begin with the components in their order (what follows the last one is not looked at), the contents of SEQUENCE OF and SET OF are used up, and an OPTIONAL component is absent if and only if no element of its type stands at its place; of a CHOICE one alternative is accepted. Whatever bytes are given, an object that is returned has the shape of its type: the number of components, the variant of each, the tag numbers.", "quantifier": "all types as in C89 of any size (also those with ambiguous OPTIONAL components; the alternatives of a CHOICE have different tag numbers, except for the absence of panics), all inputs, valid or not, both the BER and the DER family", "why_tests_cant": "A test fixes one grammar and a few inputs; acceptance of arbitrary malformed input by arbitrarily composed grammars, and the absence of panics in them, cannot be enumerated.", "anchors": ["src/ber/multi.rs:parse_ber_sequence_defined,parse_ber_set_defined,parse_ber_sequence_of,parse_ber_set_of", "src/der/multi.rs:parse_der_sequence_defined,parse_der_set_defined,parse_der_sequence_of,parse_der_set_of", "src/ber/tagged.rs:parse_ber_tagged_explicit,parse_ber_tagged_implicit", "src/der/tagged.rs:parse_der_tagged_explicit,parse_der_tagged_implicit", "src/ber/parser.rs:parse_ber_optional"]}
{"id": "C99", "title": "The DER parser of a type and the BER parser of the same type", "statement": "Whatever a parser composed from the DER functions accepts, the parser composed in the same way from the BER functions accepts with the same object and remainder. Proved for types without OPTIONAL components and inputs of less than 2^32 octets; false with OPTIONAL components: where a value does not follow DER, the DER parser takes the component as absent while the BER parser reads it. For types whose OPTIONAL components have the distinct tags X.680 asks for: the BER parser accepts too and leaves the same octets, and the results differ only in records that end with absent components in the DER result, of which some are present in the BER result; so they are equal if no record of the DER result ends with an absent component.", "quantifier": "all types as in C89, all inputs", "why_tests_cant": "Relates two parsers for every grammar and every input.", "anchors": ["src/ber/multi.rs", "src/der/multi.rs", "src/ber/tagged.rs", "src/der/tagged.rs", "src/ber/parser.rs:parse_ber_optional"]}
{"id": "C100", "title": "CHOICE by nom's alt", "statement": "The alternatives of a CHOICE, each with the parser composed for it (BER or DER), tried with nom's alt: the first one that does not give a recoverable error decides, and grouping alternatives changes nothing. If the tag numbers of the alternatives are different, the result is that of the one alternative that accepts the input, there is at most one, and the order of the alternatives does not matter. With the same tag number the order matters, since an error inside an element of SEQUENCE OF is not recoverable; with tags that differ in the class only a value of one alternative may be taken for the other.", "quantifier": "any number of alternatives, of any types as in C98, all inputs", "why_tests_cant": "The tests contain one CHOICE of three string types; the claim is about every list of alternatives, every arrangement of it and every input.", "anchors": ["src/ber/multi.rs:parse_ber_sequence_of", "src/ber/tagged.rs", "src/ber/parser.rs:parse_ber_with_tag", "src/der/parser.rs:parse_der_with_tag", "tests/der_parser.rs:parse_directory_string", "tests/constructed.rs:parse_directory_string"]}
{"id": "C101", "title": "The Name parser of the test programs", "statement": "The parser for X.501 names in tests/der_parser.rs reads every distinguished encoding of every name (any number of sets, attributes, any object identifiers and texts of the three string types), leaving what follows, returns the object that holds exactly that name, and writing the object gives the same octets again. On every input it returns without panicking, and what it accepts is given by the relation of C98.", "quantifier": "all names with encodings below 2^32 octets, all inputs, all following input", "why_tests_cant": "The test has one name; the claim is for all of them and for malformed input.", "anchors": ["tests/der_parser.rs:parse_name,parse_rdn,parse_attr_type_and_value,parse_directory_string", "src/der/multi.rs:parse_der_sequence_of,parse_der_set_of,parse_der_sequence_defined", "src/ber/serialize.rs:ber_encode_object"]}
{"id": "C102", "title": "Errors of the BER readers tell the first defect", "statement": "Which error the header reader, the element reader, parse_ber, parse_ber_with_tag, parse_ber_any_with_tag_r and the content reader return for malformed BER is decided by the first thing that is wrong, reading from the left: the exact error and the exact amount of missing input is given by a relation between octets and errors (no identifier octets, endless tag number, reserved or too large length, missing octets, indefinite length of a primitive element, nesting, contents that are no value of their type; in a SEQUENCE or SET the first faulty element decides). The reader returns an error exactly if the relation holds for it.", "quantifier": "all inputs, limits, tags and leaf decoders", "why_tests_cant": "The tests compare a handful of errors; the claim assigns one error to every malformed input, at every depth of nesting.", "anchors": ["src/ber/parser.rs:ber_read_element_header,ber_skip_object_content,ber_get_object_content,parse_ber_recursive,parse_ber_with_tag,ber_read_element_content_as", "src/ber/wrap_any.rs:parse_ber_any_with_tag_r,try_berobject_from_any,try_read_berobjectcontent_as,from_obj_string"]}
{"id": "C103", "title": "Errors of the DER readers tell the first defect", "statement": "Which error the DER header reader, parse_der, parse_der_with_tag and the DER content reader return is decided by the first thing that is wrong, in this order: the header, the size, missing octets, the constraints on BOOLEAN, INTEGER, BIT STRING, strings and times, then the contents as in BER. The exact error is given by a relation, and the reader returns an error exactly if the relation holds for it. For a BIT STRING without contents the answer depends on the octet that follows it.", "quantifier": "all inputs, limits and tags; for parse_der all leaf decoders that do not answer UnknownTag", "why_tests_cant": "The tests check one or two inputs per constraint; the claim assigns one error to every input that is refused and covers every combination of defects.", "anchors": ["src/der/parser.rs:der_read_element_header,der_read_element_content_as,der_read_content_bitstring,der_read_element_content_recursive,parse_der_recursive,parse_der_with_tag"]}
{"id": "C104", "title": "Errors of the combinators tell the first defect", "statement": "Which error the container, SEQUENCE, SET, SEQUENCE OF, SET OF, EXPLICIT, IMPLICIT and slice combinators return is decided by the first thing that is wrong: the header; missing octets, which for a definite length are \"Eof\" and never a request for more; the contents of indefinite length; the class, then the tag, then the form of the header; then the callback. In a SEQUENCE OF or SET OF an error of the element parser becomes a Failure, an incomplete element is \"Eof\" and an element of no octets is \"Many0\". The exact error is given by a relation, in the error type of the caller, and the combinator returns an error exactly if the relation holds for it.", "quantifier": "all inputs, tags, error types and callbacks; for SEQUENCE OF and SET OF all callbacks that return a suffix of their input", "why_tests_cant": "Callbacks and error types are arbitrary, and one error is assigned to every input that is refused; the tests check a few with the error type of the crate.", "anchors": ["src/ber/multi.rs:parse_ber_container,parse_ber_sequence_of_v,parse_ber_sequence_defined_g", "src/der/multi.rs:parse_der_container,parse_der_sequence_of_v,parse_der_sequence_defined_g", "src/ber/tagged.rs:parse_ber_tagged_explicit_g,parse_ber_tagged_implicit_g", "src/der/tagged.rs:parse_der_tagged_explicit_g,parse_der_tagged_implicit_g", "src/ber/parser.rs:parse_ber_slice,parse_ber_implicit", "src/der/parser.rs:parse_der_slice,parse_der_implicit"]}
{"id": "C105", "title": "The number of nested calls is bounded", "statement": "Functions of the crate that call themselves cannot be driven into deep recursion by input octets. Reading an element with limit d nests at most d + 51 calls of ber_skip_object_content and try_berobject_from_any (101 for the functions that expect a tag), whatever the size of the input. Encoding a tree nests at most two calls for every level of the tree, and a decoded tree has at most as many levels as the limit it was decoded with. as_i64, as_i32, as_u64 and as_u32 nest at most two calls for an INTEGER. (The last sentence holds for the outer INTEGER that a DER function accepts and is false for parse_ber: remove_zeroes calls itself once for every leading octet 00, and contents of n octets 00 nest n calls, for every n below 2^32.)", "quantifier": "all inputs, depth limits, trees and decoders of OIDs and times", "why_tests_cant": "The bound is over inputs of every size; tests use small inputs, and a stack overflow caused by many leading zeroes appears only for a large one (and only where the compiler keeps the tail call).", "anchors": ["src/ber/parser.rs:ber_skip_object_content", "src/ber/wrap_any.rs:try_berobject_from_any", "src/ber/integer.rs:remove_zeroes,decode_array_uint8,decode_array_int8", "src/ber/ber.rs:as_i64,as_i32,as_u64,as_u32", "src/ber/serialize.rs:ber_encode_object,ber_encode_object_content"]}
{"id": "C106", "title": "The struct and tagged-integer parsers of constructed.rs accept exactly their type", "statement": "parse_struct01 accepts exactly an element with tag number 16 and definite length whose contents begin with two INTEGER elements, and returns these two; parse_struct01_complete and parse_struct04 accept exactly those of them with nothing behind the integers (parse_struct04 with the tag number it is given), report octets left over as a recoverable Eof error and another tag number as UnexpectedTag or InvalidTag. The parsers for an INTEGER with an explicit tag, with an implicit tag and inside an application tag accept exactly the elements with tag number 2 (not universal if explicit, of definite length if implicit, application for the last) that hold an integer from 0 to 2^32 - 1, and return its value; any other integer gives IntegerNegative or IntegerTooLarge where the parser uses ?, and a MapRes error where it uses map_res. The parser for the application tag refuses an element of another class with UnexpectedClass and another number with InvalidTag, both recoverable.", "quantifier": "all inputs, results and decoders of OIDs and times", "why_tests_cant": "The tests run each of these parsers on at most five inputs.", "anchors": ["tests/constructed.rs:parse_struct01,parse_struct01_complete,parse_struct04,parse_int_explicit,parse_int_implicit,parse_app01", "src/der/multi.rs:parse_der_sequence_defined_g,parse_der_container", "src/ber/tagged.rs:parse_ber_tagged_explicit_g,parse_ber_tagged_implicit_g", "src/der/tagged.rs:parse_der_tagged_explicit,parse_der_tagged_implicit"]}
{"id": "C107", "title": "The Name parser of constructed.rs returns the attributes it can read", "statement": "The parser of X.501 names built from many0 and complete returns, for an element with tag number 16 and definite length, one attribute (object identifier and string) for each relative distinguished name up to the first it cannot read, and never refuses such an element. On every Name that the parser of tests/der_parser.rs accepts and that has no empty relative distinguished name, it returns the first attribute of each. (The claim that a Name is returned with all its attributes or refused is false: a second attribute of a relative distinguished name is dropped, and so is everything from the first unreadable one on.)", "quantifier": "all inputs, results and decoders of OIDs and times", "why_tests_cant": "The test has one Name in which every set has one attribute and all can be read; dropping the rest without an error appears only with other Names.", "anchors": ["tests/constructed.rs:parse_directory_string,parse_attr_type_and_value,parse_rdn,parse_name", "tests/der_parser.rs:x501_parse_name", "src/der/multi.rs:parse_der_sequence_defined_g,parse_der_set_defined_g"]}
{"id": "C108", "title": "Combinators with the program's own error type", "statement": "The parser of custom_error.rs accepts exactly an element with tag number 16 whose contents are INTEGER elements from 0 to 2^32 - 1 to the last octet, and returns their values in order. With the program's error type: an element that is no such integer gives a Failure with the program's error, one that is cut short an Error made with from_error_kind at that place, another tag number the converted BerError. As the comment in the file says, Incomplete must not be mapped: with an element parser that does not answer Incomplete for the empty input, no SEQUENCE OF and no SET OF is accepted by any of the four functions.", "quantifier": "all inputs; for the last sentence also all error types and element parsers", "why_tests_cant": "The test has one input, which is accepted, so no error of the program's type is made; the warning in the comment is about all element parsers.", "anchors": ["tests/custom_error.rs:parse_element", "src/ber/multi.rs:parse_ber_sequence_of_v,parse_ber_set_of_v", "src/der/multi.rs:parse_der_sequence_of_v,parse_der_set_of_v"]}
{"id": "C109", "title": "The readers never return Failure", "statement": "No reader of the crate (header, element, object, of a given type, of contents, machine integers; BER and DER) returns nom's Failure, so alt, opt and many0 around them can always go on. The combinators for containers, SEQUENCE, SET and tags return a Failure only if the callback returned it for the contents of the element at the front; SEQUENCE OF and SET OF only if the element parser returned an Error or a Failure for one of the elements in the contents.", "quantifier": "all inputs, depth limits, tags, lengths, error types, callbacks and decoders of OIDs and times", "why_tests_cant": "Tests see the variant of the error for the few malformed inputs they contain; the claim is about all of them.", "anchors": ["src/ber/parser.rs", "src/der/parser.rs", "src/ber/multi.rs", "src/der/multi.rs", "src/ber/tagged.rs", "src/der/tagged.rs"]}
{"id": "C110", "title": "Reading from a stream with Incomplete", "statement": "A program that gets its input in pieces and calls parse_ber, parse_der or a reader of a given tag again whenever the answer was Incomplete: it gets the same answer as for the whole input, however it is cut, with the same octets left over, and waits for more only if the reader would with all of it. The one exception is a piece that stops inside a long-form tag, where the answer is InvalidTag; it cannot occur for an element of definite length with a short tag. An error other than Incomplete is final: no following octets change it, with the same exception. A program that fetches as many octets as Incomplete asks for reads the octets of the element and not one more. A witness shows that the exception occurs.", "quantifier": "all inputs, all ways to cut them into pieces, tags, depth limits and decoders of OIDs and times (for parse_der those that do not answer UnknownTag)", "why_tests_cant": "Tests cut a few inputs at a few places; the claim is about every input, every sequence of pieces and everything that may follow.", "anchors": ["src/lib.rs:134-135", "src/ber/parser.rs:parse_ber_recursive,parse_ber_with_tag", "src/der/parser.rs:parse_der_recursive,parse_der_with_tag"]}
{"id": "C111", "title": "Composed parsers on a stream", "statement": "A container, SEQUENCE (OF), SET (OF), EXPLICIT, IMPLICIT or slice parser that is given a proper prefix of an element answers Incomplete if the prefix stops in the header or if the length is indefinite (InvalidTag if it stops inside a long-form tag), but reports \"Eof\" with the octets of the contents that are there if the length is definite; so it cannot be called again and again like a reader, and an optional one takes the element for absent: witnesses show both. What it says of a complete element, value or error, does not depend on what follows; so a program that first waits with parse_ber_any until the element is there gets the answer for the whole stream. parse_ber_any, the header readers and the u32/u64/i32/i64 readers give the same answer for pieces as for the whole, with the exception of C110.", "quantifier": "all inputs, prefixes, ways to cut the input into pieces, tags, error types and callbacks", "why_tests_cant": "Tests cut a few inputs at a few places with one callback; the claim is about all cuts, callbacks and continuations.", "anchors": ["src/ber/multi.rs:parse_ber_container", "src/der/multi.rs:parse_der_container", "src/ber/tagged.rs:parse_ber_tagged_explicit_g,parse_ber_tagged_implicit_g", "src/ber/parser.rs:parse_ber_explicit_optional,parse_ber_slice,parse_ber_u32", "src/ber/wrap_any.rs:parse_ber_any"]}
{"id": "C112", "title": "How much the encoder writes", "statement": "Writing an object to a Vec passes, over all the temporary buffers the encoder makes, at most (h + 1) octets to write for each octet of the result, where h is the number of levels of the object; so at most d + 1 for an object that was decoded with recursion limit d (d at least 1 in DER). The EXPLICIT encoder has one level more, the IMPLICIT and the raw one have not. There is no constant factor that serves all objects: for every k some object takes more than k times its encoding (n SEQUENCEs around one string are copied n times).", "quantifier": "all objects with an encoding, all inputs and recursion limits, all k", "why_tests_cant": "A test measures some objects; the bound is for all of them, and that no constant serves is a statement on all constants.", "anchors": ["src/ber/serialize.rs:ber_encode_object,ber_encode_object_content,ber_encode_object_raw,ber_encode_tagged_explicit,ber_encode_tagged_implicit,ber_encode_header,encode_length"]}
{"id": "C113", "title": "Strings in segments", "statement": "Of the basic encodings of a value (ENUMERATED from 0 to 2^32-1, tag numbers below 2^32, at most 49 levels), parse_ber refuses with Unsupported those in which a BIT STRING or a character string is split into segments (not counting what is inside an explicit tag), and reads all others: as the value in which a segmented OCTET STRING is replaced by the octets of its segments, headers included. The value itself comes out exactly if no string outside explicit tags is split, apart from OCTET STRINGs of no segments. The segments, if not split again, can be read with parse_ber from the octets returned, and carry the original octets.", "quantifier": "all abstract values and all their basic encodings within the limits, all following octets, all leaf decoders that accept object identifiers", "why_tests_cant": "Encodings of one value are unboundedly many (segments of segments, long and indefinite lengths); the claim sorts all of them.", "anchors": ["src/ber/wrap_any.rs:try_berobject_from_any,parse_ber_any_r", "src/ber/parser.rs:parse_ber"]}
{"id": "C114", "title": "Targets with a usize of 32 bits", "statement": "On a 32-bit target, for every input that fits the address space, parse_ber, parse_der (with any limit), the readers of one tag, the content readers, the fixed-width integer readers and the containers accept exactly what they accept on a 64-bit target, with the same object and remainder. Where the results differ both are errors: the length is called invalid where the 64-bit target asks for more octets than a 32-bit usize can count, finds the wrong tag, or has met the recursion limit. The encoders (also of headers as they are and of tagged objects) write the same octets and panic on the same objects; the accessors give the same values.", "quantifier": "all inputs, limits, tags, closures, objects and all leaf decoders; widths of 4 octets and more", "why_tests_cant": "Tests run on one target; the inputs on which the targets could differ state lengths of 4 GiB and more, and must be shown to be the only ones.", "anchors": ["src/ber/parser.rs:ber_read_element_header,bitstring_to_u64,MAX_OBJECT_SIZE", "src/der/parser.rs:parse_der_recursive", "src/ber/serialize.rs:encode_length", "src/ber/multi.rs:parse_ber_container"]}
{"id": "C115", "title": "The work of composed parsers", "statement": "A parser composed of the combinators for a type of any shape (sequences, sets, sequences of, OPTIONAL, CHOICE, explicit and implicit tags, leaves of any universal type; BER or DER) reads at most 27 headers per octet of its input and per parser in the composition, whatever the input, although OPTIONAL and CHOICE go back and try again. If it accepts, only the octets of the element count, not what follows. The octets alone give no bound: a CHOICE of n alternatives reads n headers on two octets. It reads at least one header whatever the input, and if it accepts at least one for every element returned and for every OPTIONAL component not found.", "quantifier": "all types of the schema language, all inputs, both rule sets, all leaf decoders", "why_tests_cant": "A blow-up from going back shows only on inputs made for it; the bound is claimed for every composition and every input, hostile ones included.", "anchors": ["src/ber/multi.rs:parse_ber_container,parse_ber_sequence_defined_g,parse_ber_sequence_of_v,parse_ber_set_of_v", "src/der/multi.rs:parse_der_container,parse_der_sequence_defined_g", "src/ber/parser.rs:parse_ber_optional,parse_ber_with_tag", "src/ber/tagged.rs:parse_ber_tagged_explicit_g,parse_ber_tagged_implicit_g", "src/der/parser.rs:parse_der_with_tag"]}
{"id": "C116", "title": "What a decoded object leaves open", "statement": "Two inputs decode to objects equal by == exactly if they have the same identifier octets and contents that differ at most in this: length octets are short, long or indefinite; NULL and end-of-contents have any contents; TRUE is any non-zero octet; an ENUMERATED has leading zeros; a time has another text that the time decoder reads as the same time; and, for SEQUENCE and SET, element by element the same again. Below an element of another class nothing may differ. For the BER and for the DER reader.", "quantifier": "all pairs of inputs, all recursion limits, all leaf decoders (for DER: that raise no UnknownTag error)", "why_tests_cant": "The claim is about all pairs of inputs: that no other difference is lost, and that each of these always is.", "anchors": ["src/ber/parser.rs:parse_ber_recursive,ber_read_element_content_as", "src/ber/wrap_any.rs:try_berobject_from_any,try_read_berobjectcontent_as", "src/der/parser.rs:parse_der_recursive,der_read_element_content_as", "src/ber/ber.rs:BerObject,BerObjectContent"]}
{"id": "C117", "title": "The parsers shown in the documentation", "statement": "The example parsers of multi.rs and lib.rs: parse_myobject accepts exactly an element with the right tag number whose contents begin with an INTEGER from 0 to 2^32-1 and an OCTET STRING, returns these two, and its unwrap never panics; the parsers of two components accept exactly an element whose contents begin with these two; what follows the components is not looked at. The parser with many1 is, as the documentation says, the same as parse_ber_sequence_of. An element of another tag is refused with BerTypeError by the parser built on the container and with UnexpectedTag (both tags) by the others.", "quantifier": "all inputs, both rule sets, SEQUENCE and SET, all leaf decoders", "why_tests_cant": "The doc tests run each example on one input. What is dropped or refused on other inputs, and that unwrap is safe on all of them, is a claim about every input.", "anchors": ["src/ber/multi.rs:parse_ber_sequence_defined,parse_ber_sequence_defined_g,parse_ber_set_defined,parse_ber_set_defined_g,parse_ber_container,parse_ber_sequence_of", "src/der/multi.rs:parse_der_sequence_defined,parse_der_sequence_defined_g,parse_der_set_defined,parse_der_set_defined_g,parse_der_container", "src/lib.rs"]}
{"id": "C118", "title": "Objects made by a program, and comparing them with decoded ones", "statement": "from_obj, from_int_slice, from_seq, from_set, From<Oid> and From<BerObjectContent> give an object with exactly the given contents, of universal class, with the tag number of the contents, constructed exactly for SEQUENCE and SET, length 0 and no raw tag; set_raw_tag changes nothing but the raw tag. An object decoded by parse_ber, parse_der or a reader for one type is == to the object a program makes with these functions from its contents (members rebuilt in the same way) exactly if every object in it is of universal class and is constructed exactly if it is a SEQUENCE or SET; length forms, length values and long-form tags do not matter.", "quantifier": "all contents; all inputs, recursion limits and accepted objects", "why_tests_cant": "Tests of the crate use this comparison on single inputs; the claim says for which of all inputs it is meaningful.", "anchors": ["src/ber/ber.rs:from_obj,from_int_slice,set_raw_tag,from_seq,from_set,From", "src/ber/ber.rs:PartialEq"]}
{"id": "C119", "title": "Implicitly tagged values in the documentation and in the tests", "statement": "Reading the header and then the contents with parse_ber_content (as the tests of issue 76 do) accepts exactly an element of any class, tag number and length form whose contents are those of the type told. The IMPLICIT combinator with parse_ber_content gives the same contents and rest for elements of definite length with the right tag number, and accepts nothing else. The parsers of the documentation and the tests with an implicit tag (INTEGER, OCTET STRING, IA5String; BER and DER) accept exactly an element of definite length with that tag number, whatever its class, with contents of that type (primitive for IA5String; no superfluous leading zero octet for a DER INTEGER), and return its header and these contents.", "quantifier": "all inputs, tag numbers and types, both rule sets, all leaf decoders", "why_tests_cant": "Each of these parsers is run on one or two inputs by the tests.", "anchors": ["tests/issue-76.rs", "tests/der_parser.rs:test_der_implicit,test_der_implicit_long_tag", "src/ber/serialize.rs:test_encode_tagged_implicit", "src/ber/parser.rs:parse_ber_content,parse_ber_implicit", "src/der/parser.rs:parse_der_content,parse_der_implicit", "src/ber/tagged.rs:parse_ber_tagged_implicit_g", "src/der/tagged.rs:parse_der_tagged_implicit_g"]}
{"id": "C120", "title": "Checking for DER by writing back", "statement": "A program that wants to know whether octets are DER can decode them with parse_ber, write the object with to_vec and compare. For an object that has a value within what the encoder writes and is strict (leaves primitive, elements of other classes constructed, INTEGER minimal, unused bits of a BIT STRING zero, RELATIVE-OID not empty), the octets are the distinguished encoding of that value exactly if to_vec gives them back. Every distinguished encoding (nested at most 49 deep) decodes to a strict object and is given back. Without the conditions on INTEGER, BIT STRING, primitive leaves or constructed elements of other classes the comparison is not enough: an example of each is given back although it is not DER.", "quantifier": "all octet strings shorter than 2^64, objects and abstract values, all leaf decoders (accepting object identifiers, for completeness)", "why_tests_cant": "The round-trip tests compare a few encodings with themselves; that no other octets of any value survive the comparison is a statement about all of them.", "anchors": ["src/ber/parser.rs:parse_ber", "src/ber/serialize.rs:ber_encode_object,ber_encode_header,ber_encode_object_content,to_vec"]}
{"id": "C121", "title": "Where a decoded object borrows its octets", "statement": "Objects borrow from the input and the slices are where the encoding puts them. With slices that know their address, the readers (parse_ber, parse_der and the typed ones) give the results of the model without addresses, in every case. The raw tag of every object, at every depth, is borrowed from the first octets of its element, the contents it keeps from the octets behind its header (a BIT STRING from the second one), the members of a SEQUENCE or SET lie one behind the other in its contents, and what is left begins behind the element. So every borrowed slice lies inside the element, no two overlap, they come in the order of the objects, and together they are no longer than the element.", "quantifier": "all inputs at all addresses, all nesting limits and types asked for, all leaf decoders", "why_tests_cant": "The tests compare octets, never addresses.", "anchors": ["src/ber/parser.rs:ber_get_object_content,parse_ber,parse_ber_recursive,parse_ber_with_tag", "src/ber/wrap_any.rs:try_berobject_from_any,try_read_berobjectcontent_as", "src/der/parser.rs:parse_der,parse_der_recursive,parse_der_with_tag,der_read_element_content_as,der_read_content_bitstring", "src/ber/ber.rs:BerObject,BerObjectContent"]}
{"id": "C122", "title": "Octets of a decoded value can be overwritten in place", "statement": "Let parse_ber decode an element, and let a value in it, at any depth, of definite length and of a kind that can hold any octets (INTEGER, OCTET STRING, UniversalString, the bits of a BIT STRING, contents left undecoded) borrow the slice s. If the octets of s in the input are overwritten by as many others, at the address s has, parse_ber gives the same object with the new octets in this value and everything else as before, and leaves the same rest; lengths around the value may be definite or not. The same holds of parse_der, if an INTEGER or BIT STRING that is itself the element given keeps to DER.", "quantifier": "all inputs at all addresses, all values inside, all new octets, all nesting limits and leaf decoders", "why_tests_cant": "No test overwrites octets of the input.", "anchors": ["src/ber/parser.rs:ber_skip_object_content,ber_get_object_content,parse_ber,parse_ber_recursive", "src/ber/wrap_any.rs:try_berobject_from_any", "src/der/parser.rs:parse_der,parse_der_recursive,der_read_element_content_as"]}
{"id": "C123", "title": "Decode, edit with a mutable visitor, encode, decode", "statement": "Let parse_ber decode an object without times, and let a mutable visitor edit it, keeping variants, putting valid contents of the same type in the place of such contents, and leaving class, form and tag of undecoded elements. Then the run ends with the object in which exactly the visited leaves are replaced; encoding it succeeds unless a header to be written has a tag number above 30, in which case it panics as it does for the decoded object; and parse_ber of what is written gives the edited object, up to lengths and raw tags, and leaves nothing. The stale lengths in the headers of the decoded object do no harm.", "quantifier": "all inputs, all such edits (functions of content and depth), all nesting limits, all leaf decoders that are blind to the length field", "why_tests_cant": "No test of the crate edits an object and writes it.", "anchors": ["src/ber/visit_mut.rs:VisitMut,visit_ber_bfs_mut", "src/ber/serialize.rs:ber_encode_object,ber_encode_header,to_vec", "src/ber/parser.rs:parse_ber,parse_ber_recursive"]}
{"id": "C124", "title": "Comparing a decoded object identifier with an oid! constant", "statement": "An identifier read by parse_ber, parse_der, or the BER and DER readers for object identifiers and relative object identifiers equals the constant that oid!(...) makes from dotted text exactly if the element has tag number 6 and its contents octets encode the components of the text; for oid!(rel ...) exactly if it has tag number 13 and its contents encode them. Where the decoded object denotes an identifier, equality with a constant of the same kind is equality of components, and with one of the other kind it is false. Comparing the octets with oid!(raw ...) decides only whether the contents encode the components: a relative identifier can match. Every relative identifier has a constant; an absolute one has exactly if its second component is below 40.", "quantifier": "all inputs, texts, component lists and decoders of OIDs and times", "why_tests_cant": "The tests compare a handful of identifiers; the false match with a relative identifier is only warned about in UPGRADING.md.", "anchors": ["src/lib.rs:oid!", "der-oid-macro/src/lib.rs:encode_oid,encode_components", "UPGRADING.md:107-122", "src/ber/ber.rs:as_oid", "src/ber/parser.rs:parse_ber_oid,parse_ber_relative_oid"]}
{"id": "C125", "title": "The parser with an optional component of der_parser.rs", "statement": "The parser of test_der_optional (parse_ber_optional of parse_der_enum, then parse_der_integer, in parse_der_sequence_defined) accepts exactly an element with tag number 16 and definite length whose contents begin with a primitive ENUMERATED of value below 2^32 and an INTEGER, or with an INTEGER, in the form the DER readers check; it returns a SEQUENCE of two objects, the first Optional(Some(..)) with the header of the ENUMERATED or Optional(None) with an empty header. Octets behind the INTEGER are ignored. If the contents begin with a definite header with tag number 10 but not with such an ENUMERATED, the error is the recoverable UnexpectedTag for an INTEGER: the malformed optional component is reported as absent.", "quantifier": "all inputs, results and decoders of OIDs and times", "why_tests_cant": "The test runs the parser on two inputs, none of them refused.", "anchors": ["tests/der_parser.rs:test_der_optional", "src/ber/parser.rs:parse_ber_optional", "src/der/multi.rs:parse_der_sequence_defined", "src/der/parser.rs:parse_der_enum,parse_der_integer"]}
