# Formal model of der-parser: design

Rocq/Coq 8.16.1, plain standard library (`List`, `NArith`, `ZArith`, `lia`).
Build: `cd rocq && coq_makefile -f _CoqProject -o Makefile && make -j4`.

## 1. Layout

Model (every definition cites the lines of `/repo` it stands for):

| file (rocq/theories) | contents |
|---|---|
| `Base.v` | Rust/asn1-rs/nom data types: results, headers, tags, errors, objects |
| `Asn1rs.v` | the functions of asn1-rs 0.7 and nom 7 the crate calls (trusted, see 3) |
| `Ber.v` | `src/ber/parser.rs`, `wrap_any.rs`, `integer.rs`, `ber.rs` |
| `Der.v` | `src/der/parser.rs` |
| `Typed.v` | the readers of one given type, header queries, `as_bitslice` |
| `Combinators.v` | `src/ber/multi.rs`, `src/ber/tagged.rs`, `src/der/multi.rs`, `src/der/tagged.rs`, optional/implicit parts of the parsers, for callbacks without state |
| `Stateful.v` | the same combinators for `FnMut` closures: the callback takes and returns a state |
| `Serialize.v` | `src/ber/serialize.rs` |
| `Visit.v` | `src/ber/visit.rs`, `src/ber/visit_mut.rs`, iterators, list operations |
| `Print.v`, `PrintText.v`, `PrintWrite.v` | `src/ber/print.rs`: which objects are entered, the text, and printing to a writer that may fail |
| `Equal.v` | `==` on objects (derived `PartialEq`) |
| `Dump.v` | `examples/dump-der.rs` |
| `X501.v` | the X.501 name parser of `tests/der_parser.rs` |
| `Programs.v` | the parsers of `tests/constructed.rs` and `tests/custom_error.rs` |
| `Located.v` | the element readers on slices with addresses, returning the slices an object borrows |
| `DocPrograms.v` | the parsers shown in the documentation of `multi.rs` and `lib.rs` |
| `ImplicitPrograms.v` | the parsers of implicitly tagged values in the documentation and the tests |
| `Writer.v` | the encoder for any writer (`W: Write + Default + AsRef<[u8]>`) |
| `Cost.v` | the readers of `Ber.v` and `Der.v` with a count of the headers read |
| `CostEnc.v` | the encoder of `Serialize.v` with a count of the octets passed to `write` (growth of a `Vec` not counted) |
| `CostComb.v` | the combinators of `Combinators.v` with the count of `Cost.v` |
| `Width.v` | the functions whose result can depend on the width of `usize`, for any width |
| `Stack.v` | the functions that call themselves, with the number of nested calls (for C105) |
| `OidMacro.v` | `der-oid-macro/src/lib.rs`: reading the macro's input, `encode_components`, the text it prints |
| `OidConst.v` | `src/lib.rs`: what `oid!` makes of the octets (rules of `asn1_rs::oid!` from memory) |
| `OptionalProgram.v` | the parser of `test_der_optional` in `tests/der_parser.rs` |

Specification, theorems, tests:

| file | contents |
|---|---|
| `Spec.v`, `SpecValue.v` | X.690 octets, elements and values (see 2) |
| `SpecComb.v`, `SpecState.v`, `SpecSer.v`, `SpecVisit.v`, `SpecOid.v`, `SpecTyped.v`, `SpecPrint.v`, `SpecEqual.v`, `SpecSize.v`, `SpecError.v`, `SpecLocated.v` | what combinators, closures, encoder, visitors, oid macro, typed readers, printer and equality should do; size of trees; which error a malformed input deserves; where slices lie |
| `SpecDump.v` | the lines that show a file and the objects inside it |
| `SpecRead.v` | what a program finds that reads a decoded value through the accessors |
| `SpecSchema.v` | types (SEQUENCE and SET with OPTIONAL components, SEQUENCE OF, SET OF, CHOICE, tagging), the encodings of their data, the objects that hold the data |
| `SpecAccept.v` | which inputs are accepted as a type, with what object and remainder; the shape of an object of a type |
| `SpecOptional.v` | how the results of the DER and the BER parser of a type may differ |
| `SpecAlike.v` | which encodings decode to equal objects |
| `SpecAbstract.v` | abstract ASN.1 values and all their X.690 encodings; which value an object denotes |
| `SpecSegment.v` | what an encoding with segmented strings looks like to a reader that does not join segments |
| `SpecExact.v` | the values the readers return unchanged, and the objects built for any value |
| `Lem*.v` | shared lemmas |
| `Prop*.v` | the property theorems, each followed by `Print Assumptions` and a non-vacuity `Example` |
| `Conformance.v` | the vectors of `/repo/tests` run against the model (tests, not proofs) |

Conventions: a parser is a total Gallina function `bytes -> iresult E A`.
`res` has four values: `Ok`, `Err`, `Panic` (a Rust panic, e.g. an index out of
range, a failed `assert!`, `unimplemented!()`), `Diverge` (a loop whose bound in
the model ran out; Rust has no bound there).  A `u8` is an `N`; a theorem that
needs it has the hypothesis `bytes_ok` (all elements below 256).  `usize` is 64
bits, except in `Width.v` (C114).  Recursion depth is a `nat`, structural.  Every theorem about parsers is
quantified over `L : leaves`, the record of the leaf decoders left abstract.

## 2. Specification style

`Spec.v` does not use the parser's functions.  It contains

* X.690 identifier octets and length octets as *relations* between octets and
  (class, constructed, tag) / length;
* `element d bs h c`: `bs` is a TLV with header `h` and content octets `c`, inductive,
  depth-indexed, including indefinite-length elements;
* the two's-complement value of octets (a sum over bit weights), the list of bits of an
  octet string most significant first, base-128 digits;
* UTF-8 and UTF-16 as encodings of lists of Unicode scalar values;
* the list of children paths of an object tree (for visitors), `strip` (erase
  length and raw tag of headers, for round trips).

## 3. Trusted base

* Coq's kernel (8.16.1).  `Print Assumptions` is run under every property
  theorem; the expected answer is "Closed under the global context" for all of
  them, and it is what Coq prints for all of them: no theorem depends on any
  axiom.  The library lists seven constants `Coq.ssr.ssrunder.Under_rel.*` as
  axioms of a standard-library module; `lia` (through its imports) loads that
  module, and no proof uses them.  No axioms of our own, no `Admitted`.
* The reading of `/repo` into `Ber.v`, `Der.v`, `Combinators.v`, `Serialize.v`,
  `Visit.v`, `Print.v`, `PrintText.v`, `OidMacro.v`, `OidConst.v`, `Typed.v`, `Stateful.v`:
  each definition cites the lines it models.
* `Asn1rs.v`: asn1-rs 0.7, nom 7, num-bigint, cookie-factory are not in the
  sandbox.  Their behaviour is written from their published source and
  documentation.  `Conformance.v` runs the test vectors of `/repo/tests`
  through the model, which cross-checks these assumptions (error values
  included) but does not prove them.  In detail, assumed:
  * `Header::from_ber/from_der` (identifier: class bits, constructed bit, low tag or
    at most 5 subsequent octets, accumulated in a wrapping `u32`, exhaustion reported as
    `InvalidTag`; length: short, `80`, `FF` rejected, long form up to 126 octets
    with value below 2^64);
  * `Any::from_ber` skips content with the same algorithm as the crate's copy
    and its own limit of 50; `Any::from_der` takes a definite length with `take`;
  * `Any::bool`, `Any::enumerated`, the charset tests of Numeric, Visible,
    Printable, IA5, UTF8 strings, `String::from_utf16`;
  * the integer conversions of asn1-rs used by `parse_ber_u32` etc. and the
    DER integer constraints;
  * `SequenceIterator`/`SetIterator` stop at the first error;
  * the checks of OIDs, times and loosely checked string types are
    *arbitrary* functions (record `leaves`): the theorems hold for every choice;
  * nom's `take` (streaming/complete), `be_u8`, `cut`, `complete`, `many0`, `alt`,
    `all_consuming`, `map`, `map_res`, `eof`, and the `From` conversions between
    `Error` and `nom::Err<Error>`;
  * `PartialEq` of `Header` (lengths are compared only if both are zero, raw tags
    only if both are present), `Any`, `Oid`, `ASN1DateTime` (all fields);
  * cookie-factory's `slice` and `be_u8` call `write` once and answer `BufferTooSmall`
    on a short count; a `Vec<u8>` takes everything; `ArrayVec` takes what fits;
    `&mut [u8]` overwrites its front and keeps the rest, its `Default` is empty;
    num-bigint's byte conversions are exact.
* Hypotheses some theorems put on the abstract leaf decoders, true of asn1-rs:
  `no_unknown_tag` (the OID and time decoders never answer `UnknownTag`),
  `length_blind` (the OID decoders do not look at the length field of the
  header).  Encoder theorems assume that the bytes written number less than
  2^64.  Theorems on the printer quantify over `texts`, the `Display`/`Debug`
  output of types of other crates.
* Abstract values (C82-C86) leave out times, REAL, EXTERNAL, loosely specified strings and
  implicit tags; the order of SET elements is free there (C97 is about the order).
* Not modelled: the Rust tokenizer in front of `oid!` and behind it (the model
  starts from the token text and ends with the printed one; `trim` removes ASCII white space only);
  `std::error::Error`/`Display` text of errors; lifetimes (outside `Located.v` a sub-slice is
  modelled by equality of contents, see C07; C121 has the addresses); performance, memory and native stack use (C79 and C115 count headers, C112 octets written, C105 nested calls of the source
  text in the readers, the integer accessors and the encoder; frames are not sized);
  feature gates (all features on);
  `fuzz/` (its targets call the parsers on arbitrary
  octets and ask that they return, which is C01); failing output in
  `examples/dump-der.rs`.

## 4. Plan per property

"refuted" means: the English statement is false of the code; a
`C.._refuted` theorem gives a witness and `C.._partial` theorems prove what is true.

| id | how |
|---|---|
| C01 | every parser of the model is never `Panic`/`Diverge`; induction on depth and on input length (each loop round consumes a byte); combinators under the hypothesis that callbacks are total |
| C02 | soundness of the parsers against `element`: consumed prefix = header octets ++ content octets |
| C03 | `f i = Ok (r,o) -> f (i ++ x) = Ok (r ++ x, o)` by the completeness direction of C02 |
| C04 | from C03 |
| C05 | induction: nesting of the result bounded by the limit; converse rejection |
| C06 | monotonicity in the fuel/depth, induction on depth |
| C07 | every byte string in the object is a factor (`infix`) of the consumed input, induction |
| C08 | equivalence of `ber_read_element_header`/`der_read_element_header` with the relations of `Spec.v`, both directions |
| C09 | from completeness of the skip loop on a concatenation of elements |
| C10 | refuted (`30 80 80 00`: a context-specific empty [0] ends the content; three-octet end-of-contents leaves a stray octet); partial: when the terminator read is `00 00` the content is exact |
| C11 | case analysis over the tag table written independently in `Spec.v` |
| C12 | direct; agreement of `parse_ber_with_tag` with `parse_ber` through the lemma that the two content skippers are equal |
| C13 | refuted (`82 01 05` accepted by `parse_ber_integer`); partial: the tag number and (for tagged explicit) class are checked |
| C14 | two's-complement arithmetic, induction on octets |
| C15 | refuted (`as_i64` of 2^63 returns a negative number; `FF..` with redundant sign octets rejected); partial: exact whenever the value fits and the sign-extension is not longer than the type / non-negative in range |
| C16 | arithmetic |
| C17 | MSB-first bit lists |
| C18 | MSB-first bit lists, `N.testbit` |
| C19, C20 | arithmetic; uniqueness of minimal two's complement |
| C21 | direct |
| C22 | refuted (`02 02 FF FF` accepted); partial: not empty, no redundant leading zero |
| C23 | refuted (`03 01 07`); partial: the rest |
| C24 | proved for the DER functions; refuted for `parse_der_explicit_optional` and `parse_der_implicit`, which call the BER containers, and for `der_read_element_content` under a given header of another class |
| C25, C26 | direct |
| C27 | refuted (`30 03 01 01 01`); partial: SEQUENCE/SET contents are only BER-checked |
| C28 | from C06-like lemmas; equality up to the raw tag inside `Unknown` |
| C29-C34 | specification of containers as "split off one element, run the callback on the content"; induction for `many0` |
| C35-C38 | inverse functions; structural induction on objects (nested lists); `Panic` characterised |
| C39, C40 | from C35 and C36 |
| C41 | refuted (EndOfContent encodes `00 01 00`, Optional(None) encodes `00 00`, UTCTime prints a four-digit year) |
| C42 | call trace = list computed from paths; each path once, lexicographic order |
| C43 | refuted (Tagged, Optional are not entered) |
| C44 | induction |
| C45, C46 | induction on number of `next` calls; C46 refuted for an empty SEQUENCE |
| C47, C48 | repertoire predicates; UTF-8/UTF-16 decoders against encodings of scalar values |
| C49 | direct; `parse_ber`/`parse_ber_recursive` do not have the limit (noted) |
| C50 | refuted (indefinite length; class ignored); partial: definite-length universal elements |
| C51 | case analysis |
| C52 | invariant of the bit-packing loop: base-128 digits; injectivity on the valid range |
| C53 | induction over operation sequences |
| C54 | refuted both ways (`Incomplete` on a doomed input; `InvalidTag` on a truncated high tag); partial: induction over the skipping of elements, with the number of octets asked for |
| C55, C56 | both directions: induction on depth for soundness, on the value relation for completeness |
| C57, C58 | from C36 and C55: an object is determined by its canonical octets; the converse by induction on values, elements being prefix-free |
| C59, C60 | structural induction over objects with a stateful visitor |
| C61 | printing then reading a list of arcs; the reader rejects everything else |
| C62 | one table of readers with the tag of each; iff against `element` and `value` |
| C63, C71 | case analysis on the identifier octet |
| C64 | bit lists, most significant first |
| C65-C68 | structural induction over objects, indentation as a parameter |
| C69 | refuted (no end-of-contents octets are written); partial for definite lengths; which elements are written back: C57 |
| C70 | iff for BER and DER; IMPLICIT under an indefinite length is never read (refutation), because contents end in one place only |
| C72, C73 | the list of calls is derived from the outcome; induction on the `many0` loop |
| C75 | from the soundness and completeness of the element reader |
| C76, C78 | structural induction over two trees; C78 refuted (raw tags present in one object only) |
| C77 | induction over the value relation |
| C80 | a relation between writer function and octets kept by every step, induction on the tree |
| C81 | refuted (`&mut [u8]`); for fixed capacity by induction on the tree |
| C79 | the counting readers give the same results; induction on the limit, two octets paid per header; from below, one header per object, and no other where lengths are definite |
| C82, C83 | induction over the encoding relation, through `element`/`value` and C55, C56; refuted for segmented strings and negative ENUMERATED; C83_exact cuts an element and an encoding of the same input at the same place and goes down both |
| C84 | C14-C20 with the octets replaced by the integer; refuted for `as_i64` |
| C85 | induction over objects; refuted for ENUMERATED; C85_exact compares what is written with the encoding, member by member |
| C86 | encodings can be cut off uniquely (induction over two derivations); distinguished ones are unique |
| C87 | the rewriting as an inductive relation, equivalent to the walk; termination refuted, proved for visitors that do not deepen the tree |
| C88 | induction over the encodings: uniqueness of the element at the front, inversion of the decoded value, then the accessor theorems (C14-C18, C52, C61) |
| C89 | induction over the encodings of a type; shape of an encoding (one element, its tag number, what ends an indefinite length), then the exactness theorems of the combinators (C12, C30-C33, C70) |
| C90 | induction over the made objects: the encoder writes the distinguished encoding; then C89 |
| C91 | the decoded object stands for the value (strengthened induction of C82, C83 and C89), so the encoder writes the one distinguished encoding (C86); induction over the objects |
| C92 | the loop with its fuel against an inductive account of the lines; induction on the size of the octets still to be shown, then on the object |
| C93 | octets used per level; refuted, and unbounded, by octet strings in one another |
| C94 | mutual induction over the lines; refuted for primitive octet strings |
| C95 | uniqueness of the reading of an array literal (first comma, blanks at both ends), digit by digit |
| C96 | every function of the printer hands over a text in order: closed under sequencing; induction over objects |
| C97 | a list has one ascending arrangement, so the distinguished encodings are those in the order of the type; then C89, C90; witnesses for the other orders |
| C98, C99 | induction over types and component lists; each combinator by its exactness theorem (C30, C31, C32, C70), the total theorems of C01 for OPTIONAL; C99 by comparing the two relations; with OPTIONAL, an element the DER parser passed over has a tag no later component can begin with, so those are all absent |
| C100 | an element's tag number decides which alternative can accept it (from the relation of C98); every other alternative gives a recoverable error that `alt` forgets; witnesses for equal tag numbers |
| C101 | the parser is the one composed for a type: instances of C89, C90 and C98 |
| C102 | `SpecError.v` relates octets to errors; one direction walks the code (induction on limit and fuel), the other is by induction on the derivation |
| C103 | the checks of the DER reader fail, or hold and the BER reader decides (C102) |
| C104 | a combinator finds an element or one of the faults of C102 and C103; then its check of the header; then the callback; induction over the element loop |
| C105 | induction on the depth limit for the readers, on the octets for `remove_zeroes`, on the size of the tree for the encoder; the limit bounds the height of a decoded tree; a family of inputs `02 84 n 00…00` refutes a bound for the accessors |
| C106 | the exactness theorems of the combinators (C30, C31, C70) and of the readers (C98); the value by C14 |
| C107 | the loop of `many0` against an inductive account of the longest series; no step fails hard (C109); the element of the other parser is accepted by BER rules too (C99) |
| C108 | instances of C32, C33 and C34 for the program's error type; which elements are cut short from C102 |
| C109 | no constructor of the faults of C102 and C103 carries a `Failure`; the combinators case by case from C104 |
| C110 | both loops by induction on what is still unread; an error stays by induction on the faults of C102 and C103, an object by C03; how much is asked for from the cuts of C54 |
| C111 | a container by cases on where the prefix stops: the header by C110, indefinite contents by C54; the other combinators are containers; what follows an element by C33 |
| C112 | induction over objects and contents: a level adds one copy of its contents and two of its header; for decoded objects C105; the witness by induction on the number of SEQUENCEs |
| C113 | inductions over the derivations of `SpecSegment.v`; reading by C55, refusal by C102; a segment is longer than what it carries |
| C114 | a relation between the results on the two targets, kept by `?`; induction on limit and fuel, every slice being no longer than the input; the encoder by induction over objects; witness: a BIT STRING of 2^29 octets |
| C115 | induction over types: a parser's work is bounded by the octets it was given, and by those of the element where it accepts; the octets of the elements of a sequence add up; alternatives add their sizes; from below, one header per element returned |
| C116 | equal objects have the same header tags and the same erased contents (C76); mutual induction over values one way and over `alike` the other |
| C117 | the containers by their exactness theorems, the integer readers by C19 and C20, the OCTET STRING by the exactness of the typed readers; `many1` against the longest leading series, as `many0` in C107; `parse_ber_sequence_of` by C32 |
| C118 | type numbers from the table of C11; the comparison by induction on the tree, with C11 for the tag of every inner object and C76's lemma for headers |
| C119 | C70 and C31; contents without their end-of-contents octets contain no end (uniqueness of where contents end, C70) |
| C120 | strict objects with a value stand for it (induction over `denotes`), then C85; the witnesses for the conditions compare with the encoding of the same value |
| C121 | located readers simulate those without addresses, step by step; `placed` by induction over depth and iteration; the rest by induction over `placed` |
| C122 | mutual induction over the exchange of octets: bodies, series and ends of contents stay where they are; then C55, C56, C121 |
| C123 | C60, then: an edit keeps objects well formed and their headers; C36 and C38 |
| C124 | C52, C55, C56, C61; encodings of components are unique (LemUnique) |
| C125 | exact readers for the two element types (C62), der container lemma of C30 |
| C74 | a state that the answers do not depend on: simulation between the two models |

Every property is expressible in the model; none is "not applicable".

## 5. Wrong programs

`seeded/LOG.jsonl` has one line per edited model: the definition, the edit, the
claim it breaks, the theorems that no longer go through and the theorems that were
tightened as a result.  "Failed" counts a theorem whose own proof breaks and
every theorem that uses a lemma whose proof breaks, so the list over-approximates;
the theorems of the broken claim are looked at one by one.

## 6. Findings

What the proofs showed about the program (witnesses are the `_refuted` theorems,
or the examples next to the theorem named).

Readers
* The typed readers ignore the class of the tag: `82 01 05` is an INTEGER (C13).
* NULL with content is accepted; a constructed OCTET STRING is returned raw (C11).
* High tag numbers wrap modulo 2^32 (C08).
* Any header with tag number 0 and length 0 ends indefinite content, whatever its
  class; a terminator with long-form length leaves stray octets (C10).
* `Incomplete` neither implies nor follows from "more input helps": `30 02 02 01`,
  `02 89 ff`; a cut long-form tag gives `InvalidTag` (C54).
* `as_i64` wraps values in [2^63, 2^64) and refuses long encodings of small
  negative numbers (C15).
* The Name parser of `tests/constructed.rs` drops attributes without an error (C107).
* A BIT STRING in segments is refused, an OCTET STRING in segments is returned with
  the segment headers inside (C82); ENUMERATED -1 is decoded as 255 (C83).
* VisibleString lets DEL through (C47).
* On 32-bit targets `as_u64` of a BIT STRING of 2^29 octets panics or gives 0 (C114).

DER
* `02 02 FF FF` and `03 01 07` are accepted (C22, C23).
* Elements inside a SEQUENCE or SET are decoded as BER (C27).
* `parse_der_explicit_optional`, `parse_der_implicit` and, for other classes,
  `der_read_element_content` accept indefinite lengths (C24).
* `parse_der_with_tag` on BIT STRING has no size limit (C49).
* `parse_der` of a BIT STRING succeeds with a depth limit of 0 (C05).
* The error for the empty BIT STRING `03 00` depends on the octets after it:
  `Incomplete`, `InvalidLength` or `InvalidValue` (C03, C62).

Combinators
* SEQUENCE OF needs an element parser that answers `Incomplete` on empty input;
  another error is a failure, success without progress a `Many0` error (C32).
  The closure is called once more on the empty rest (C73).
* IMPLICIT with `parse_ber_content` fails on indefinite lengths:
  `a1 80 04 01 05 00 00` (C70).
* The optional combinators change their answer when input is appended (C03).

Encoder
* The ENUMERATED encoder is not X.690: 0 is written without content, 128 as
  `80`, values from 2^32 on cannot be read back (C37, C41).
* Tagged and Unknown lose their class when re-created from content (C37).
* EndOfContent is written `00 01 00`, Optional(None) `00 00`, a UTCTime with a
  four-digit year (C41).
* A primitive header with indefinite length is written and cannot be read (C35);
  the raw encoder writes no end-of-contents (C69).
* `ber_encode_object` compiles for `&mut [u8]` and always fails there (C81).

Traversal and printing
* Objects inside Tagged and Optional are never visited (C43); the iterator of an
  empty SEQUENCE yields the SEQUENCE itself (C46).
* A mutable visitor that nests objects deeper never ends (C87).
* `VisitMut` cannot change strings and times through its callbacks (C60).
* `as_bitslice` includes the unused bits (C64).
* The printer separates members without a newline of its own, labels every Tagged
  "ContextSpecific", and picks "Sequence" or "Set" by the header's tag (C65).

Dump example
* It re-parses the contents of octet strings with a fresh depth limit, so its depth is
  bounded by the size of the file only (C93).
* What follows the objects in a primitive OCTET STRING is dropped without a
  word: `04 03 05 00 ff` (C94).  BIT STRINGs are not searched, although its
  comment says so (C92).

Equality
* `==` ignores lengths and is not transitive: `04 01 07` and `1f 04 01 07` differ, and
  both equal an OCTET STRING built by hand (C78).

oid!
* Arcs 2.40 and above panic (2.999 cannot be written), root arcs 3 to 6 are
  accepted, 6.16 and above overflow; `[0]` and `[0, 0]` give the same octets (C52).
* Numbers may be written `+1` or `1_000` (C61).
