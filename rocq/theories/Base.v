(** * Base types of the model.

    Rust types used by /repo and the value types of its dependencies
    (asn1-rs 0.7, nom 7), as plain Gallina data.

    Conventions (see DESIGN.md):
    - a [u8] is an [N]; theorems that need it carry the hypothesis [bytes_ok]
      (every element below 256), which every Rust slice satisfies;
    - [usize] is 64 bits wide and is an [N] (a [nat] when it is a recursion
      depth or a slice length);
    - [Result] is data; a Rust panic is the explicit value [Panic] and an
      exhausted loop bound of the model is the explicit value [Diverge]
      (theorem C01 shows that neither is ever produced by a parser). *)

From Coq Require Export List NArith ZArith Arith Bool Lia.
Export ListNotations.
Open Scope N_scope.

(** A Rust slice [&[u8]], the input type of every parser (e.g. /repo/src/error.rs:19).
    *)
Definition bytes := list N.

(** Every element of a slice is a u8. Used for /repo/src/error.rs:19 ([&'a [u8]]). *)
Definition bytes_ok (s : bytes) : Prop := Forall (fun b => b < 256) s.

(** [slice.len()] as a [usize] (e.g. /repo/src/ber/wrap_any.rs:66). *)
Definition nlen (s : bytes) : N := N.of_nat (length s).

(** ** Results *)

(** [res E A]: Rust's [Result<A, E>] plus the two abnormal outcomes. Used for
    [BerResult] and [Result<_, BerError>], /repo/src/error.rs:19-24; a panic is e.g.
    the [assert!] of /repo/src/ber/parser.rs:63. *)
Inductive res (E A : Type) : Type :=
| Ok (a : A)
| Err (e : E)
| Panic
| Diverge.
Arguments Ok {E A}. Arguments Err {E A}. Arguments Panic {E A}. Arguments Diverge {E A}.

(** Rust's [?] operator (e.g. /repo/src/ber/parser.rs:235-243). *)
Definition bind {E A B} (r : res E A) (k : A -> res E B) : res E B :=
  match r with
  | Ok a => k a
  | Err e => Err e
  | Panic => Panic
  | Diverge => Diverge
  end.

(** [Result::map_err] and the error conversion of [?] (e.g.
    /repo/src/ber/multi.rs:520). *)
Definition map_err {E F A} (f : E -> F) (r : res E A) : res F A :=
  match r with
  | Ok a => Ok a
  | Err e => Err (f e)
  | Panic => Panic
  | Diverge => Diverge
  end.

Notation "'let*' p := e 'in' k" := (bind e (fun p => k))
  (at level 200, p pattern, e at level 100, k at level 200, right associativity).

(** nom 7 [nom::Err<E>]; [Needed] is [Some n] for [Size(n)], [None] for [Unknown].
    Used at /repo/src/error.rs:19 and /repo/src/ber/parser.rs:5. *)
Inductive nerr (E : Type) : Type :=
| Incomplete (needed : option N)
| Error (e : E)
| Failure (e : E).
Arguments Incomplete {E}. Arguments Error {E}. Arguments Failure {E}.

(** nom 7 [Needed::new]: zero becomes [Unknown]. Used at /repo/src/ber/wrap_any.rs:68
    and /repo/src/der/parser.rs:491. *)
Definition needed_new (n : N) : option N := if n =? 0 then None else Some n.

(** nom 7 [IResult<&[u8], O, E>]. /repo/src/error.rs:19 [BerResult]. *)
Definition iresult (E A : Type) := res (nerr E) (bytes * A).

(** ** Headers (asn1-rs [Class], [Tag], [Length], [Header]) *)

(** asn1-rs [Class], re-exported at /repo/src/ber/mod.rs:74. *)
Inductive class := Universal | Application | ContextSpecific | Private.

(** [PartialEq] of [Class], used at /repo/src/ber/wrap_any.rs:83 and
    /repo/src/ber/tagged.rs:92. *)
Definition class_eqb (a b : class) : bool :=
  match a, b with
  | Universal, Universal | Application, Application
  | ContextSpecific, ContextSpecific | Private, Private => true
  | _, _ => false
  end.

(** asn1-rs [Tag(u32)]. Re-exported at /repo/src/ber/mod.rs:74. *)
Definition tag := N.

(** asn1-rs [Length]. Re-exported at /repo/src/ber/mod.rs:74. *)
Inductive blen := Definite (n : N) | Indefinite.

(** asn1-rs [Header]; [raw_tag] is the identifier octets as read. Re-exported at
    /repo/src/ber/mod.rs:74; a field of [BerObject], /repo/src/ber/ber.rs:25-30. *)
Record header := mkHeader {
  h_class : class;
  h_constructed : bool;
  h_tag : tag;
  h_length : blen;
  h_raw_tag : option bytes
}.

(** asn1-rs [Header::new]: no raw tag. Called at /repo/src/ber/ber.rs:126,132,
    /repo/src/ber/wrap_any.rs:71 and /repo/src/ber/serialize.rs:90,110. *)
Definition header_new (c : class) (constructed : bool) (t : tag) (l : blen) : header :=
  mkHeader c constructed t l None.

(** asn1-rs [Header::with_length], called at /repo/src/ber/serialize.rs:204. *)
Definition with_length (h : header) (l : blen) : header :=
  mkHeader (h_class h) (h_constructed h) (h_tag h) l (h_raw_tag h).

(** asn1-rs [Header::with_raw_tag], called at /repo/src/ber/ber.rs:141. *)
Definition with_raw_tag (h : header) (r : option bytes) : header :=
  mkHeader (h_class h) (h_constructed h) (h_tag h) (h_length h) r.

(** asn1-rs [Any]: header and raw content octets. Used at /repo/src/ber/wrap_any.rs:73
    and /repo/src/ber/ber.rs:104. *)
Record any := mkAny { a_header : header; a_data : bytes }.

(** ** Tag numbers (asn1-rs [Tag::*] constants, X.680 8.6) *)
(** asn1-rs [Tag::EndOfContent], /repo/src/ber/wrap_any.rs:116. *)
Definition T_EndOfContent : tag := 0.
(** asn1-rs [Tag::Boolean], /repo/src/ber/ber.rs:632-664. *)
Definition T_Boolean : tag := 1.
(** asn1-rs [Tag::Integer], /repo/src/ber/ber.rs:632-664. *)
Definition T_Integer : tag := 2.
(** asn1-rs [Tag::BitString], /repo/src/ber/ber.rs:632-664. *)
Definition T_BitString : tag := 3.
(** asn1-rs [Tag::OctetString], /repo/src/ber/ber.rs:632-664. *)
Definition T_OctetString : tag := 4.
(** asn1-rs [Tag::Null], /repo/src/ber/ber.rs:632-664. *)
Definition T_Null : tag := 5.
(** asn1-rs [Tag::Oid], /repo/src/ber/ber.rs:632-664. *)
Definition T_Oid : tag := 6.
(** asn1-rs [Tag::ObjectDescriptor], /repo/src/ber/ber.rs:632-664. *)
Definition T_ObjectDescriptor : tag := 7.
(** asn1-rs [Tag::Enumerated], /repo/src/ber/ber.rs:632-664. *)
Definition T_Enumerated : tag := 10.
(** asn1-rs [Tag::Utf8String], /repo/src/ber/ber.rs:632-664. *)
Definition T_Utf8String : tag := 12.
(** asn1-rs [Tag::RelativeOid], /repo/src/ber/ber.rs:632-664. *)
Definition T_RelativeOid : tag := 13.
(** asn1-rs [Tag::Sequence], /repo/src/ber/ber.rs:632-664. *)
Definition T_Sequence : tag := 16.
(** asn1-rs [Tag::Set], /repo/src/ber/ber.rs:632-664. *)
Definition T_Set : tag := 17.
(** asn1-rs [Tag::NumericString], /repo/src/ber/ber.rs:632-664. *)
Definition T_NumericString : tag := 18.
(** asn1-rs [Tag::PrintableString], /repo/src/ber/ber.rs:632-664. *)
Definition T_PrintableString : tag := 19.
(** asn1-rs [Tag::T61String], /repo/src/ber/ber.rs:632-664. *)
Definition T_T61String : tag := 20.   (* = TeletexString *)
(** asn1-rs [Tag::VideotexString], /repo/src/ber/ber.rs:632-664. *)
Definition T_VideotexString : tag := 21.
(** asn1-rs [Tag::Ia5String], /repo/src/ber/ber.rs:632-664. *)
Definition T_Ia5String : tag := 22.
(** asn1-rs [Tag::UtcTime], /repo/src/ber/ber.rs:632-664. *)
Definition T_UtcTime : tag := 23.
(** asn1-rs [Tag::GeneralizedTime], /repo/src/ber/ber.rs:632-664. *)
Definition T_GeneralizedTime : tag := 24.
(** asn1-rs [Tag::GraphicString], /repo/src/ber/ber.rs:632-664. *)
Definition T_GraphicString : tag := 25.
(** asn1-rs [Tag::VisibleString], /repo/src/ber/ber.rs:632-664. *)
Definition T_VisibleString : tag := 26.
(** asn1-rs [Tag::GeneralString], /repo/src/ber/ber.rs:632-664. *)
Definition T_GeneralString : tag := 27.
(** asn1-rs [Tag::UniversalString], /repo/src/ber/ber.rs:632-664. *)
Definition T_UniversalString : tag := 28.
(** asn1-rs [Tag::BmpString], /repo/src/ber/ber.rs:632-664. *)
Definition T_BmpString : tag := 30.

(** ** Errors (asn1-rs [Error], [DerConstraint]; nom [ErrorKind]) *)

(** asn1-rs [DerConstraint], re-exported at /repo/src/error.rs:7; only the variants
    the modelled code produces. *)
Inductive der_constraint :=
| DcIndefiniteLength | DcConstructed | DcInvalidBoolean
| DcIntegerEmpty | DcIntegerLeadingZeroes | DcIntegerLeadingFF
| DcUnusedBitsNotZero | DcMissingTimeZone.

(** nom [ErrorKind] of the combinators used at /repo/src/ber/multi.rs:75,
    /repo/tests/der_parser.rs:526, /repo/tests/constructed.rs:256,418 and in the example at
    /repo/src/ber/multi.rs:104; only the kinds the modelled code produces. *)
Inductive error_kind := EkEof | EkComplete | EkMany0 | EkMany1 | EkAlt | EkMapRes.

(** Only the variants that the modelled code constructs or matches on. asn1-rs
    [Error], re-exported as [BerError] at /repo/src/error.rs:7-9. *)
Inductive berror :=
| BerTypeError | BerValueError
| InvalidTag | InvalidLength
| UnexpectedTag (expected : option tag) (actual : tag)
| UnexpectedClass (expected : option class) (actual : class)
| UnknownTag (t : tag)
| IntegerTooLarge | IntegerNegative
| BerMaxDepth | Unsupported | StringInvalidCharset
| ConstructExpected | ConstructUnexpected
| IndefiniteLengthUnexpected
| DerConstraintFailed (c : der_constraint)
| InvalidValue (t : tag)
| InvalidDateTime
| ENomError (k : error_kind)
| EIncomplete (needed : option N).

(** asn1-rs [impl From<nom::Err<Error>> for Error]. Used where a nom result is turned
    into a [Result<_, Error>], /repo/src/ber/wrap_any.rs:147-155 (the iterators). *)
Definition err_of_nerr (e : nerr berror) : berror :=
  match e with
  | Incomplete n => EIncomplete n
  | Error e => e
  | Failure e => e
  end.

(** asn1-rs [impl From<Error> for nom::Err<Error>]. Used by [?] at
    /repo/src/ber/parser.rs:236 and /repo/src/ber/wrap_any.rs:16-17. *)
Definition nerr_of_err (e : berror) : nerr berror :=
  match e with
  | EIncomplete n => Incomplete n
  | e => Error e
  end.

(** ** Objects (/repo/src/ber/ber.rs:18-105) *)

(** The ten [&str] variants of [BerObjectContent]
    (/repo/src/ber/ber.rs:58-71,91-96).  Simplification: the model has one
    constructor [CStr] indexed by this enumeration instead of ten
    constructors; a [&str] is its UTF-8 bytes. *)
Inductive strkind :=
| KNumeric | KVisible | KPrintable | KIA5 | KUTF8 | KT61 | KVideotex
| KObjectDescriptor | KGraphic | KGeneral.

(** asn1-rs [Oid]: relative flag and raw arcs encoding. Re-exported at
    /repo/src/oid.rs:1. *)
Record oid := mkOid { oid_relative : bool; oid_bytes : bytes }.

(** asn1-rs [ASN1TimeZone], part of the [ASN1DateTime] of /repo/src/ber/ber.rs:11. *)
Inductive timezone := TzUndefined | TzZ | TzOffset (hh : Z) (mm : N).

(** asn1-rs [ASN1DateTime]. Used at /repo/src/ber/ber.rs:11. *)
Record datetime := mkDateTime {
  dt_year : N; dt_month : N; dt_day : N; dt_hour : N; dt_minute : N;
  dt_second : N; dt_millisecond : option N; dt_tz : timezone }.

(** [BerObject] and [BerObjectContent], /repo/src/ber/ber.rs:25-105; [Obj] is also
    [from_header_and_content], /repo/src/ber/ber.rs:113-118. *)
Inductive obj :=
| Obj (o_header : header) (o_content : content)
with content :=
| CEndOfContent
| CBoolean (b : bool)
| CInteger (s : bytes)
| CBitString (ignored : N) (data : bytes)
| COctetString (s : bytes)
| CNull
| CEnum (n : N)
| COID (o : oid)
| CRelativeOID (o : oid)
| CStr (k : strkind) (s : bytes)
| CBmpString (s : bytes)
| CUniversalString (s : bytes)
| CSequence (l : list obj)
| CSet (l : list obj)
| CUTCTime (t : datetime)
| CGeneralizedTime (t : datetime)
| COptional (o : option obj)
| CTagged (c : class) (t : tag) (o : obj)
| CUnknown (a : any).

(** Field [header] of [BerObject], /repo/src/ber/ber.rs:25-30. *)
Definition o_header (o : obj) : header := match o with Obj h _ => h end.
(** Field [content] of [BerObject], /repo/src/ber/ber.rs:25-30. *)
Definition o_content (o : obj) : content := match o with Obj _ c => c end.

(** Classification of tag numbers used by the [match any.tag()] of
    /repo/src/ber/wrap_any.rs:86-193 (and der/parser.rs:493-546): which arm a
    tag selects.  [UOther] is the [_] arm. *)
Inductive utag :=
| UBitString | UBmpString | UBoolean | UEndOfContent | UEnumerated
| UGeneralizedTime | UInteger | UNull | UOctetString | UOid | URelativeOid
| USequence | USet | UUtcTime | UUniversalString | UStr (k : strkind) | UOther.

(** The match on the tag, /repo/src/ber/wrap_any.rs:86-193; universal class only. *)
Definition utag_of (t : tag) : utag :=
  if t =? T_BitString then UBitString
  else if t =? T_BmpString then UBmpString
  else if t =? T_Boolean then UBoolean
  else if t =? T_EndOfContent then UEndOfContent
  else if t =? T_Enumerated then UEnumerated
  else if t =? T_GeneralizedTime then UGeneralizedTime
  else if t =? T_GeneralString then UStr KGeneral
  else if t =? T_GraphicString then UStr KGraphic
  else if t =? T_Ia5String then UStr KIA5
  else if t =? T_Integer then UInteger
  else if t =? T_Null then UNull
  else if t =? T_NumericString then UStr KNumeric
  else if t =? T_ObjectDescriptor then UStr KObjectDescriptor
  else if t =? T_OctetString then UOctetString
  else if t =? T_Oid then UOid
  else if t =? T_PrintableString then UStr KPrintable
  else if t =? T_RelativeOid then URelativeOid
  else if t =? T_Sequence then USequence
  else if t =? T_Set then USet
  else if t =? T_T61String then UStr KT61
  else if t =? T_UtcTime then UUtcTime
  else if t =? T_UniversalString then UUniversalString
  else if t =? T_Utf8String then UStr KUTF8
  else if t =? T_VideotexString then UStr KVideotex
  else if t =? T_VisibleString then UStr KVisible
  else UOther.
