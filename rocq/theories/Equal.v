(** * Model of [==] on objects: the [PartialEq] instances derived at
    src/ber/ber.rs:25,32,853 and those of asn1-rs they call. *)

From Verif Require Import Base.

(** [PartialEq] of slices and [&str], used by the derived instance at
    /repo/src/ber/ber.rs:32. *)
Definition slice_eqb {A} (eqb : A -> A -> bool) : list A -> list A -> bool :=
  fix go s s' :=
    match s, s' with
    | [], [] => true
    | x :: r, x' :: r' => eqb x x' && go r r'
    | _, _ => false
    end.

(** [PartialEq] of [Option], used by the derived instance at
    /repo/src/ber/ber.rs:32 ([Optional]). *)
Definition option_eqb {A} (eqb : A -> A -> bool) (o o' : option A) : bool :=
  match o, o' with
  | None, None => true
  | Some x, Some x' => eqb x x'
  | _, _ => false
  end.

(** asn1-rs [PartialEq] of [Length] (derived), used through the header of
    /repo/src/ber/ber.rs:27. *)
Definition blen_eqb (l l' : blen) : bool :=
  match l, l' with
  | Definite n, Definite n' => n =? n'
  | Indefinite, Indefinite => true
  | _, _ => false
  end.

(** asn1-rs [Length::is_null], used by [Header]'s [PartialEq] (field at
    /repo/src/ber/ber.rs:27). *)
Definition blen_is_null (l : blen) : bool := blen_eqb l (Definite 0).

(** asn1-rs [impl PartialEq for Header], used by the derived instance at
    /repo/src/ber/ber.rs:25: lengths are compared only if both are null, raw tags
    only if both or none are present.  Written from memory of asn1-rs; the tests
    of the crate (/repo/tests/ber_parser.rs) rely on it when they compare parsed
    objects with objects built by [from_obj]. *)
Definition header_eqb (h h' : header) : bool :=
  class_eqb (h_class h) (h_class h')
  && (h_tag h =? h_tag h')
  && Bool.eqb (h_constructed h) (h_constructed h')
  && (if blen_is_null (h_length h) && blen_is_null (h_length h')
      then blen_eqb (h_length h) (h_length h') else true)
  && (match h_raw_tag h, h_raw_tag h' with
      | Some _, None | None, Some _ => true
      | _, _ => option_eqb (slice_eqb N.eqb) (h_raw_tag h) (h_raw_tag h')
      end).

(** asn1-rs [PartialEq] of [Any] (derived), used by the derived instance at
    /repo/src/ber/ber.rs:32 ([Unknown], line 104). *)
Definition any_eqb (a a' : any) : bool :=
  header_eqb (a_header a) (a_header a') && slice_eqb N.eqb (a_data a) (a_data a').

(** asn1-rs [PartialEq] of [Oid] (derived: octets and relative flag), used by the
    derived instance at /repo/src/ber/ber.rs:32 (lines 54-56). *)
Definition oid_eqb (o o' : oid) : bool :=
  slice_eqb N.eqb (oid_bytes o) (oid_bytes o') && Bool.eqb (oid_relative o) (oid_relative o').

(** asn1-rs [PartialEq] of [ASN1TimeZone] (derived), used through /repo/src/ber/ber.rs:86-88. *)
Definition timezone_eqb (z z' : timezone) : bool :=
  match z, z' with
  | TzUndefined, TzUndefined | TzZ, TzZ => true
  | TzOffset h m, TzOffset h' m' => Z.eqb h h' && (m =? m')
  | _, _ => false
  end.

(** asn1-rs [PartialEq] of [ASN1DateTime] (derived), used through /repo/src/ber/ber.rs:86-88. *)
Definition datetime_eqb (t t' : datetime) : bool :=
  (dt_year t =? dt_year t') && (dt_month t =? dt_month t') && (dt_day t =? dt_day t')
  && (dt_hour t =? dt_hour t') && (dt_minute t =? dt_minute t') && (dt_second t =? dt_second t')
  && option_eqb N.eqb (dt_millisecond t) (dt_millisecond t')
  && timezone_eqb (dt_tz t) (dt_tz t').

(** The comparison of the variants among the ten string ones of
    /repo/src/ber/ber.rs:58-71,91-96 (derived, line 32). *)
Definition strkind_eqb (k k' : strkind) : bool :=
  match k, k' with
  | KNumeric, KNumeric | KVisible, KVisible | KPrintable, KPrintable | KIA5, KIA5
  | KUTF8, KUTF8 | KT61, KT61 | KVideotex, KVideotex
  | KObjectDescriptor, KObjectDescriptor | KGraphic, KGraphic | KGeneral, KGeneral => true
  | _, _ => false
  end.

(** /repo/src/ber/ber.rs:25-30 [#[derive(PartialEq)] struct BerObject] and 32-105
    [#[derive(PartialEq)] enum BerObjectContent] (with 853-856, [BitStringObject]). *)
Fixpoint obj_eqb (o o' : obj) {struct o} : bool :=
  match o, o' with
  | Obj h c, Obj h' c' => header_eqb h h' && content_eqb c c'
  end
with content_eqb (c c' : content) {struct c} : bool :=
  match c, c' with
  | CEndOfContent, CEndOfContent => true
  | CBoolean b, CBoolean b' => Bool.eqb b b'
  | CInteger s, CInteger s' => slice_eqb N.eqb s s'
  | CBitString u s, CBitString u' s' => (u =? u') && slice_eqb N.eqb s s'
  | COctetString s, COctetString s' => slice_eqb N.eqb s s'
  | CNull, CNull => true
  | CEnum n, CEnum n' => n =? n'
  | COID x, COID x' => oid_eqb x x'
  | CRelativeOID x, CRelativeOID x' => oid_eqb x x'
  | CStr k s, CStr k' s' => strkind_eqb k k' && slice_eqb N.eqb s s'
  | CBmpString s, CBmpString s' => slice_eqb N.eqb s s'
  | CUniversalString s, CUniversalString s' => slice_eqb N.eqb s s'
  | CSequence l, CSequence l' => slice_eqb obj_eqb l l'
  | CSet l, CSet l' => slice_eqb obj_eqb l l'
  | CUTCTime t, CUTCTime t' => datetime_eqb t t'
  | CGeneralizedTime t, CGeneralizedTime t' => datetime_eqb t t'
  | COptional x, COptional x' => option_eqb obj_eqb x x'
  | CTagged k t x, CTagged k' t' x' => class_eqb k k' && (t =? t') && obj_eqb x x'
  | CUnknown a, CUnknown a' => any_eqb a a'
  | _, _ => false
  end.
