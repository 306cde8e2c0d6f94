(** * What a reader of one given type should return (for C62-C64) *)

From Verif Require Import Base Asn1rs Ber Der Typed.

(** Every reader of one type, with the universal tag number of that type (X.680
    8.6) and the form of its values. *)
Definition ber_readers : list ((leaves -> bytes -> iresult berror obj) * N * (content -> Prop)) :=
  [(parse_ber_endofcontent, 0, fun c => c = CEndOfContent);
   (parse_ber_bool, 1, fun c => exists b, c = CBoolean b);
   (parse_ber_integer, 2, fun c => exists s, c = CInteger s);
   (parse_ber_bitstring, 3, fun c => exists u s, c = CBitString u s);
   (parse_ber_octetstring, 4, fun c => exists s, c = COctetString s);
   (parse_ber_null, 5, fun c => c = CNull);
   (parse_ber_oid, 6, fun c => exists s, c = COID (mkOid false s));
   (parse_ber_objectdescriptor, 7, fun c => exists s, c = CStr KObjectDescriptor s);
   (parse_ber_enum, 10, fun c => exists n, c = CEnum n);
   (parse_ber_utf8string, 12, fun c => exists s, c = CStr KUTF8 s);
   (parse_ber_relative_oid, 13, fun c => exists s, c = CRelativeOID (mkOid true s));
   (parse_ber_sequence, 16, fun c => exists l, c = CSequence l);
   (parse_ber_set, 17, fun c => exists l, c = CSet l);
   (parse_ber_numericstring, 18, fun c => exists s, c = CStr KNumeric s);
   (parse_ber_printablestring, 19, fun c => exists s, c = CStr KPrintable s);
   (parse_ber_t61string, 20, fun c => exists s, c = CStr KT61 s);
   (parse_ber_videotexstring, 21, fun c => exists s, c = CStr KVideotex s);
   (parse_ber_ia5string, 22, fun c => exists s, c = CStr KIA5 s);
   (parse_ber_utctime, 23, fun c => exists t, c = CUTCTime t);
   (parse_ber_generalizedtime, 24, fun c => exists t, c = CGeneralizedTime t);
   (parse_ber_graphicstring, 25, fun c => exists s, c = CStr KGraphic s);
   (parse_ber_visiblestring, 26, fun c => exists s, c = CStr KVisible s);
   (parse_ber_generalstring, 27, fun c => exists s, c = CStr KGeneral s);
   (parse_ber_universalstring, 28, fun c => exists s, c = CUniversalString s);
   (parse_ber_bmpstring, 30, fun c => exists s, c = CBmpString s)].

Definition der_readers : list ((leaves -> bytes -> iresult berror obj) * N * (content -> Prop)) :=
  [(parse_der_endofcontent, 0, fun c => c = CEndOfContent);
   (parse_der_bool, 1, fun c => exists b, c = CBoolean b);
   (parse_der_integer, 2, fun c => exists s, c = CInteger s);
   (parse_der_bitstring, 3, fun c => exists u s, c = CBitString u s);
   (parse_der_octetstring, 4, fun c => exists s, c = COctetString s);
   (parse_der_null, 5, fun c => c = CNull);
   (parse_der_oid, 6, fun c => exists s, c = COID (mkOid false s));
   (parse_der_objectdescriptor, 7, fun c => exists s, c = CStr KObjectDescriptor s);
   (parse_der_enum, 10, fun c => exists n, c = CEnum n);
   (parse_der_utf8string, 12, fun c => exists s, c = CStr KUTF8 s);
   (parse_der_relative_oid, 13, fun c => exists s, c = CRelativeOID (mkOid true s));
   (parse_der_sequence, 16, fun c => exists l, c = CSequence l);
   (parse_der_set, 17, fun c => exists l, c = CSet l);
   (parse_der_numericstring, 18, fun c => exists s, c = CStr KNumeric s);
   (parse_der_printablestring, 19, fun c => exists s, c = CStr KPrintable s);
   (parse_der_t61string, 20, fun c => exists s, c = CStr KT61 s);
   (parse_der_videotexstring, 21, fun c => exists s, c = CStr KVideotex s);
   (parse_der_ia5string, 22, fun c => exists s, c = CStr KIA5 s);
   (parse_der_utctime, 23, fun c => exists t, c = CUTCTime t);
   (parse_der_generalizedtime, 24, fun c => exists t, c = CGeneralizedTime t);
   (parse_der_graphicstring, 25, fun c => exists s, c = CStr KGraphic s);
   (parse_der_visiblestring, 26, fun c => exists s, c = CStr KVisible s);
   (parse_der_generalstring, 27, fun c => exists s, c = CStr KGeneral s);
   (parse_der_universalstring, 28, fun c => exists s, c = CUniversalString s);
   (parse_der_bmpstring, 30, fun c => exists s, c = CBmpString s);
   (visiblestring, 26, fun c => exists s, c = CStr KVisible s)].

(** The header of an element whose class is taken to be UNIVERSAL and whose
    identifier octets are not kept. *)
Definition as_universal (h : header) : header :=
  mkHeader Universal (h_constructed h) (h_tag h) (h_length h) None.

(** What the identifier octet [b] says: bits 8 and 7 give the class, bit 6 the
    form, bits 5 to 1 the tag number unless all are one. *)
Definition described_by (b : N) (o : obj) : Prop :=
  is_universal o = (b / 64 =? 0) /\ is_application o = (b / 64 =? 1)
  /\ is_contextspecific o = (b / 64 =? 2) /\ is_private o = (b / 64 =? 3)
  /\ is_constructed o = ((b / 32) mod 2 =? 1) /\ is_primitive o = ((b / 32) mod 2 =? 0)
  /\ (b mod 32 <> 31 -> obj_tag o = b mod 32).
