(** * Model of the readers of one given type, of the header queries of
    [BerObject] and of the bit slices (src/ber/parser.rs, src/der/parser.rs,
    src/ber/ber.rs).  The readers of INTEGER, BIT STRING and SEQUENCE (BER),
    BOOLEAN, INTEGER and BIT STRING (DER) are in Ber.v and Der.v. *)

From Verif Require Import Base Asn1rs Ber Der.

(** ** src/ber/parser.rs *)

(** /repo/src/ber/parser.rs:249-251 *)
Definition parse_ber_endofcontent L i := parse_ber_with_tag L i T_EndOfContent.
(** /repo/src/ber/parser.rs:261-263 *)
Definition parse_ber_bool L i := parse_ber_with_tag L i T_Boolean.
(** /repo/src/ber/parser.rs:304-306 *)
Definition parse_ber_octetstring L i := parse_ber_with_tag L i T_OctetString.
(** /repo/src/ber/parser.rs:310-312 *)
Definition parse_ber_null L i := parse_ber_with_tag L i T_Null.
(** /repo/src/ber/parser.rs:316-318 *)
Definition parse_ber_oid L i := parse_ber_with_tag L i T_Oid.
(** /repo/src/ber/parser.rs:322-324 *)
Definition parse_ber_enum L i := parse_ber_with_tag L i T_Enumerated.
(** /repo/src/ber/parser.rs:328-330 *)
Definition parse_ber_utf8string L i := parse_ber_with_tag L i T_Utf8String.
(** /repo/src/ber/parser.rs:334-336 *)
Definition parse_ber_relative_oid L i := parse_ber_with_tag L i T_RelativeOid.
(** /repo/src/ber/parser.rs:360-362 *)
Definition parse_ber_set L i := parse_ber_with_tag L i T_Set.
(** /repo/src/ber/parser.rs:367-369 *)
Definition parse_ber_numericstring L i := parse_ber_with_tag L i T_NumericString.
(** /repo/src/ber/parser.rs:374-376 *)
Definition parse_ber_visiblestring L i := parse_ber_with_tag L i T_VisibleString.
(** /repo/src/ber/parser.rs:381-383 *)
Definition parse_ber_printablestring L i := parse_ber_with_tag L i T_PrintableString.
(** /repo/src/ber/parser.rs:387-389 *)
Definition parse_ber_t61string L i := parse_ber_with_tag L i T_T61String.
(** /repo/src/ber/parser.rs:393-395 *)
Definition parse_ber_videotexstring L i := parse_ber_with_tag L i T_VideotexString.
(** /repo/src/ber/parser.rs:399-401 *)
Definition parse_ber_ia5string L i := parse_ber_with_tag L i T_Ia5String.
(** /repo/src/ber/parser.rs:405-407 *)
Definition parse_ber_utctime L i := parse_ber_with_tag L i T_UtcTime.
(** /repo/src/ber/parser.rs:411-413 *)
Definition parse_ber_generalizedtime L i := parse_ber_with_tag L i T_GeneralizedTime.
(** /repo/src/ber/parser.rs:417-419 *)
Definition parse_ber_objectdescriptor L i := parse_ber_with_tag L i T_ObjectDescriptor.
(** /repo/src/ber/parser.rs:423-425 *)
Definition parse_ber_graphicstring L i := parse_ber_with_tag L i T_GraphicString.
(** /repo/src/ber/parser.rs:429-431 *)
Definition parse_ber_generalstring L i := parse_ber_with_tag L i T_GeneralString.
(** /repo/src/ber/parser.rs:435-437 *)
Definition parse_ber_bmpstring L i := parse_ber_with_tag L i T_BmpString.
(** /repo/src/ber/parser.rs:441-443 *)
Definition parse_ber_universalstring L i := parse_ber_with_tag L i T_UniversalString.

(** ** src/der/parser.rs *)

(** /repo/src/der/parser.rs:86-88 *)
Definition parse_der_endofcontent L i := parse_der_with_tag L i T_EndOfContent.
(** /repo/src/der/parser.rs:154-156 *)
Definition parse_der_octetstring L i := parse_der_with_tag L i T_OctetString.
(** /repo/src/der/parser.rs:160-162 *)
Definition parse_der_null L i := parse_der_with_tag L i T_Null.
(** /repo/src/der/parser.rs:166-168 *)
Definition parse_der_oid L i := parse_der_with_tag L i T_Oid.
(** /repo/src/der/parser.rs:172-174 *)
Definition parse_der_enum L i := parse_der_with_tag L i T_Enumerated.
(** /repo/src/der/parser.rs:178-180 *)
Definition parse_der_utf8string L i := parse_der_with_tag L i T_Utf8String.
(** /repo/src/der/parser.rs:184-186 *)
Definition parse_der_relative_oid L i := parse_der_with_tag L i T_RelativeOid.
(** /repo/src/der/parser.rs:197-199 *)
Definition parse_der_sequence L i := parse_der_with_tag L i T_Sequence.
(** /repo/src/der/parser.rs:210-212 *)
Definition parse_der_set L i := parse_der_with_tag L i T_Set.
(** /repo/src/der/parser.rs:217-219 *)
Definition parse_der_numericstring L i := parse_der_with_tag L i T_NumericString.
(** /repo/src/der/parser.rs:224-226 *)
Definition parse_der_visiblestring L i := parse_der_with_tag L i T_VisibleString.
(** /repo/src/der/parser.rs:237-239 *)
Definition parse_der_printablestring L i := parse_der_with_tag L i T_PrintableString.
(** /repo/src/der/parser.rs:243-245 *)
Definition parse_der_t61string L i := parse_der_with_tag L i T_T61String.
(** /repo/src/der/parser.rs:249-251 *)
Definition parse_der_videotexstring L i := parse_der_with_tag L i T_VideotexString.
(** /repo/src/der/parser.rs:255-257 *)
Definition parse_der_ia5string L i := parse_der_with_tag L i T_Ia5String.
(** /repo/src/der/parser.rs:261-263 *)
Definition parse_der_utctime L i := parse_der_with_tag L i T_UtcTime.
(** /repo/src/der/parser.rs:267-269 *)
Definition parse_der_generalizedtime L i := parse_der_with_tag L i T_GeneralizedTime.
(** /repo/src/der/parser.rs:273-275 *)
Definition parse_der_objectdescriptor L i := parse_der_with_tag L i T_ObjectDescriptor.
(** /repo/src/der/parser.rs:279-281 *)
Definition parse_der_graphicstring L i := parse_der_with_tag L i T_GraphicString.
(** /repo/src/der/parser.rs:285-287 *)
Definition parse_der_generalstring L i := parse_der_with_tag L i T_GeneralString.
(** /repo/src/der/parser.rs:291-293 *)
Definition parse_der_bmpstring L i := parse_der_with_tag L i T_BmpString.
(** /repo/src/der/parser.rs:297-299 *)
Definition parse_der_universalstring L i := parse_der_with_tag L i T_UniversalString.
(** /repo/src/der/parser.rs:230-232 (deprecated alias) *)
Definition visiblestring L i := parse_der_visiblestring L i.

(** /repo/src/ber/parser.rs:210-216 (owned header) *)
Definition parse_ber_content2 (L : leaves) (t : tag) (i : bytes) (hdr : header)
    (max_recursion : nat) : iresult berror content :=
  ber_read_element_content_as L i t (h_length hdr) (h_constructed hdr) max_recursion.
(** /repo/src/der/parser.rs:468-474 (owned header) *)
Definition parse_der_content2 (L : leaves) (t : tag) (i : bytes) (hdr : header)
    (max_recursion : nat) : iresult berror content :=
  der_read_element_content_as L i t (h_length hdr) (h_constructed hdr) max_recursion.

(** ** Header queries of an object (src/ber/ber.rs) *)

(** /repo/src/ber/ber.rs:310-312 *)
Definition obj_class (o : obj) : class := h_class (o_header o).
(** /repo/src/ber/ber.rs:316-318 *)
Definition obj_tag (o : obj) : tag := h_tag (o_header o).
(** /repo/src/ber/ber.rs:322-324 *)
Definition obj_length (o : obj) : blen := h_length (o_header o).
(** /repo/src/ber/ber.rs:328-330 *)
Definition is_universal (o : obj) : bool := class_eqb (h_class (o_header o)) Universal.
(** /repo/src/ber/ber.rs:333-335 *)
Definition is_application (o : obj) : bool := class_eqb (h_class (o_header o)) Application.
(** /repo/src/ber/ber.rs:338-340 *)
Definition is_contextspecific (o : obj) : bool := class_eqb (h_class (o_header o)) ContextSpecific.
(** /repo/src/ber/ber.rs:343-345 *)
Definition is_private (o : obj) : bool := class_eqb (h_class (o_header o)) Private.
(** /repo/src/ber/ber.rs:349-351 *)
Definition is_primitive (o : obj) : bool := negb (h_constructed (o_header o)).
(** /repo/src/ber/ber.rs:354-356 *)
Definition is_constructed (o : obj) : bool := h_constructed (o_header o).
(** /repo/src/ber/ber.rs:360-362; asn1-rs [Header::assert_class] *)
Definition obj_assert_class (o : obj) (c : class) : res berror unit :=
  if class_eqb (h_class (o_header o)) c then Ok tt
  else Err (UnexpectedClass (Some c) (h_class (o_header o))).
(** /repo/src/ber/ber.rs:366-368 *)
Definition obj_assert_tag (o : obj) (t : tag) : res berror unit := assert_tag (o_header o) t.
(** /repo/src/ber/ber.rs:372-374 *)
Definition obj_assert_constructed (o : obj) : res berror unit := assert_constructed (o_header o).
(** /repo/src/ber/ber.rs:378-380 *)
Definition obj_assert_primitive (o : obj) : res berror unit := assert_primitive (o_header o).

(** ** Conversions (src/ber/ber.rs) *)

(** /repo/src/ber/ber.rs:384-388 [From<Oid>] *)
Definition obj_from_oid (o : oid) : obj := from_obj (COID o).
(** /repo/src/ber/ber.rs:391-395 [From<BerObjectContent>] *)
Definition obj_from_content (c : content) : obj := from_obj c.
(** /repo/src/ber/ber.rs:536-538: a clone of [as_oid] *)
Definition as_oid_val (c : content) : res berror oid := as_oid c.

(** ** Bit slices *)

(** bitvec [BitSlice::<u8, Msb0>::try_from_slice] (called at
    /repo/src/ber/ber.rs:573,872): the bits of every octet, most significant
    first.  Simplification: it fails only above 2^61 octets, not modelled. *)
Definition bitslice_of (s : bytes) : list bool :=
  flat_map (fun b => map (fun k => N.testbit b k) [7; 6; 5; 4; 3; 2; 1; 0]) s.
(** /repo/src/ber/ber.rs:871-873; [as_ref] (lines 876-880) is the octets themselves *)
Definition bitstring_as_bitslice (data : bytes) : option (list bool) := Some (bitslice_of data).
(** /repo/src/ber/ber.rs:571-575 *)
Definition as_bitslice (c : content) : res berror (list bool) :=
  let* s := as_slice c in Ok (bitslice_of s).

(** ** Accessors of an object (src/ber/ber.rs): those of its content *)

(** /repo/src/ber/ber.rs:169-171 *)
Definition obj_as_i64 (o : obj) : res berror Z := as_i64 (o_content o).
(** /repo/src/ber/ber.rs:187-189 *)
Definition obj_as_i32 (o : obj) : res berror Z := as_i32 (o_content o).
(** /repo/src/ber/ber.rs:205-207 *)
Definition obj_as_u64 (o : obj) : res berror N := as_u64 (o_content o).
(** /repo/src/ber/ber.rs:224-226 *)
Definition obj_as_u32 (o : obj) : res berror N := as_u32 (o_content o).
(** /repo/src/ber/ber.rs:230-232 *)
Definition obj_as_bool (o : obj) : res berror bool := as_bool (o_content o).
(** /repo/src/ber/ber.rs:236-238 *)
Definition obj_as_oid (o : obj) : res berror oid := as_oid (o_content o).
(** /repo/src/ber/ber.rs:242-244 *)
Definition obj_as_oid_val (o : obj) : res berror oid := as_oid_val (o_content o).
(** /repo/src/ber/ber.rs:248-250 *)
Definition obj_as_optional (o : obj) : res berror (option obj) := as_optional (o_content o).
(** /repo/src/ber/ber.rs:254-256 *)
Definition obj_as_tagged (o : obj) : res berror (class * tag * obj) := as_tagged (o_content o).
(** /repo/src/ber/ber.rs:263-265 ([as_bitstring_ref]) and 269-271; reference and
    copy are not distinguished *)
Definition obj_as_bitstring (o : obj) : res berror bytes := as_bitstring (o_content o).
(** /repo/src/ber/ber.rs:275-277 *)
Definition obj_as_bitslice (o : obj) : res berror (list bool) := as_bitslice (o_content o).
(** /repo/src/ber/ber.rs:281-283 *)
Definition obj_as_sequence (o : obj) : res berror (list obj) := as_sequence (o_content o).
(** /repo/src/ber/ber.rs:287-289 *)
Definition obj_as_set (o : obj) : res berror (list obj) := as_set (o_content o).
(** /repo/src/ber/ber.rs:295-297 *)
Definition obj_as_slice (o : obj) : res berror bytes := as_slice (o_content o).
(** /repo/src/ber/ber.rs:304-306 *)
Definition obj_as_str (o : obj) : res berror bytes := as_str (o_content o).
