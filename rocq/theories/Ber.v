(** * Model of the BER half of the crate:
    src/ber/parser.rs, src/ber/wrap_any.rs, src/ber/integer.rs,
    src/ber/ber.rs. *)

From Verif Require Import Base Asn1rs.

(** /repo/src/ber/parser.rs:8 *)
Definition MAX_RECURSION : nat := 50.

(** /repo/src/ber/parser.rs:11 *)
Definition MAX_OBJECT_SIZE : N := 4294967295.

(** /repo/src/ber/parser.rs:116-118 *)
Definition ber_read_element_header (i : bytes) : iresult berror header :=
  header_from_ber i.

(** ** Skipping and delimiting content *)

(** /repo/src/ber/parser.rs:36-45: the [loop] of [ber_skip_object_content].
    [skip1] is the recursive call with [max_depth - 1].  Rust loops without a
    bound; the model gives it [fuel] and returns [Diverge] when exhausted
    (never, by C01). *)
Fixpoint ber_skip_loop (skip1 : bytes -> header -> iresult berror bool)
    (fuel : nat) (i : bytes) : iresult berror bool :=
  match fuel with
  | O => Diverge
  | S fuel' =>
      let* (i2, header2) := ber_read_element_header i in
      let* (i3, eoc) := skip1 i2 header2 in
      if eoc then Ok (i3, false) else ber_skip_loop skip1 fuel' i3
  end.

(** /repo/src/ber/parser.rs:14-48 [ber_skip_object_content].  [max_depth - 1]
    cannot underflow: it is only reached when [max_depth] is not 0. *)
Fixpoint ber_skip_object_content (max_depth : nat) (i : bytes) (hdr : header)
    {struct max_depth} : iresult berror bool :=
  match max_depth with
  | O => Err (Error BerMaxDepth)
  | S d' =>
      match h_length hdr with
      | Definite l =>
          if (l =? 0) && (h_tag hdr =? T_EndOfContent) then Ok (i, true)
          else let* (i', _) := take_streaming l i in Ok (i', false)
      | Indefinite =>
          if negb (h_constructed hdr) then Err (Error ConstructExpected)
          else ber_skip_loop (ber_skip_object_content d') (S (length i)) i
      end
  end.

(** /repo/src/ber/parser.rs:51-68 [ber_get_object_content].
    [start_i.offset(i)] is the difference of the lengths of the two slices
    ([i] is a suffix of [start_i]); the [assert!(len >= 2)] of line 63 is the
    [Panic] branch. *)
Definition ber_get_object_content (i : bytes) (hdr : header) (max_depth : nat)
  : iresult berror bytes :=
  let* (r, _) := ber_skip_object_content max_depth i hdr in
  let len := (length i - length r)%nat in
  let content := firstn len i in
  let i' := skipn len i in
  match h_length hdr with
  | Indefinite =>
      if (length content <? 2)%nat then Panic
      else Ok (i', firstn (length content - 2) content)
  | Definite _ => Ok (i', content)
  end.

(** ** From [Any] to [BerObject] *)

(** asn1-rs [SequenceIterator]/[SetIterator]<Any, BerParser> consumed by
    [.map(..).collect()], /repo/src/ber/wrap_any.rs:147-153 and 158-164: read
    an [Any], convert it with [conv], stop at the first error.  The iterator
    ends when the data is empty.  Fuel as in [ber_skip_loop]. *)
Fixpoint iter_collect (conv : any -> res berror obj) (fuel : nat) (data : bytes)
  : res berror (list obj) :=
  match data with
  | [] => Ok []
  | _ :: _ =>
      match fuel with
      | O => Diverge
      | S fuel' =>
          let* (r, a) := map_err err_of_nerr (any_from_ber data) in
          let* o := conv a in
          let* os := iter_collect conv fuel' r in
          Ok (o :: os)
      end
  end.

(** /repo/src/ber/wrap_any.rs:104-108: the u16 units of a BMPString
    ([chunks_exact(2)], big endian). *)
Fixpoint be_u16_units (s : bytes) : list N :=
  match s with
  | a :: b :: r => (a * 256 + b) :: be_u16_units r
  | _ => []
  end.

(** /repo/src/ber/wrap_any.rs:44-52, macro [from_obj!(STRING ..)] *)
Definition from_obj_string (L : leaves) (k : strkind) (h : header) (data : bytes)
  : res berror obj :=
  if h_constructed h then Err Unsupported
  else if negb (test_valid_charset L k data) then Err StringInvalidCharset
  else if negb (utf8_valid data) then Err StringInvalidCharset
  else Ok (Obj h (CStr k data)).

(** /repo/src/ber/wrap_any.rs:79-192 [try_berobject_from_any].  The arms are in
    the order of the [match] (tags are distinct, so order is irrelevant). *)
Fixpoint try_berobject_from_any (L : leaves) (max_depth : nat) (a : any) {struct max_depth}
  : res berror obj :=
  match max_depth with
  | O => Err BerMaxDepth
  | S d' =>
      let h := a_header a in
      let data := a_data a in
      if negb (class_eqb (h_class h) Universal) then Ok (Obj h (CUnknown a))
      else
        match utag_of (h_tag h) with
        | UBitString =>                                          (* l.87-98 *)
            match data with
            | [] => Err BerValueError
            | ignored :: rest =>
                if h_constructed h then Err Unsupported
                else Ok (Obj h (CBitString ignored rest))
            end
        | UBmpString =>                                          (* l.99-111 *)
            if h_constructed h then Err Unsupported
            else if negb (Nat.even (length data)) then Err Unsupported
            else if negb (utf16_valid (be_u16_units data)) then Err StringInvalidCharset
            else Ok (Obj h (CBmpString data))
        | UBoolean => let* b := any_bool a in Ok (Obj h (CBoolean b))  (* l.112-115 *)
        | UEndOfContent => Ok (Obj h CEndOfContent)              (* l.116 *)
        | UEnumerated => let* v := any_enumerated a in Ok (Obj h (CEnum v)) (* l.117-120 *)
        | UGeneralizedTime =>                                    (* l.121-124 *)
            match lf_gentime L (h_constructed h) (h_length h) data with
            | inl e => Err e
            | inr t => Ok (Obj h (CGeneralizedTime t))
            end
        | UStr k => from_obj_string L k h data        (* l.125-127,133-134,140,167,182-184 *)
        | UInteger => Ok (Obj h (CInteger data))                 (* l.128-131 *)
        | UNull => Ok (Obj h CNull)                              (* l.132 *)
        | UOctetString => Ok (Obj h (COctetString data))         (* l.135 *)
        | UOid =>                                                (* l.136-139 *)
            match lf_oid_check L (h_constructed h) (h_length h) data with
            | Some e => Err e
            | None => Ok (Obj h (COID (mkOid false data)))
            end
        | URelativeOid =>                                        (* l.141-144 *)
            match lf_reloid_check L (h_constructed h) (h_length h) data with
            | Some e => Err e
            | None => Ok (Obj h (CRelativeOID (mkOid true data)))
            end
        | USequence =>                                           (* l.145-155 *)
            let* _ := assert_constructed h in
            let* l := iter_collect (try_berobject_from_any L d') (length data) data in
            Ok (Obj h (CSequence l))
        | USet =>                                                (* l.156-166 *)
            let* _ := assert_constructed h in
            let* l := iter_collect (try_berobject_from_any L d') (length data) data in
            Ok (Obj h (CSet l))
        | UUtcTime =>                                            (* l.168-171 *)
            match lf_utctime L (h_constructed h) (h_length h) data with
            | inl e => Err e
            | inr t => Ok (Obj h (CUTCTime t))
            end
        | UUniversalString =>                                    (* l.172-181 *)
            if h_constructed h then Err Unsupported
            else Ok (Obj h (CUniversalString data))
        | UOther => Ok (Obj h (CUnknown a))                      (* l.185-190 *)
        end
  end.

(** /repo/src/ber/wrap_any.rs:58-76 [try_read_berobjectcontent_as] *)
Definition try_read_berobjectcontent_as (L : leaves) (i : bytes) (t : tag) (l : blen)
    (constructed : bool) (max_depth : nat) : iresult berror content :=
  let read :=
    let h := header_new Universal constructed t l in
    let* (r, data) := ber_get_object_content i h max_depth in
    let* o := map_err nerr_of_err (try_berobject_from_any L max_depth (mkAny h data)) in
    Ok (r, o_content o) in
  match l with
  | Definite n =>
      if MAX_OBJECT_SIZE <? n then Err (Error InvalidLength)
      else if nlen i <? n then Err (Incomplete (needed_new n))
      else read
  | Indefinite => read
  end.

(** /repo/src/ber/wrap_any.rs:13-19 *)
Definition parse_ber_any_with_tag_r (L : leaves) (i : bytes) (t : tag) (max_depth : nat)
  : iresult berror obj :=
  if (max_depth =? 0)%nat then Err (Error BerMaxDepth)
  else
    let* (r, a) := any_from_ber i in
    let* _ := map_err nerr_of_err (assert_tag (a_header a) t) in
    let* o := map_err nerr_of_err (try_berobject_from_any L max_depth a) in
    Ok (r, o).

(** /repo/src/ber/wrap_any.rs:24-29 *)
Definition parse_ber_any_r (L : leaves) (i : bytes) (max_depth : nat) : iresult berror obj :=
  if (max_depth =? 0)%nat then Err (Error BerMaxDepth)
  else
    let* (r, a) := any_from_ber i in
    let* o := map_err nerr_of_err (try_berobject_from_any L max_depth a) in
    Ok (r, o).

(** /repo/src/ber/wrap_any.rs:32-34 *)
Definition parse_ber_any (i : bytes) : iresult berror any := any_from_ber i.

(** ** Entry points of src/ber/parser.rs *)

(** /repo/src/ber/parser.rs:144-152 *)
Definition ber_read_element_content_as (L : leaves) (i : bytes) (t : tag) (l : blen)
    (constructed : bool) (max_depth : nat) : iresult berror content :=
  try_read_berobjectcontent_as L i t l constructed max_depth.

(** /repo/src/ber/parser.rs:178-184 and 210-216 ([parse_ber_content],
    [parse_ber_content2]: header by reference or owned, same function here). *)
Definition parse_ber_content (L : leaves) (t : tag) (i : bytes) (hdr : header)
    (max_recursion : nat) : iresult berror content :=
  ber_read_element_content_as L i t (h_length hdr) (h_constructed hdr) max_recursion.

(** /repo/src/ber/parser.rs:233-245 *)
Definition parse_ber_with_tag (L : leaves) (i : bytes) (t : tag) : iresult berror obj :=
  let* (i1, hdr) := ber_read_element_header i in
  let* _ := map_err nerr_of_err (assert_tag hdr t) in
  let* (i2, c) := ber_read_element_content_as L i1 (h_tag hdr) (h_length hdr)
                    (h_constructed hdr) MAX_RECURSION in
  Ok (i2, Obj hdr c).

(** /repo/src/ber/parser.rs:249-443: [parse_ber_endofcontent], [parse_ber_bool],
    [parse_ber_integer], [parse_ber_bitstring], [parse_ber_octetstring],
    [parse_ber_null], [parse_ber_oid], [parse_ber_enum], [parse_ber_utf8string],
    [parse_ber_relative_oid], [parse_ber_sequence], [parse_ber_set],
    [parse_ber_numericstring], [parse_ber_visiblestring],
    [parse_ber_printablestring], [parse_ber_t61string],
    [parse_ber_videotexstring], [parse_ber_ia5string], [parse_ber_utctime],
    [parse_ber_generalizedtime], [parse_ber_objectdescriptor],
    [parse_ber_graphicstring], [parse_ber_generalstring],
    [parse_ber_bmpstring], [parse_ber_universalstring] are all
    [parse_ber_with_tag] at the corresponding tag; three of them are named
    here, the others in Typed.v. *)
Definition parse_ber_integer L i := parse_ber_with_tag L i T_Integer.
(** /repo/src/ber/parser.rs:298-300 *)
Definition parse_ber_bitstring L i := parse_ber_with_tag L i T_BitString.
(** /repo/src/ber/parser.rs:347-349 *)
Definition parse_ber_sequence L i := parse_ber_with_tag L i T_Sequence.

(** /repo/src/ber/parser.rs:618-620 *)
Definition parse_ber_recursive (L : leaves) (i : bytes) (max_depth : nat) : iresult berror obj :=
  parse_ber_any_r L i max_depth.

(** /repo/src/ber/parser.rs:639-641 *)
Definition parse_ber (L : leaves) (i : bytes) : iresult berror obj :=
  parse_ber_recursive L i MAX_RECURSION.

(** /repo/src/ber/parser.rs:562-591 *)
Definition parse_ber_i32 (i : bytes) : iresult berror Z := int_from_ber 4 i.
(** /repo/src/ber/parser.rs:571-573 *)
Definition parse_ber_i64 (i : bytes) : iresult berror Z := int_from_ber 8 i.
(** /repo/src/ber/parser.rs:580-582 *)
Definition parse_ber_u32 (i : bytes) : iresult berror N := uint_from_ber 4 i.
(** /repo/src/ber/parser.rs:589-591 *)
Definition parse_ber_u64 (i : bytes) : iresult berror N := uint_from_ber 8 i.

(** ** Construction (src/ber/ber.rs) *)

(** /repo/src/ber/ber.rs:632-664 [BerObjectContent::tag] *)
Definition tag_of_strkind (k : strkind) : tag :=
  match k with
  | KNumeric => T_NumericString
  | KVisible => T_VisibleString
  | KPrintable => T_PrintableString
  | KIA5 => T_Ia5String
  | KUTF8 => T_Utf8String
  | KT61 => T_T61String
  | KVideotex => T_VideotexString
  | KObjectDescriptor => T_ObjectDescriptor
  | KGraphic => T_GraphicString
  | KGeneral => T_GeneralString
  end.

(** /repo/src/ber/ber.rs:632-664 [BerObjectContent::tag] *)
Fixpoint content_tag (c : content) : tag :=
  match c with
  | CEndOfContent => T_EndOfContent
  | CBoolean _ => T_Boolean
  | CInteger _ => T_Integer
  | CBitString _ _ => T_BitString
  | COctetString _ => T_OctetString
  | CNull => T_Null
  | CEnum _ => T_Enumerated
  | COID _ => T_Oid
  | CRelativeOID _ => T_RelativeOid
  | CStr k _ => tag_of_strkind k
  | CBmpString _ => T_BmpString
  | CUniversalString _ => T_UniversalString
  | CSequence _ => T_Sequence
  | CSet _ => T_Set
  | CUTCTime _ => T_UtcTime
  | CGeneralizedTime _ => T_GeneralizedTime
  | CTagged _ x _ => x
  | CUnknown a => h_tag (a_header a)
  | COptional (Some (Obj _ c')) => content_tag c'
  | COptional None => 0
  end.

(** /repo/src/ber/ber.rs:122-128 *)
Definition from_obj (c : content) : obj :=
  let t := content_tag c in
  let constructed := (t =? T_Sequence) || (t =? T_Set) in
  Obj (header_new Universal constructed t (Definite 0)) c.

(** /repo/src/ber/ber.rs:131-137 *)
Definition from_int_slice (i : bytes) : obj :=
  Obj (header_new Universal false T_Integer (Definite 0)) (CInteger i).

(** /repo/src/ber/ber.rs:140-143 *)
Definition set_raw_tag (o : obj) (r : option bytes) : obj :=
  Obj (with_raw_tag (o_header o) r) (o_content o).

(** /repo/src/ber/ber.rs:146-153 *)
Definition from_seq (l : list obj) : obj := from_obj (CSequence l).
(** /repo/src/ber/ber.rs:151-153 *)
Definition from_set (l : list obj) : obj := from_obj (CSet l).

(** ** Integers (src/ber/integer.rs) *)

(** /repo/src/ber/integer.rs:125-130 *)
Definition is_highest_bit_set (s : bytes) : bool :=
  match s with
  | [] => false
  | b :: _ => negb (N.land b 128 =? 0)
  end.

(** /repo/src/ber/integer.rs:7-18: keeps the last octet of an all-zero slice. *)
Fixpoint remove_zeroes (s : bytes) : bytes :=
  match s with
  | [0] => s
  | 0 :: rest => remove_zeroes rest
  | _ => s
  end.

(** /repo/src/ber/integer.rs:41-75: [decode_array_uint8] (n = 8) and
    [decode_array_uint4] (n = 4): left-pad with zeros. *)
Definition decode_array_uint (n : nat) (s : bytes) : res berror bytes :=
  if is_highest_bit_set s then Err IntegerNegative
  else
    let input := remove_zeroes s in
    if (n <? length input)%nat then Err IntegerTooLarge
    else Ok (repeat 0 (n - length input) ++ input).

(** /repo/src/ber/integer.rs:95-121: [decode_array_int8] (n = 8) and
    [decode_array_int4] (n = 4): left-pad with 0xFF. *)
Definition decode_array_int (n : nat) (s : bytes) : res berror bytes :=
  let input := remove_zeroes s in
  if (n <? length input)%nat then Err IntegerTooLarge
  else Ok (repeat 255 (n - length input) ++ input).

(** core: [uN::from_be_bytes], [iN::from_be_bytes] and the cast [uN as iN] ([bits] = 8
    * n). Called at /repo/src/ber/ber.rs:417,444,469,498. *)
Definition u_from_be_bytes (s : bytes) : N := be_val s.
(** The cast [as iN], /repo/src/ber/ber.rs:417,444. *)
Definition wrap_signed (bits : N) (v : N) : Z :=
  if v <? 2 ^ (bits - 1) then Z.of_N v else (Z.of_N v - 2 ^ Z.of_N bits)%Z.
(** core [iN::from_be_bytes], called at /repo/src/ber/ber.rs:415,442. *)
Definition i_from_be_bytes (s : bytes) : Z := wrap_signed (8 * nlen s) (be_val s).

(** ** Accessors (src/ber/ber.rs) *)

(** /repo/src/ber/ber.rs:412-423 (n = 8) and 439-450 (n = 4) *)
Definition as_int (n : nat) (c : content) : res berror Z :=
  match c with
  | CInteger s =>
      if is_highest_bit_set s then
        let* a := decode_array_int n s in Ok (i_from_be_bytes a)
      else
        let* a := decode_array_uint n s in
        Ok (wrap_signed (8 * N.of_nat n) (u_from_be_bytes a))
  | _ => Err BerValueError
  end.
(** /repo/src/ber/ber.rs:412-423 *)
Definition as_i64 (c : content) : res berror Z := as_int 8 c.
(** /repo/src/ber/ber.rs:439-450 *)
Definition as_i32 (c : content) : res berror Z := as_int 4 c.

(** /repo/src/ber/parser.rs:76-99.  [raw_bytes.len() * 8] is computed without
    overflow (slices are shorter than 2^61 octets); the u64 accumulator wraps;
    [&raw_bytes[..num_bytes]] out of range is [Panic]. *)
Definition bitstring_to_u64 (padding_bits : N) (raw_bytes : bytes) : res berror N :=
  let total := nlen raw_bytes * 8 in
  if total <? padding_bits then Err InvalidLength
  else
    let bit_size := total - padding_bits in
    if 64 <? bit_size then Err IntegerTooLarge
    else
      let padding := padding_bits mod 8 in
      let num_bytes := if 0 <? bit_size mod 8 then bit_size / 8 + 1 else bit_size / 8 in
      if nlen raw_bytes <? num_bytes then Panic
      else
        let acc := fold_left
          (fun acc c => N.lor (N.shiftl acc 8 mod 18446744073709551616) c)
          (firstn (N.to_nat num_bytes) raw_bytes) 0 in
        Ok (N.shiftr acc padding).

(** /repo/src/ber/ber.rs:466-478 *)
Definition as_u64 (c : content) : res berror N :=
  match c with
  | CInteger s => let* a := decode_array_uint 8 s in Ok (u_from_be_bytes a)
  | CBitString ignored data => bitstring_to_u64 ignored data
  | CEnum i => Ok i
  | _ => Err BerTypeError
  end.

(** /repo/src/ber/ber.rs:495-519 *)
Definition as_u32 (c : content) : res berror N :=
  match c with
  | CInteger s => let* a := decode_array_uint 4 s in Ok (u_from_be_bytes a)
  | CBitString ignored data =>
      let* x := bitstring_to_u64 ignored data in
      if 4294967295 <? x then Err IntegerTooLarge else Ok x
  | CEnum i => if 4294967295 <? i then Err IntegerTooLarge else Ok i
  | _ => Err BerTypeError
  end.

(** /repo/src/ber/ber.rs:521-589 *)
Definition as_bool (c : content) : res berror bool :=
  match c with CBoolean b => Ok b | _ => Err BerTypeError end.
(** /repo/src/ber/ber.rs:528-534 *)
Definition as_oid (c : content) : res berror oid :=
  match c with COID o => Ok o | CRelativeOID o => Ok o | _ => Err BerTypeError end.
(** /repo/src/ber/ber.rs:540-546 *)
Definition as_optional (c : content) : res berror (option obj) :=
  match c with
  | COptional (Some o) => Ok (Some o)
  | COptional None => Ok None
  | _ => Err BerTypeError
  end.
(** /repo/src/ber/ber.rs:548-553 *)
Definition as_tagged (c : content) : res berror (class * tag * obj) :=
  match c with CTagged cl t o => Ok (cl, t, o) | _ => Err BerTypeError end.
(** /repo/src/ber/ber.rs:562-567 *)
Definition as_bitstring (c : content) : res berror bytes :=
  match c with CBitString _ b => Ok b | _ => Err BerTypeError end.
(** /repo/src/ber/ber.rs:577-582 *)
Definition as_sequence (c : content) : res berror (list obj) :=
  match c with CSequence l => Ok l | _ => Err BerTypeError end.
(** /repo/src/ber/ber.rs:584-589 *)
Definition as_set (c : content) : res berror (list obj) :=
  match c with CSet l => Ok l | _ => Err BerTypeError end.

(** /repo/src/ber/ber.rs:592-612 *)
Definition as_slice (c : content) : res berror bytes :=
  match c with
  | CStr _ s => Ok s
  | CInteger s => Ok s
  | CBitString _ s => Ok s
  | COctetString s => Ok s
  | CBmpString s => Ok s
  | CUniversalString s => Ok s
  | CUnknown a => Ok (a_data a)
  | _ => Err BerTypeError
  end.

(** /repo/src/ber/ber.rs:615-629 *)
Definition as_str (c : content) : res berror bytes :=
  match c with CStr _ s => Ok s | _ => Err BerTypeError end.

(** /repo/src/ber/ber.rs:689-694; num-bigint [BigInt::from_signed_bytes_be] is
    the two's complement value: the unsigned value, minus 2^(8n) when the top
    bit is set. *)
Definition bigint_from_signed_bytes_be (s : bytes) : Z :=
  if is_highest_bit_set s then (Z.of_N (be_val s) - 2 ^ (8 * Z.of_nat (length s)))%Z
  else Z.of_N (be_val s).
(** /repo/src/ber/ber.rs:689-694: a method of the object that looks at its
    content only *)
Definition as_bigint (c : content) : res berror Z :=
  match c with CInteger s => Ok (bigint_from_signed_bytes_be s) | _ => Err BerValueError end.

(** /repo/src/ber/ber.rs:711-721; num-bigint [BigUint::from_bytes_be]. *)
Definition as_biguint (c : content) : res berror N :=
  match c with
  | CInteger s => if is_highest_bit_set s then Err IntegerNegative else Ok (be_val s)
  | _ => Err BerValueError
  end.

(** /repo/src/ber/ber.rs:860-867 [BitStringObject::is_set]; the index is in
    range by the test of line 862 ([nth_error] failing would be a panic). *)
Definition bit_is_set (data : bytes) (bitnum : N) : res berror bool :=
  let byte_pos := bitnum / 8 in
  if nlen data <=? byte_pos then Ok false
  else
    let b := 7 - bitnum mod 8 in
    match nth_error data (N.to_nat byte_pos) with
    | None => Panic
    | Some x => Ok (negb (N.land x (N.shiftl 1 b) =? 0))
    end.

(** ** Conversion from [Any] (/repo/src/ber/ber.rs:724-756) *)
Definition try_from_any (L : leaves) (a : any) : res berror obj :=
  let h := a_header a in
  let* (_, c) := map_err err_of_nerr
    (ber_read_element_content_as L (a_data a) (h_tag h) (h_length h) (h_constructed h)
       MAX_RECURSION) in
  Ok (Obj h c).

(** ** Iterators and indexing (src/ber/ber.rs) *)

(** /repo/src/ber/ber.rs:772-800 [BerObjectIntoIterator::next]: item and new
    state.  [self.idx += 1] does not overflow in the model. *)
Definition into_iter_next (st : obj * nat) : option obj * (obj * nat) :=
  let (val, idx) := st in
  let default := if (idx =? 0)%nat then Some val else None in
  let r :=
    match o_content val with
    | CSequence v => if (idx <? length v)%nat then nth_error v idx else default
    | CSet v => if (idx <? length v)%nat then nth_error v idx else default
    | _ => default
    end in
  (r, (val, S idx)).

(** /repo/src/ber/ber.rs:810-827 [BerObjectRefIterator::next] *)
Definition ref_iter_next (st : obj * nat) : option obj * (obj * nat) :=
  let (o, idx) := st in
  let r :=
    match o_content o with
    | CSequence v => if (idx <? length v)%nat then nth_error v idx else None
    | CSet v => if (idx <? length v)%nat then nth_error v idx else None
    | _ => None
    end in
  (r, (o, S idx)).

(** /repo/src/ber/ber.rs:763-769 and 830-832 *)
Definition into_iter (o : obj) : obj * nat := (o, O).
(** /repo/src/ber/ber.rs:830-832 *)
Definition ref_iter (o : obj) : obj * nat := (o, O).

(** The first [n] results of repeatedly calling [next] (Rust's [for]/[by_ref] loops
    are built from this). Used for the iterators of /repo/src/ber/ber.rs:777-832. *)
Fixpoint nexts {S : Type} (next : S -> option obj * S) (n : nat) (st : S) : list (option obj) :=
  match n with
  | O => []
  | Datatypes.S n' => let (r, st') := next st in r :: nexts next n' st'
  end.

(** /repo/src/ber/ber.rs:835-850 [Index::index] *)
Definition obj_index (o : obj) (idx : nat) : res berror obj :=
  match o_content o with
  | CSequence v =>
      if (idx <? length v)%nat
      then match nth_error v idx with Some x => Ok x | None => Panic end
      else Panic
  | CSet v =>
      if (idx <? length v)%nat
      then match nth_error v idx with Some x => Ok x | None => Panic end
      else Panic
  | _ => Panic
  end.
