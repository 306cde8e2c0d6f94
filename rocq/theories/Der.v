(** * Model of the DER half of the crate: src/der/parser.rs. *)

From Verif Require Import Base Asn1rs Ber.

(** /repo/src/der/parser.rs:630-632 *)
Definition der_read_element_header (i : bytes) : iresult berror header :=
  header_from_der i.

(** /repo/src/der/parser.rs:599-602: [for _ in 0..ignored_bits] over the last
    data octet; [false] when some tested bit is 1. *)
Fixpoint unused_bits_zero (n : nat) (last_byte : N) : bool :=
  match n with
  | O => true
  | S n' =>
      if negb (N.land last_byte 1 =? 0) then false
      else unused_bits_zero n' (N.shiftr last_byte 1)
  end.

(** /repo/src/der/parser.rs:585-607 [der_read_content_bitstring].  [len - 1] is
    only computed when [len] is not 0 and [data[len - 2]] when [len > 1];
    out-of-range would be [Panic]. *)
Definition der_read_content_bitstring (i : bytes) (len : N) : iresult berror content :=
  let* (i1, ignored_bits) := be_u8 i in
  if 7 <? ignored_bits then Err (Error (InvalidValue T_BitString))
  else if len =? 0 then Err (Error InvalidLength)
  else
    let* (i2, data) := take_streaming (len - 1) i1 in
    if 1 <? len then
      match nth_error data (N.to_nat (len - 2)) with
      | None => Panic
      | Some last_byte =>
          if unused_bits_zero (N.to_nat ignored_bits) last_byte
          then Ok (i2, CBitString ignored_bits data)
          else Err (Error (DerConstraintFailed DcUnusedBitsNotZero))
      end
    else Ok (i2, CBitString ignored_bits data).

(** /repo/src/der/parser.rs:481-548 [der_read_element_content_as].  [i[0]] and
    [&i[..l]] are in range because of the test of line 490; out of range would
    be [Panic]. *)
Definition der_read_element_content_as (L : leaves) (i : bytes) (t : tag) (length : blen)
    (constructed : bool) (max_depth : nat) : iresult berror content :=
  let* l := map_err nerr_of_err (length_definite length) in
  if nlen i <? l then Err (Incomplete (needed_new l))
  else
    let continue := ber_read_element_content_as L i t length constructed max_depth in
    match utag_of t with
    | UBoolean =>                                                (* l.494-497 *)
        if negb (l =? 1) then Err (Error InvalidLength)
        else
          match i with
          | [] => Panic
          | b :: _ =>
              if negb (b =? 0) && negb (b =? 255)
              then Err (Error (DerConstraintFailed DcInvalidBoolean))
              else continue
          end
    | UBitString =>                                              (* l.498-502 *)
        if constructed then Err (Error (DerConstraintFailed DcConstructed))
        else der_read_content_bitstring i l
    | UInteger =>                                                (* l.503-523 *)
        match firstn (N.to_nat l) i with
        | [] => Err (Error (DerConstraintFailed DcIntegerEmpty))
        | b0 :: b1 :: _ =>
            if (b0 =? 0) && (b1 =? 0)
            then Err (Error (DerConstraintFailed DcIntegerLeadingZeroes))
            else if (b0 =? 0) && (b1 <? 128)
            then Err (Error (DerConstraintFailed DcIntegerLeadingZeroes))
            else continue
        | _ => continue
        end
    | UStr _ | UBmpString | UUniversalString =>                  (* l.524-537 *)
        if constructed then Err (Error (DerConstraintFailed DcConstructed)) else continue
    | UUtcTime | UGeneralizedTime =>                             (* l.538-544 *)
        if (l =? 0) || negb (match nth_error i (N.to_nat (l - 1)) with
                             | Some b => b =? 90
                             | None => false
                             end)
        then Err (Error (DerConstraintFailed DcMissingTimeZone))
        else continue
    | _ => continue                                              (* l.545 *)
    end.

(** /repo/src/der/parser.rs:557-583 [der_read_element_content_recursive] *)
Definition der_read_element_content_recursive (L : leaves) (i : bytes) (hdr : header)
    (max_depth : nat) : iresult berror obj :=
  let unknown :=
    let* (r, data) := ber_get_object_content i hdr max_depth in
    Ok (r, Obj hdr (CUnknown (mkAny hdr data))) in
  match h_class hdr with
  | Universal =>
      match der_read_element_content_as L i (h_tag hdr) (h_length hdr) (h_constructed hdr)
              max_depth with
      | Ok (r, c) => Ok (r, Obj hdr c)
      | Err (Error (UnknownTag _)) => unknown
      | Err e => Err e
      | Panic => Panic
      | Diverge => Diverge
      end
  | _ => unknown
  end.

(** /repo/src/der/parser.rs:553-555 *)
Definition der_read_element_content (L : leaves) (i : bytes) (hdr : header) : iresult berror obj :=
  der_read_element_content_recursive L i hdr MAX_RECURSION.

(** /repo/src/der/parser.rs:47-54 *)
Definition parse_der_recursive (L : leaves) (i : bytes) (max_depth : nat) : iresult berror obj :=
  let* (i1, hdr) := der_read_element_header i in
  match h_length hdr with
  | Definite l =>
      if MAX_OBJECT_SIZE <? l then Err (Error InvalidLength)
      else der_read_element_content_recursive L i1 hdr max_depth
  | Indefinite => der_read_element_content_recursive L i1 hdr max_depth
  end.

(** /repo/src/der/parser.rs:29-31 *)
Definition parse_der (L : leaves) (i : bytes) : iresult berror obj :=
  parse_der_recursive L i MAX_RECURSION.

(** /repo/src/der/parser.rs:70-82 *)
Definition parse_der_with_tag (L : leaves) (i : bytes) (t : tag) : iresult berror obj :=
  let* (i1, hdr) := der_read_element_header i in
  let* _ := map_err nerr_of_err (assert_tag hdr t) in
  let* (i2, c) := der_read_element_content_as L i1 (h_tag hdr) (h_length hdr)
                    (h_constructed hdr) MAX_RECURSION in
  Ok (i2, Obj hdr c).

(** /repo/src/der/parser.rs:86-299: the typed wrappers ([parse_der_bool],
    [parse_der_integer], ...) are [parse_der_with_tag] at the corresponding
    tag; the ones below are named for the theorems. *)
Definition parse_der_bool L i := parse_der_with_tag L i T_Boolean.
(** /repo/src/der/parser.rs:127-129 *)
Definition parse_der_integer L i := parse_der_with_tag L i T_Integer.
(** /repo/src/der/parser.rs:148-150 *)
Definition parse_der_bitstring L i := parse_der_with_tag L i T_BitString.

(** /repo/src/der/parser.rs:436-442 and 468-474 ([parse_der_content],
    [parse_der_content2]) *)
Definition parse_der_content (L : leaves) (t : tag) (i : bytes) (hdr : header)
    (max_recursion : nat) : iresult berror content :=
  der_read_element_content_as L i t (h_length hdr) (h_constructed hdr) max_recursion.

(** /repo/src/der/parser.rs:372-399 *)
Definition parse_der_i32 (i : bytes) : iresult berror Z := int_from_der 4 i.
(** /repo/src/der/parser.rs:381-383 *)
Definition parse_der_i64 (i : bytes) : iresult berror Z := int_from_der 8 i.
(** /repo/src/der/parser.rs:389-391 *)
Definition parse_der_u32 (i : bytes) : iresult berror N := uint_from_der 4 i.
(** /repo/src/der/parser.rs:397-399 *)
Definition parse_der_u64 (i : bytes) : iresult berror N := uint_from_der 8 i.
