(** * Model of the dependencies: the parts of asn1-rs 0.7 and nom 7 that
    /repo calls.

    The sources of these crates are not part of /repo and not available in
    the sandbox.  Everything in this file is therefore part of the trusted
    base (DESIGN.md, "Trusted base"); it follows the published behaviour of
    the crates, and Conformance.v checks it against the test vectors of
    /repo/tests.  The call sites in /repo are cited at each definition. *)

From Verif Require Import Base.

(** ** nom 7 *)

(** [nom::bytes::streaming::take] (used by /repo/src/ber/parser.rs:4,27 and
    /repo/src/der/parser.rs:7,596). *)
Definition take_streaming {E} (l : N) (i : bytes) : iresult E bytes :=
  if nlen i <? l then Err (Incomplete (needed_new (l - nlen i)))
  else Ok (skipn (N.to_nat l) i, firstn (N.to_nat l) i).

(** [nom::number::streaming::be_u8] (used by /repo/src/der/parser.rs:8,586). *)
Definition be_u8 {E} (i : bytes) : iresult E N :=
  match i with
  | [] => Err (Incomplete (needed_new 1))
  | b :: r => Ok (r, b)
  end.

(** ** asn1-rs header parsing *)

(** [Class::try_from(b0 >> 6)]. Part of [Header::from_ber], called at
    /repo/src/ber/parser.rs:117. *)
Definition class_of_bits (b : N) : class :=
  match b with
  | 0 => Universal
  | 1 => Application
  | 2 => ContextSpecific
  | _ => Private
  end.

(** [class as u8] (used by /repo/src/ber/serialize.rs:45) *)
Definition class_to_u8 (c : class) : N :=
  match c with
  | Universal => 0
  | Application => 1
  | ContextSpecific => 2
  | Private => 3
  end.

(** Wrapping of a [u32] in asn1-rs [parse_identifier], called through
    /repo/src/ber/parser.rs:117. *)
Definition u32_mod (n : N) : N := n mod 4294967296.

(** Loop of asn1-rs [parse_identifier] for the high tag number form. [k] is
    [tag_byte_count] (starting at 1), [c] the accumulated u32 tag, [raw] the
    identifier octets read so far. [None] is [Err::Error(InvalidTag)]: input
    exhausted, or more than 5 subsequent octets. [b & 0x7f] is written [b mod 128], [b
    & 0x80 == 0] is written [b <? 128] and the u32 [(c << 7) | x] is written [(c*128)
    mod 2^32 + x]. Part of [Header::from_ber], called at /repo/src/ber/parser.rs:117.
    *)
Fixpoint high_tag (k : N) (c : N) (raw : bytes) (rest : bytes)
  : option (N * bytes * bytes) :=
  match rest with
  | [] => None
  | b :: rest' =>
      if 5 <? k then None
      else
        let c' := u32_mod (c * 128) + b mod 128 in
        if b <? 128 then Some (c', raw ++ [b], rest')
        else high_tag (k + 1) c' (raw ++ [b]) rest'
  end.

(** asn1-rs [parse_identifier]. Part of [Header::from_ber], called at
    /repo/src/ber/parser.rs:117. *)
Definition parse_identifier (i : bytes) : iresult berror (class * bool * tag * bytes) :=
  match i with
  | [] => Err (Incomplete (needed_new 1))
  | b :: rest =>
      let cls := class_of_bits (b / 64) in
      let constructed := N.odd (b / 32) in
      let t := b mod 32 in
      if t =? 31 then
        match high_tag 1 0 [b] rest with
        | None => Err (Error InvalidTag)
        | Some (c, raw, rest') => Ok (rest', (cls, constructed, c, raw))
        end
      else Ok (rest, (cls, constructed, t, [b]))
  end.

(** Big-endian value of a byte string (unbounded). Used for the length octets
    (/repo/src/ber/parser.rs:117) and integers (/repo/src/ber/parser.rs:563-590). *)
Definition be_val (s : bytes) : N := fold_left (fun acc b => acc * 256 + b) s 0.

(** asn1-rs [bytes_to_u64]: fails iff the value does not fit 64 bits (the code tests
    the top octet before each shift, so leading zeros are fine). Part of
    [Header::from_ber] (/repo/src/ber/parser.rs:117) and [Any::enumerated]
    (/repo/src/ber/wrap_any.rs:118). *)
Definition bytes_to_u64 (s : bytes) : option N :=
  if be_val s <? 18446744073709551616 then Some (be_val s) else None.

(** Length octets, shared by [Header::from_ber] and [Header::from_der]; [indef] is the
    result for the octet 0x80. Called at /repo/src/ber/parser.rs:117 and
    /repo/src/der/parser.rs:631. *)
Definition parse_length (indef : res (nerr berror) blen) (i : bytes) : iresult berror blen :=
  match i with
  | [] => Err (Incomplete (needed_new 1))
  | b :: rest =>
      if b <? 128 then Ok (rest, Definite b)
      else if b =? 128 then let* l := indef in Ok (rest, l)
      else if b =? 255 then Err (Error InvalidLength)
      else
        let* (rest', llen) := take_streaming (b - 128) rest in
        match bytes_to_u64 llen with
        | None => Err (Error InvalidLength)
        | Some l => Ok (rest', Definite l)
        end
  end.

(** asn1-rs [Header::from_ber] (called at /repo/src/ber/parser.rs:117) *)
Definition header_from_ber (i : bytes) : iresult berror header :=
  let* (r1, (cls, constructed, t, raw)) := parse_identifier i in
  let* (r2, l) := parse_length
      (if constructed then Ok Indefinite else Err (Error ConstructExpected)) r1 in
  Ok (r2, mkHeader cls constructed t l (Some raw)).

(** asn1-rs [Header::from_der] (called at /repo/src/der/parser.rs:631) *)
Definition header_from_der (i : bytes) : iresult berror header :=
  let* (r1, (cls, constructed, t, raw)) := parse_identifier i in
  let* (r2, l) := parse_length
      (Err (Error (DerConstraintFailed DcIndefiniteLength))) r1 in
  Ok (r2, mkHeader cls constructed t l (Some raw)).

(** asn1-rs [Header::assert_tag], [assert_constructed], [assert_primitive],
    [Length::definite]. Called at /repo/src/ber/parser.rs:236 and
    /repo/src/der/parser.rs:73. *)
Definition assert_tag (h : header) (t : tag) : res berror unit :=
  if h_tag h =? t then Ok tt else Err (UnexpectedTag (Some t) (h_tag h)).
(** asn1-rs [Header::assert_constructed], called at /repo/src/ber/wrap_any.rs:146,157
    and /repo/src/ber/tagged.rs:99. *)
Definition assert_constructed (h : header) : res berror unit :=
  if h_constructed h then Ok tt else Err ConstructExpected.
(** asn1-rs [Header::assert_primitive], called at /repo/src/ber/ber.rs:379 and inside
    asn1-rs. *)
Definition assert_primitive (h : header) : res berror unit :=
  if h_constructed h then Err ConstructUnexpected else Ok tt.
(** asn1-rs [Length::definite], called at /repo/src/der/parser.rs:489. *)
Definition length_definite (l : blen) : res berror N :=
  match l with
  | Definite n => Ok n
  | Indefinite => Err IndefiniteLengthUnexpected
  end.

(** ** asn1-rs [Any::from_ber] *)

(** asn1-rs's own recursion limit in [Any::from_ber], called at
    /repo/src/ber/wrap_any.rs:15,26. *)
Definition ASN1_MAX_RECURSION : nat := 50.

(** The loop of [skip_object_content] (asn1-rs ber/mod.rs): read headers and skip
    contents until one is an end-of-contents. [skip1] is the recursive call with the
    decremented depth. Same loop as /repo/src/ber/parser.rs:37-45. *)
Fixpoint asn1_skip_loop (skip1 : bytes -> header -> iresult berror bool)
    (fuel : nat) (i : bytes) : iresult berror bool :=
  match fuel with
  | O => Diverge
  | S fuel' =>
      let* (i2, h2) := header_from_ber i in
      let* (i3, eoc) := skip1 i2 h2 in
      if eoc then Ok (i3, false) else asn1_skip_loop skip1 fuel' i3
  end.

(** asn1-rs [ber_skip_object_content] (same algorithm as the copy in
    /repo/src/ber/parser.rs:14-48). *)
Fixpoint asn1_skip (d : nat) (i : bytes) (h : header) {struct d} : iresult berror bool :=
  match d with
  | O => Err (Error BerMaxDepth)
  | S d' =>
      match h_length h with
      | Definite l =>
          if (l =? 0) && (h_tag h =? T_EndOfContent) then Ok (i, true)
          else let* (i', _) := take_streaming l i in Ok (i', false)
      | Indefinite =>
          if negb (h_constructed h) then Err (Error ConstructExpected)
          else asn1_skip_loop (asn1_skip d') (S (length i)) i
      end
  end.

(** asn1-rs [ber_get_object_content] (same algorithm as the copy in
    /repo/src/ber/parser.rs:51-68). *)
Definition asn1_get_content (d : nat) (i : bytes) (h : header) : iresult berror bytes :=
  let* (r, _) := asn1_skip d i h in
  let len := (length i - length r)%nat in
  let content := firstn len i in
  let i' := skipn len i in
  match h_length h with
  | Indefinite =>
      if (length content <? 2)%nat then Panic
      else Ok (i', firstn (length content - 2) content)
  | Definite _ => Ok (i', content)
  end.

(** asn1-rs [Any::from_ber] (called at /repo/src/ber/wrap_any.rs:15,26,33) *)
Definition any_from_ber (i : bytes) : iresult berror any :=
  let* (i1, h) := header_from_ber i in
  let* (i2, data) := asn1_get_content ASN1_MAX_RECURSION i1 h in
  Ok (i2, mkAny h data).

(** asn1-rs [Any::from_der]: definite length only, streaming take. Part of
    [<iN/uN>::from_der], called at /repo/src/der/parser.rs:373-398. *)
Definition any_from_der (i : bytes) : iresult berror any :=
  let* (i1, h) := header_from_der i in
  let* l := map_err nerr_of_err (length_definite (h_length h)) in
  let* (i2, data) := take_streaming l i1 in
  Ok (i2, mkAny h data).

(** ** Leaf decoders *)

(** Decoders of asn1-rs whose exact acceptance conditions are not needed and
    are left abstract: every theorem quantifies over this record.  They are
    total functions (no panic) of the constructed bit, the length field and the
    content octets of the [Any]; they do not read its raw tag, and class and tag
    are fixed where they are called.
    - [lf_oid_check], [lf_reloid_check]: the checks of [any.oid()] and
      [any.relative_oid()] ([None]: accepted; the value is the raw content);
    - [lf_utctime], [lf_gentime]: [any.utctime()], [any.generalizedtime()];
    - [lf_charset]: [test_valid_charset] of the types whose repertoire
      asn1-rs only checks loosely (Teletex, Videotex, Graphic, General,
      ObjectDescriptor);
    - [lf_show_datetime]: [format!("{}", time)] of [ASN1DateTime]
      (/repo/src/ber/serialize.rs:65). *)
Record leaves := mkLeaves {
  lf_oid_check : bool -> blen -> bytes -> option berror;
  lf_reloid_check : bool -> blen -> bytes -> option berror;
  lf_utctime : bool -> blen -> bytes -> berror + datetime;
  lf_gentime : bool -> blen -> bytes -> berror + datetime;
  lf_charset : strkind -> bytes -> bool;
  lf_show_datetime : datetime -> bytes
}.

(** asn1-rs [Any::bool] (called at /repo/src/ber/wrap_any.rs:113) *)
Definition any_bool (a : any) : res berror bool :=
  match h_length (a_header a) with
  | Definite 1 =>
      match a_data a with
      | [] => Panic
      | b :: _ => Ok (negb (b =? 0))
      end
  | _ => Err InvalidLength
  end.

(** asn1-rs [Any::enumerated] (called at /repo/src/ber/wrap_any.rs:118) *)
Definition any_enumerated (a : any) : res berror N :=
  let* _ := assert_primitive (a_header a) in
  match bytes_to_u64 (a_data a) with
  | None => Err IntegerTooLarge
  | Some v => if 4294967295 <? v then Err IntegerTooLarge else Ok v
  end.

(** asn1-rs [NumericString], [VisibleString], [PrintableString], [Ia5String]
    [::test_valid_charset]. [u8::is_ascii_digit] in the charset tests called at
    /repo/src/ber/wrap_any.rs:46. *)
Definition is_digit (b : N) : bool := (48 <=? b) && (b <=? 57).
(** [u8::is_ascii_uppercase] in the charset tests called at
    /repo/src/ber/wrap_any.rs:46. *)
Definition is_upper (b : N) : bool := (65 <=? b) && (b <=? 90).
(** [u8::is_ascii_lowercase] in the charset tests called at
    /repo/src/ber/wrap_any.rs:46. *)
Definition is_lower (b : N) : bool := (97 <=? b) && (b <=? 122).
(** [NumericString::test_valid_charset], called at /repo/src/ber/wrap_any.rs:46. *)
Definition numeric_char (b : N) : bool := is_digit b || (b =? 32).
(** [VisibleString::test_valid_charset], called at /repo/src/ber/wrap_any.rs:46. *)
Definition visible_char (b : N) : bool := (32 <=? b) && (b <=? 127).
(** [PrintableString::test_valid_charset], called at /repo/src/ber/wrap_any.rs:46. *)
Definition printable_char (b : N) : bool :=
  is_digit b || is_upper b || is_lower b
  || existsb (N.eqb b) [32; 39; 40; 41; 43; 44; 45; 46; 47; 58; 61; 63].
(** [Ia5String::test_valid_charset], called at /repo/src/ber/wrap_any.rs:46. *)
Definition ia5_char (b : N) : bool := b <? 128.

(** [core::str::from_utf8(s).is_ok()]: well-formed UTF-8 (Unicode table 3-7). Called
    at /repo/src/ber/wrap_any.rs:47. *)
Definition cont_byte (b : N) : bool := (128 <=? b) && (b <=? 191).
(** [core::str::from_utf8(s).is_ok()], called at /repo/src/ber/wrap_any.rs:47. *)
Fixpoint utf8_valid (s : bytes) : bool :=
  match s with
  | [] => true
  | b0 :: s1 =>
      if b0 <? 128 then utf8_valid s1
      else match s1 with
      | [] => false
      | b1 :: s2 =>
          if (194 <=? b0) && (b0 <=? 223) then cont_byte b1 && utf8_valid s2
          else match s2 with
          | [] => false
          | b2 :: s3 =>
              if b0 =? 224 then (160 <=? b1) && (b1 <=? 191) && cont_byte b2 && utf8_valid s3
              else if ((225 <=? b0) && (b0 <=? 236)) || (b0 =? 238) || (b0 =? 239)
              then cont_byte b1 && cont_byte b2 && utf8_valid s3
              else if b0 =? 237 then (128 <=? b1) && (b1 <=? 159) && cont_byte b2 && utf8_valid s3
              else match s3 with
              | [] => false
              | b3 :: s4 =>
                  if b0 =? 240
                  then (144 <=? b1) && (b1 <=? 191) && cont_byte b2 && cont_byte b3 && utf8_valid s4
                  else if (241 <=? b0) && (b0 <=? 243)
                  then cont_byte b1 && cont_byte b2 && cont_byte b3 && utf8_valid s4
                  else if b0 =? 244
                  then (128 <=? b1) && (b1 <=? 143) && cont_byte b2 && cont_byte b3 && utf8_valid s4
                  else false
              end
          end
      end
  end.

(** [String::from_utf16(v).is_ok()] of a list of u16 units. Called at
    /repo/src/ber/wrap_any.rs:109. *)
Fixpoint utf16_valid (v : list N) : bool :=
  match v with
  | [] => true
  | u :: v1 =>
      if (55296 <=? u) && (u <=? 56319) then
        match v1 with
        | [] => false
        | w :: v2 => (56320 <=? w) && (w <=? 57343) && utf16_valid v2
        end
      else if (56320 <=? u) && (u <=? 57343) then false
      else utf16_valid v1
  end.

(** [<T>::test_valid_charset(data)] (called at /repo/src/ber/wrap_any.rs:46) *)
Definition test_valid_charset (L : leaves) (k : strkind) (s : bytes) : bool :=
  match k with
  | KNumeric => forallb numeric_char s
  | KVisible => forallb visible_char s
  | KPrintable => forallb printable_char s
  | KIA5 => forallb ia5_char s
  | KUTF8 => utf8_valid s
  | _ => lf_charset L k s
  end.

(** ** Integer conversions [<iN/uN as FromBer/FromDer>] of asn1-rs
    (called at /repo/src/ber/parser.rs:563-590 and
    /repo/src/der/parser.rs:373-398). *)

(** asn1-rs [is_highest_bit_set]. Part of [<iN/uN>::from_ber],
    /repo/src/ber/parser.rs:563-590. *)
Definition asn1_highest_bit_set (s : bytes) : bool :=
  match s with
  | [] => false
  | b :: _ => negb (N.land b 128 =? 0)
  end.

(** asn1-rs [trim_slice]: drop leading zeros (all of them). Part of
    [<iN/uN>::from_ber], /repo/src/ber/parser.rs:563-590. *)
Fixpoint trim_slice (s : bytes) : bytes :=
  match s with
  | 0 :: r => trim_slice r
  | _ => s
  end.

(** asn1-rs [decode_array_uint] then [uN::from_be_bytes]; [n] is the width in octets.
    Part of [<uN>::from_ber], /repo/src/ber/parser.rs:581,590. *)
Definition asn1_decode_uint (n : nat) (s : bytes) : res berror N :=
  if asn1_highest_bit_set s then Err IntegerNegative
  else
    let s' := trim_slice s in
    if (n <? length s')%nat then Err IntegerTooLarge else Ok (be_val s').

(** asn1-rs [iN::try_from(Any)]: negative values are sign-extended to [n] octets;
    non-negative ones are read as unsigned and must fit. Part of [<iN>::from_ber],
    /repo/src/ber/parser.rs:563,572. *)
Definition asn1_decode_int (n : nat) (s : bytes) : res berror Z :=
  if asn1_highest_bit_set s then
    if (n <? length s)%nat then Err IntegerTooLarge
    else Ok (Z.of_N (be_val s) - 2 ^ (8 * Z.of_nat (length s)))%Z
  else
    let* v := asn1_decode_uint n s in
    if 2 ^ (8 * N.of_nat n - 1) <=? v then Err IntegerTooLarge else Ok (Z.of_N v).

(** asn1-rs [check_der_int_constraints]. Part of [<iN/uN>::from_der],
    /repo/src/der/parser.rs:373-398. *)
Definition check_der_int_constraints (a : any) : res berror unit :=
  let* _ := assert_primitive (a_header a) in
  let* _ := length_definite (h_length (a_header a)) in
  match a_data a with
  | [] => Err (DerConstraintFailed DcIntegerEmpty)
  | [b] => Ok tt
  | b :: c :: _ =>
      if (b =? 0) && (c <? 128) then Err (DerConstraintFailed DcIntegerLeadingZeroes)
      else if (b =? 255) && (128 <=? c) then Err (DerConstraintFailed DcIntegerLeadingFF)
      else Ok tt
  end.

(** [<uN>::from_ber], [<iN>::from_ber]: [Any::from_ber], tag check, primitive check,
    conversion. Called at /repo/src/ber/parser.rs:581,590. *)
Definition uint_from_ber (n : nat) (i : bytes) : iresult berror N :=
  let* (r, a) := any_from_ber i in
  let* v := map_err nerr_of_err
    (let* _ := assert_tag (a_header a) T_Integer in
     let* _ := assert_primitive (a_header a) in
     asn1_decode_uint n (a_data a)) in
  Ok (r, v).
(** [<iN>::from_ber], called at /repo/src/ber/parser.rs:563,572. *)
Definition int_from_ber (n : nat) (i : bytes) : iresult berror Z :=
  let* (r, a) := any_from_ber i in
  let* v := map_err nerr_of_err
    (let* _ := assert_tag (a_header a) T_Integer in
     let* _ := assert_primitive (a_header a) in
     asn1_decode_int n (a_data a)) in
  Ok (r, v).

(** [<uN>::from_der], [<iN>::from_der]: as above with [Any::from_der] and the DER
    constraints. Called at /repo/src/der/parser.rs:390,398. *)
Definition uint_from_der (n : nat) (i : bytes) : iresult berror N :=
  let* (r, a) := any_from_der i in
  let* v := map_err nerr_of_err
    (let* _ := assert_tag (a_header a) T_Integer in
     let* _ := check_der_int_constraints a in
     asn1_decode_uint n (a_data a)) in
  Ok (r, v).
(** [<iN>::from_der], called at /repo/src/der/parser.rs:373,382. *)
Definition int_from_der (n : nat) (i : bytes) : iresult berror Z :=
  let* (r, a) := any_from_der i in
  let* v := map_err nerr_of_err
    (let* _ := assert_tag (a_header a) T_Integer in
     let* _ := check_der_int_constraints a in
     asn1_decode_int n (a_data a)) in
  Ok (r, v).
