(** * The crate on a target whose [usize] has [k] octets

    In the other files [usize] has 64 bits.  Here are, once more, the functions
    whose result can depend on the width: those that read a length (every reader of
    headers), that write one, and that multiply a number of octets by eight.  [k] is
    4 or 8 ([MAX_OBJECT_SIZE] does not fit a smaller [usize]).  Depths and indices
    are far below either width and stay as they are. *)

From Verif Require Import Base Asn1rs Ber Der Serialize Combinators.

(** One more than [usize::MAX]; /repo/src/ber/parser.rs:11 needs [k >= 4]. *)
Definition usize_limit (k : nat) : N := 256 ^ N.of_nat k.

(** ** Reading *)

(** asn1-rs: the length octets, shared by [Header::from_ber] and
    [Header::from_der]; the [u64] value is converted with [usize::try_from]. Called at
    /repo/src/ber/parser.rs:117 and /repo/src/der/parser.rs:631. *)
Definition parse_length_w (k : nat) (indef : res (nerr berror) blen) (i : bytes)
  : iresult berror blen :=
  match i with
  | [] => Err (Incomplete (needed_new 1))
  | b :: rest =>
      if b <? 128 then Ok (rest, Definite b)
      else if b =? 128 then let* l := indef in Ok (rest, l)
      else if b =? 255 then Err (Error InvalidLength)
      else
        let* (rest', llen) := take_streaming (b - 128) rest in
        match bytes_to_u64 llen with
        | None => Err (Error InvalidLength)
        | Some l => if l <? usize_limit k then Ok (rest', Definite l) else Err (Error InvalidLength)
        end
  end.

(** asn1-rs [Header::from_ber], called at /repo/src/ber/parser.rs:117. *)
Definition header_from_ber_w (k : nat) (i : bytes) : iresult berror header :=
  let* (r1, (cls, constructed, t, raw)) := parse_identifier i in
  let* (r2, l) := parse_length_w k
      (if constructed then Ok Indefinite else Err (Error ConstructExpected)) r1 in
  Ok (r2, mkHeader cls constructed t l (Some raw)).

(** asn1-rs [Header::from_der], called at /repo/src/der/parser.rs:631. *)
Definition header_from_der_w (k : nat) (i : bytes) : iresult berror header :=
  let* (r1, (cls, constructed, t, raw)) := parse_identifier i in
  let* (r2, l) := parse_length_w k
      (Err (Error (DerConstraintFailed DcIndefiniteLength))) r1 in
  Ok (r2, mkHeader cls constructed t l (Some raw)).

(** /repo/src/ber/parser.rs:36-45 and its copy in asn1-rs. *)
Fixpoint skip_loop_w (k : nat) (skip1 : bytes -> header -> iresult berror bool)
    (fuel : nat) (i : bytes) : iresult berror bool :=
  match fuel with
  | O => Diverge
  | S fuel' =>
      let* (i2, header2) := header_from_ber_w k i in
      let* (i3, eoc) := skip1 i2 header2 in
      if eoc then Ok (i3, false) else skip_loop_w k skip1 fuel' i3
  end.

(** /repo/src/ber/parser.rs:14-48 and its copy in asn1-rs. *)
Fixpoint skip_w (k : nat) (max_depth : nat) (i : bytes) (hdr : header) {struct max_depth}
  : iresult berror bool :=
  match max_depth with
  | O => Err (Error BerMaxDepth)
  | S d' =>
      match h_length hdr with
      | Definite l =>
          if (l =? 0) && (h_tag hdr =? T_EndOfContent) then Ok (i, true)
          else let* (i', _) := take_streaming l i in Ok (i', false)
      | Indefinite =>
          if negb (h_constructed hdr) then Err (Error ConstructExpected)
          else skip_loop_w k (skip_w k d') (S (length i)) i
      end
  end.

(** /repo/src/ber/parser.rs:51-68 and its copy in asn1-rs. *)
Definition get_content_w (k : nat) (i : bytes) (hdr : header) (max_depth : nat)
  : iresult berror bytes :=
  let* (r, _) := skip_w k max_depth i hdr in
  let len := (length i - length r)%nat in
  let content := firstn len i in
  let i' := skipn len i in
  match h_length hdr with
  | Indefinite =>
      if (length content <? 2)%nat then Panic
      else Ok (i', firstn (length content - 2) content)
  | Definite _ => Ok (i', content)
  end.

(** asn1-rs [Any::from_ber], called at /repo/src/ber/wrap_any.rs:15,26,33. *)
Definition any_from_ber_w (k : nat) (i : bytes) : iresult berror any :=
  let* (i1, h) := header_from_ber_w k i in
  let* (i2, data) := get_content_w k i1 h ASN1_MAX_RECURSION in
  Ok (i2, mkAny h data).

(** asn1-rs [Any::from_der], part of [<iN/uN>::from_der] called at
    /repo/src/der/parser.rs:373-398. *)
Definition any_from_der_w (k : nat) (i : bytes) : iresult berror any :=
  let* (i1, h) := header_from_der_w k i in
  let* l := map_err nerr_of_err (length_definite (h_length h)) in
  let* (i2, data) := take_streaming l i1 in
  Ok (i2, mkAny h data).

(** /repo/src/ber/wrap_any.rs:147-153 and 158-164. *)
Fixpoint iter_collect_w (k : nat) (conv : any -> res berror obj) (fuel : nat) (data : bytes)
  : res berror (list obj) :=
  match data with
  | [] => Ok []
  | _ :: _ =>
      match fuel with
      | O => Diverge
      | S fuel' =>
          let* (r, a) := map_err err_of_nerr (any_from_ber_w k data) in
          let* o := conv a in
          let* os := iter_collect_w k conv fuel' r in
          Ok (o :: os)
      end
  end.

(** /repo/src/ber/wrap_any.rs:79-192.  Only the SEQUENCE and SET arms read lengths;
    for the others the function of Ber.v is used. *)
Fixpoint from_any_w (k : nat) (L : leaves) (max_depth : nat) (a : any) {struct max_depth}
  : res berror obj :=
  match max_depth with
  | O => Err BerMaxDepth
  | S d' =>
      let h := a_header a in
      let data := a_data a in
      if negb (class_eqb (h_class h) Universal) then try_berobject_from_any L (S d') a
      else
        match utag_of (h_tag h) with
        | USequence =>
            let* _ := assert_constructed h in
            let* l := iter_collect_w k (from_any_w k L d') (length data) data in
            Ok (Obj h (CSequence l))
        | USet =>
            let* _ := assert_constructed h in
            let* l := iter_collect_w k (from_any_w k L d') (length data) data in
            Ok (Obj h (CSet l))
        | _ => try_berobject_from_any L (S d') a
        end
  end.

(** /repo/src/ber/wrap_any.rs:58-76. *)
Definition content_as_w (k : nat) (L : leaves) (i : bytes) (t : tag) (l : blen)
    (constructed : bool) (max_depth : nat) : iresult berror content :=
  let read :=
    let h := header_new Universal constructed t l in
    let* (r, data) := get_content_w k i h max_depth in
    let* o := map_err nerr_of_err (from_any_w k L max_depth (mkAny h data)) in
    Ok (r, o_content o) in
  match l with
  | Definite n =>
      if MAX_OBJECT_SIZE <? n then Err (Error InvalidLength)
      else if nlen i <? n then Err (Incomplete (needed_new n))
      else read
  | Indefinite => read
  end.

(** /repo/src/ber/parser.rs:618-620 with /repo/src/ber/wrap_any.rs:24-29. *)
Definition parse_ber_recursive_w (k : nat) (L : leaves) (i : bytes) (max_depth : nat)
  : iresult berror obj :=
  if (max_depth =? 0)%nat then Err (Error BerMaxDepth)
  else
    let* (r, a) := any_from_ber_w k i in
    let* o := map_err nerr_of_err (from_any_w k L max_depth a) in
    Ok (r, o).

(** /repo/src/ber/parser.rs:233-245. *)
Definition parse_ber_with_tag_w (k : nat) (L : leaves) (i : bytes) (t : tag)
  : iresult berror obj :=
  let* (i1, hdr) := header_from_ber_w k i in
  let* _ := map_err nerr_of_err (assert_tag hdr t) in
  let* (i2, c) := content_as_w k L i1 (h_tag hdr) (h_length hdr) (h_constructed hdr)
                    MAX_RECURSION in
  Ok (i2, Obj hdr c).

(** /repo/src/der/parser.rs:481-548; the checks of one type are those of Der.v: where
    they pass, the content is read with [content_as_w]. *)
Definition der_content_as_w (k : nat) (L : leaves) (i : bytes) (t : tag) (length : blen)
    (constructed : bool) (max_depth : nat) : iresult berror content :=
  let* l := map_err nerr_of_err (length_definite length) in
  if nlen i <? l then Err (Incomplete (needed_new l))
  else
    let continue := content_as_w k L i t length constructed max_depth in
    match utag_of t with
    | UBoolean =>
        if negb (l =? 1) then Err (Error InvalidLength)
        else
          match i with
          | [] => Panic
          | b :: _ =>
              if negb (b =? 0) && negb (b =? 255)
              then Err (Error (DerConstraintFailed DcInvalidBoolean))
              else continue
          end
    | UBitString =>
        if constructed then Err (Error (DerConstraintFailed DcConstructed))
        else der_read_content_bitstring i l
    | UInteger =>
        match firstn (N.to_nat l) i with
        | [] => Err (Error (DerConstraintFailed DcIntegerEmpty))
        | b0 :: b1 :: _ =>
            if (b0 =? 0) && (b1 =? 0)
            then Err (Error (DerConstraintFailed DcIntegerLeadingZeroes))
            else if (b0 =? 0) && (b1 <? 128)
            then Err (Error (DerConstraintFailed DcIntegerLeadingZeroes))
            else continue
        | _ => continue
        end
    | UStr _ | UBmpString | UUniversalString =>
        if constructed then Err (Error (DerConstraintFailed DcConstructed)) else continue
    | UUtcTime | UGeneralizedTime =>
        if (l =? 0) || negb (match nth_error i (N.to_nat (l - 1)) with
                             | Some b => b =? 90
                             | None => false
                             end)
        then Err (Error (DerConstraintFailed DcMissingTimeZone))
        else continue
    | _ => continue
    end.

(** /repo/src/der/parser.rs:557-583. *)
Definition der_content_recursive_w (k : nat) (L : leaves) (i : bytes) (hdr : header)
    (max_depth : nat) : iresult berror obj :=
  let unknown :=
    let* (r, data) := get_content_w k i hdr max_depth in
    Ok (r, Obj hdr (CUnknown (mkAny hdr data))) in
  match h_class hdr with
  | Universal =>
      match der_content_as_w k L i (h_tag hdr) (h_length hdr) (h_constructed hdr) max_depth with
      | Ok (r, c) => Ok (r, Obj hdr c)
      | Err (Error (UnknownTag _)) => unknown
      | Err e => Err e
      | Panic => Panic
      | Diverge => Diverge
      end
  | _ => unknown
  end.

(** /repo/src/der/parser.rs:47-54. *)
Definition parse_der_recursive_w (k : nat) (L : leaves) (i : bytes) (max_depth : nat)
  : iresult berror obj :=
  let* (i1, hdr) := header_from_der_w k i in
  match h_length hdr with
  | Definite l =>
      if MAX_OBJECT_SIZE <? l then Err (Error InvalidLength)
      else der_content_recursive_w k L i1 hdr max_depth
  | Indefinite => der_content_recursive_w k L i1 hdr max_depth
  end.

(** /repo/src/der/parser.rs:70-82. *)
Definition parse_der_with_tag_w (k : nat) (L : leaves) (i : bytes) (t : tag)
  : iresult berror obj :=
  let* (i1, hdr) := header_from_der_w k i in
  let* _ := map_err nerr_of_err (assert_tag hdr t) in
  let* (i2, c) := der_content_as_w k L i1 (h_tag hdr) (h_length hdr) (h_constructed hdr)
                    MAX_RECURSION in
  Ok (i2, Obj hdr c).

(** asn1-rs [<uN>::from_ber] and [<uN>::from_der], called at
    /repo/src/ber/parser.rs:581,590 and /repo/src/der/parser.rs:390,398. *)
Definition uint_from_ber_w (k n : nat) (i : bytes) : iresult berror N :=
  let* (r, a) := any_from_ber_w k i in
  let* v := map_err nerr_of_err
    (let* _ := assert_tag (a_header a) T_Integer in
     let* _ := assert_primitive (a_header a) in
     asn1_decode_uint n (a_data a)) in
  Ok (r, v).
(** asn1-rs [<iN>::from_ber], called at /repo/src/ber/parser.rs:563,572. *)
Definition int_from_ber_w (k n : nat) (i : bytes) : iresult berror Z :=
  let* (r, a) := any_from_ber_w k i in
  let* v := map_err nerr_of_err
    (let* _ := assert_tag (a_header a) T_Integer in
     let* _ := assert_primitive (a_header a) in
     asn1_decode_int n (a_data a)) in
  Ok (r, v).
(** asn1-rs [<uN>::from_der], called at /repo/src/der/parser.rs:390,398. *)
Definition uint_from_der_w (k n : nat) (i : bytes) : iresult berror N :=
  let* (r, a) := any_from_der_w k i in
  let* v := map_err nerr_of_err
    (let* _ := assert_tag (a_header a) T_Integer in
     let* _ := check_der_int_constraints a in
     asn1_decode_uint n (a_data a)) in
  Ok (r, v).
(** asn1-rs [<iN>::from_der], called at /repo/src/der/parser.rs:373,382. *)
Definition int_from_der_w (k n : nat) (i : bytes) : iresult berror Z :=
  let* (r, a) := any_from_der_w k i in
  let* v := map_err nerr_of_err
    (let* _ := assert_tag (a_header a) T_Integer in
     let* _ := check_der_int_constraints a in
     asn1_decode_int n (a_data a)) in
  Ok (r, v).

(** /repo/src/ber/multi.rs:514-530. *)
Definition parse_ber_container_w (k : nat) {E A} (ops : err_ops E)
    (f : bytes -> header -> iresult E A) (i : bytes) : iresult E A :=
  let* (i1, hdr) := map_err (err_convert ops) (header_from_ber_w k i) in
  let* (i2, data) :=
    match h_length hdr with
    | Definite len => take_complete ops len i1
    | Indefinite => map_err (err_convert ops) (get_content_w k i1 hdr MAX_RECURSION)
    end in
  let* (_, v) := f data hdr in
  Ok (i2, v).

(** /repo/src/der/multi.rs:515-534. *)
Definition parse_der_container_w (k : nat) {E A} (ops : err_ops E)
    (f : bytes -> header -> iresult E A) (i : bytes) : iresult E A :=
  let* (i1, hdr) := map_err (err_convert ops) (header_from_der_w k i) in
  let* (i2, data) :=
    match h_length hdr with
    | Definite len => take_complete ops len i1
    | Indefinite => Err (err_into ops (DerConstraintFailed DcIndefiniteLength))
    end in
  let* (_, v) := f data hdr in
  Ok (i2, v).

(** ** Writing *)

(** /repo/src/ber/serialize.rs:13-36: [sz.to_be_bytes()] has [k] octets. *)
Definition encode_length_w (k : nat) (l : blen) : gen :=
  match l with
  | Definite sz =>
      if sz <=? 127 then Ok [sz]
      else
        let v := skip_zeroes (to_be_bytes k sz) in
        let b0 := N.lor 128 (nlen v mod 256) in
        gen_seq (Ok [b0]) (Ok v)
  | Indefinite => Ok [128]
  end.

(** /repo/src/ber/serialize.rs:42-54 *)
Definition encode_header_w (k : nat) (hdr : header) : gen :=
  let class_u8 := N.shiftl (class_to_u8 (h_class hdr)) 6 in
  let pc_u8 := N.shiftl (if h_constructed hdr then 1 else 0) 5 in
  if 30 <? h_tag hdr then Panic
  else
    let byte_0 := N.lor (N.lor class_u8 pc_u8) (h_tag hdr mod 256) in
    gen_seq (Ok [byte_0]) (encode_length_w k (h_length hdr)).

(** /repo/src/ber/serialize.rs:202-206 *)
Definition with_header_w (k : nat) (hdr : header) (content : gen) : gen :=
  let* v := content in
  let* v_hdr := encode_header_w k (with_length hdr (Definite (nlen v))) in
  Ok (v_hdr ++ v).

(** /repo/src/ber/serialize.rs:116-172 and 197-208; the variants without an object
    inside are written as in Serialize.v ([Enum] holds a [u64] on every target). *)
Fixpoint encode_content_w (k : nat) (L : leaves) (c : content) {struct c} : gen :=
  match c with
  | CSequence v => gen_many (encode_object_w k L) v
  | CSet v => gen_many (encode_object_w k L) v
  | COptional (Some (Obj _ c')) => encode_content_w k L c'
  | CTagged _ _ inner => encode_object_w k L inner
  | c => ber_encode_object_content L c
  end
with encode_object_w (k : nat) (L : leaves) (o : obj) {struct o} : gen :=
  match o with
  | Obj hdr c => with_header_w k hdr (encode_content_w k L c)
  end.

(** /repo/src/ber/serialize.rs:80-94 *)
Definition encode_tagged_explicit_w (k : nat) (L : leaves) (t : tag) (c : class) (o : obj) : gen :=
  let* v := encode_object_w k L o in
  let* v_hdr := encode_header_w k (header_new c true t (Definite (nlen v))) in
  Ok (v_hdr ++ v).

(** /repo/src/ber/serialize.rs:100-114 *)
Definition encode_tagged_implicit_w (k : nat) (L : leaves) (t : tag) (c : class) (o : obj) : gen :=
  let* v := encode_content_w k L (o_content o) in
  let* v_hdr := encode_header_w k
      (header_new c (h_constructed (o_header o)) t (Definite (nlen v))) in
  Ok (v_hdr ++ v).

(** /repo/src/ber/serialize.rs:181-186 *)
Definition encode_object_raw_w (k : nat) (L : leaves) (hdr : header) (c : content) : gen :=
  gen_seq (encode_header_w k hdr) (encode_content_w k L c).

(** ** Counting bits *)

(** /repo/src/ber/parser.rs:81: [raw_bytes.len() * 8].  With overflow checks (a debug
    build) the multiplication panics, without them it wraps. *)
Definition len_times_8_w (k : nat) (checks : bool) (raw_bytes : bytes) : res berror N :=
  if nlen raw_bytes * 8 <? usize_limit k then Ok (nlen raw_bytes * 8)
  else if checks then Panic else Ok ((nlen raw_bytes * 8) mod usize_limit k).

(** /repo/src/ber/parser.rs:76-99 *)
Definition bitstring_to_u64_w (k : nat) (checks : bool) (padding_bits : N) (raw_bytes : bytes)
  : res berror N :=
  let* total := len_times_8_w k checks raw_bytes in
  if total <? padding_bits then Err InvalidLength
  else
    let bit_size := total - padding_bits in
    if 64 <? bit_size then Err IntegerTooLarge
    else
      let padding := padding_bits mod 8 in
      let num_bytes := if 0 <? bit_size mod 8 then bit_size / 8 + 1 else bit_size / 8 in
      if nlen raw_bytes <? num_bytes then Panic
      else
        let acc := fold_left
          (fun acc c => N.lor (N.shiftl acc 8 mod 18446744073709551616) c)
          (firstn (N.to_nat num_bytes) raw_bytes) 0 in
        Ok (N.shiftr acc padding).

(** /repo/src/ber/ber.rs:466-478 *)
Definition as_u64_w (k : nat) (checks : bool) (c : content) : res berror N :=
  match c with
  | CBitString ignored data => bitstring_to_u64_w k checks ignored data
  | c => as_u64 c
  end.

(** /repo/src/ber/ber.rs:495-519 *)
Definition as_u32_w (k : nat) (checks : bool) (c : content) : res berror N :=
  match c with
  | CBitString ignored data =>
      let* x := bitstring_to_u64_w k checks ignored data in
      if 4294967295 <? x then Err IntegerTooLarge else Ok x
  | c => as_u32 c
  end.
