(** * The readers with the addresses of what they borrow

    A [&[u8]] is an address and a length.  The same functions as in Asn1rs.v, Ber.v and
    Der.v, on slices that know where they begin, and returning beside each object the
    slices it borrows.  [start_i.offset(i)] is here the difference of two addresses. *)

From Verif Require Import Base Asn1rs Ber Der.

(** [&'a [u8]], the input of every reader (e.g. /repo/src/ber/parser.rs:639). *)
Record slice := mkSlice { s_at : nat; s_oct : bytes }.

(** [&i[..n]] and [&i[n..]] (/repo/src/ber/parser.rs:57, /repo/src/ber/wrap_any.rs:93);
    only used with [n] at most the length, so the panic of Rust is left out. *)
Definition s_take (n : nat) (s : slice) : slice := mkSlice (s_at s) (firstn n (s_oct s)).
Definition s_drop (n : nat) (s : slice) : slice := mkSlice (s_at s + n) (skipn n (s_oct s)).

(** What an object borrows: the octets of its tag ([Cow::Borrowed] in
    [Header::raw_tag]), those of its contents if it keeps them, and what the objects
    inside it borrow (/repo/src/ber/ber.rs:26-29,34-105).  A [CUnknown] holds a copy of the
    header with the same borrowed tag. *)
Inductive layout := Layout (tag_octets : slice) (data : option slice) (members : list layout).

(** [nom::bytes::streaming::take], used at /repo/src/ber/parser.rs:31 *)
Definition l_take_streaming (l : N) (i : slice) : res (nerr berror) (slice * slice) :=
  if nlen (s_oct i) <? l then Err (Incomplete (needed_new (l - nlen (s_oct i))))
  else Ok (s_drop (N.to_nat l) i, s_take (N.to_nat l) i).

(** asn1-rs [parse_identifier]: the tag octets are counted, then split off. Part of
    [Header::from_ber], called at /repo/src/ber/parser.rs:117. *)
Definition l_parse_identifier (i : slice) : res (nerr berror) (slice * (class * bool * tag * slice)) :=
  match s_oct i with
  | [] => Err (Incomplete (needed_new 1))
  | b :: rest =>
      let cls := class_of_bits (b / 64) in
      let constructed := N.odd (b / 32) in
      let t := b mod 32 in
      if t =? 31 then
        match high_tag 1 0 [b] rest with
        | None => Err (Error InvalidTag)
        | Some (c, raw, _) => let n := length raw in Ok (s_drop n i, (cls, constructed, c, s_take n i))
        end
      else Ok (s_drop 1 i, (cls, constructed, t, s_take 1 i))
  end.

(** Length octets, called at /repo/src/ber/parser.rs:117 and /repo/src/der/parser.rs:631. *)
Definition l_parse_length (indef : res (nerr berror) blen) (i : slice) : res (nerr berror) (slice * blen) :=
  match s_oct i with
  | [] => Err (Incomplete (needed_new 1))
  | b :: _ =>
      let rest := s_drop 1 i in
      if b <? 128 then Ok (rest, Definite b)
      else if b =? 128 then let* l := indef in Ok (rest, l)
      else if b =? 255 then Err (Error InvalidLength)
      else
        let* (rest', llen) := l_take_streaming (b - 128) rest in
        match bytes_to_u64 (s_oct llen) with
        | None => Err (Error InvalidLength)
        | Some l => Ok (rest', Definite l)
        end
  end.

(** asn1-rs [Header::from_ber] (called at /repo/src/ber/parser.rs:117), and the slice
    its raw tag borrows. *)
Definition l_header_from_ber (i : slice) : res (nerr berror) (slice * (header * slice)) :=
  let* (r1, (cls, constructed, t, raw)) := l_parse_identifier i in
  let* (r2, l) := l_parse_length
      (if constructed then Ok Indefinite else Err (Error ConstructExpected)) r1 in
  Ok (r2, (mkHeader cls constructed t l (Some (s_oct raw)), raw)).

(** asn1-rs [Header::from_der] (called at /repo/src/der/parser.rs:631) *)
Definition l_header_from_der (i : slice) : res (nerr berror) (slice * (header * slice)) :=
  let* (r1, (cls, constructed, t, raw)) := l_parse_identifier i in
  let* (r2, l) := l_parse_length (Err (Error (DerConstraintFailed DcIndefiniteLength))) r1 in
  Ok (r2, (mkHeader cls constructed t l (Some (s_oct raw)), raw)).

(** /repo/src/ber/parser.rs:36-45 and its copy in asn1-rs. *)
Fixpoint l_skip_loop (skip1 : slice -> header -> res (nerr berror) (slice * bool))
    (fuel : nat) (i : slice) : res (nerr berror) (slice * bool) :=
  match fuel with
  | O => Diverge
  | S fuel' =>
      let* (i2, (header2, _)) := l_header_from_ber i in
      let* (i3, eoc) := skip1 i2 header2 in
      if eoc : bool then Ok (i3, false) else l_skip_loop skip1 fuel' i3
  end.

(** /repo/src/ber/parser.rs:14-48 and its copy in asn1-rs. *)
Fixpoint l_skip (max_depth : nat) (i : slice) (hdr : header) {struct max_depth}
  : res (nerr berror) (slice * bool) :=
  match max_depth with
  | O => Err (Error BerMaxDepth)
  | S d' =>
      match h_length hdr with
      | Definite l =>
          if (l =? 0) && (h_tag hdr =? T_EndOfContent) then Ok (i, true)
          else let* (i', _) := l_take_streaming l i in Ok (i', false)
      | Indefinite =>
          if negb (h_constructed hdr) then Err (Error ConstructExpected)
          else l_skip_loop (l_skip d') (S (length (s_oct i))) i
      end
  end.

(** /repo/src/ber/parser.rs:51-68 and its copy in asn1-rs: [start_i.offset(i)] is the
    difference of the addresses. *)
Definition l_get_content (i : slice) (hdr : header) (max_depth : nat) : res (nerr berror) (slice * slice) :=
  let* (r, _) := l_skip max_depth i hdr in
  let len := (s_at r - s_at i)%nat in
  let content := s_take len i in
  let i' := s_drop len i in
  match h_length hdr with
  | Indefinite =>
      let n := length (s_oct content) in
      if (n <? 2)%nat then Panic else Ok (i', s_take (n - 2) content)
  | Definite _ => Ok (i', content)
  end.

(** asn1-rs [Any<'a>], with the slices its header and its data borrow
    (/repo/src/ber/wrap_any.rs:15,26). *)
Record lany := mkLany { la_header : header; la_raw : slice; la_data : slice }.

(** asn1-rs [Any::from_ber] (called at /repo/src/ber/wrap_any.rs:15,26,33) *)
Definition l_any_from_ber (i : slice) : res (nerr berror) (slice * lany) :=
  let* (i1, (h, raw)) := l_header_from_ber i in
  let* (i2, data) := l_get_content i1 h ASN1_MAX_RECURSION in
  Ok (i2, mkLany h raw data).

(** Which part of its contents an object of a given class and tag keeps, if it is
    accepted (/repo/src/ber/wrap_any.rs:79-192): a BIT STRING all but the first octet
    (line 93), the decoded types (BOOLEAN, ENUMERATED, the times), NULL and
    end-of-contents nothing, SEQUENCE and SET what their members keep. *)
Definition l_kept (h : header) (data : slice) : option slice :=
  if negb (class_eqb (h_class h) Universal) then Some data
  else
    match utag_of (h_tag h) with
    | UBitString => Some (s_drop 1 data)
    | UBoolean | UEndOfContent | UEnumerated | UGeneralizedTime | UNull | UUtcTime | USequence | USet => None
    | UBmpString | UStr _ | UInteger | UOctetString | UOid | URelativeOid | UUniversalString | UOther => Some data
    end.

(** The iterators of /repo/src/ber/wrap_any.rs:147-153,158-164, see [iter_collect]. *)
Fixpoint l_iter_collect (conv : lany -> res berror (obj * layout)) (fuel : nat) (data : slice)
  : res berror (list obj * list layout) :=
  match s_oct data with
  | [] => Ok ([], [])
  | _ :: _ =>
      match fuel with
      | O => Diverge
      | S fuel' =>
          let* (r, a) := map_err err_of_nerr (l_any_from_ber data) in
          let* (o, y) := conv a in
          let* (os, ys) := l_iter_collect conv fuel' r in
          Ok (o :: os, y :: ys)
      end
  end.

(** /repo/src/ber/wrap_any.rs:79-192.  SEQUENCE and SET iterate over the slice; the other
    arms make the object as in [try_berobject_from_any] from the octets of the slice and
    keep [l_kept] of it. *)
Fixpoint l_object (L : leaves) (max_depth : nat) (a : lany) {struct max_depth} : res berror (obj * layout) :=
  match max_depth with
  | O => Err BerMaxDepth
  | S d' =>
      let h := la_header a in
      let other :=
        let* o := try_berobject_from_any L max_depth (mkAny h (s_oct (la_data a))) in
        Ok (o, Layout (la_raw a) (l_kept h (la_data a)) []) in
      if negb (class_eqb (h_class h) Universal) then other
      else
        match utag_of (h_tag h) with
        | USequence =>
            let* _ := assert_constructed h in
            let* (l, ys) := l_iter_collect (l_object L d') (length (s_oct (la_data a))) (la_data a) in
            Ok (Obj h (CSequence l), Layout (la_raw a) None ys)
        | USet =>
            let* _ := assert_constructed h in
            let* (l, ys) := l_iter_collect (l_object L d') (length (s_oct (la_data a))) (la_data a) in
            Ok (Obj h (CSet l), Layout (la_raw a) None ys)
        | _ => other
        end
  end.

(** /repo/src/ber/wrap_any.rs:24-29, /repo/src/ber/parser.rs:618-620 *)
Definition l_parse_ber_recursive (L : leaves) (i : slice) (max_depth : nat)
  : res (nerr berror) (slice * (obj * layout)) :=
  if (max_depth =? 0)%nat then Err (Error BerMaxDepth)
  else
    let* (r, a) := l_any_from_ber i in
    let* oy := map_err nerr_of_err (l_object L max_depth a) in
    Ok (r, oy).

(** /repo/src/ber/parser.rs:639-641 *)
Definition l_parse_ber (L : leaves) (i : slice) : res (nerr berror) (slice * (obj * layout)) :=
  l_parse_ber_recursive L i MAX_RECURSION.

(** /repo/src/ber/wrap_any.rs:58-76, /repo/src/ber/parser.rs:144-152: the header made
    for the contents has no raw tag; [raw] is that of the header read before, which the
    callers put back (/repo/src/ber/parser.rs:244, /repo/src/der/parser.rs:81,569). *)
Definition l_content_as (L : leaves) (i : slice) (raw : slice) (t : tag) (l : blen)
    (constructed : bool) (max_depth : nat) : res (nerr berror) (slice * (content * layout)) :=
  let read :=
    let h := header_new Universal constructed t l in
    let* (r, data) := l_get_content i h max_depth in
    let* (o, y) := map_err nerr_of_err (l_object L max_depth (mkLany h raw data)) in
    Ok (r, (o_content o, y)) in
  match l with
  | Definite n =>
      if MAX_OBJECT_SIZE <? n then Err (Error InvalidLength)
      else if nlen (s_oct i) <? n then Err (Incomplete (needed_new n))
      else read
  | Indefinite => read
  end.

(** /repo/src/ber/parser.rs:233-245 *)
Definition l_parse_ber_with_tag (L : leaves) (i : slice) (t : tag) : res (nerr berror) (slice * (obj * layout)) :=
  let* (i1, (hdr, raw)) := l_header_from_ber i in
  let* _ := map_err nerr_of_err (assert_tag hdr t) in
  let* (i2, (c, y)) := l_content_as L i1 raw (h_tag hdr) (h_length hdr) (h_constructed hdr) MAX_RECURSION in
  Ok (i2, (Obj hdr c, y)).

(** /repo/src/der/parser.rs:585-607 *)
Definition l_der_content_bitstring (i : slice) (raw : slice) (len : N) : res (nerr berror) (slice * (content * layout)) :=
  match s_oct i with
  | [] => Err (Incomplete (needed_new 1))
  | ignored_bits :: _ =>
      if 7 <? ignored_bits then Err (Error (InvalidValue T_BitString))
      else if len =? 0 then Err (Error InvalidLength)
      else
        let* (i2, data) := l_take_streaming (len - 1) (s_drop 1 i) in
        let done := Ok (i2, (CBitString ignored_bits (s_oct data), Layout raw (Some data) [])) in
        if 1 <? len then
          match nth_error (s_oct data) (N.to_nat (len - 2)) with
          | None => Panic
          | Some last_byte =>
              if unused_bits_zero (N.to_nat ignored_bits) last_byte then done
              else Err (Error (DerConstraintFailed DcUnusedBitsNotZero))
          end
        else done
  end.

(** /repo/src/der/parser.rs:481-548 *)
Definition l_der_content_as (L : leaves) (i : slice) (raw : slice) (t : tag) (length : blen)
    (constructed : bool) (max_depth : nat) : res (nerr berror) (slice * (content * layout)) :=
  let* l := map_err nerr_of_err (length_definite length) in
  if nlen (s_oct i) <? l then Err (Incomplete (needed_new l))
  else
    let continue := l_content_as L i raw t length constructed max_depth in
    match utag_of t with
    | UBoolean =>
        if negb (l =? 1) then Err (Error InvalidLength)
        else
          match s_oct i with
          | [] => Panic
          | b :: _ =>
              if negb (b =? 0) && negb (b =? 255)
              then Err (Error (DerConstraintFailed DcInvalidBoolean))
              else continue
          end
    | UBitString =>
        if constructed then Err (Error (DerConstraintFailed DcConstructed))
        else l_der_content_bitstring i raw l
    | UInteger =>
        match firstn (N.to_nat l) (s_oct i) with
        | [] => Err (Error (DerConstraintFailed DcIntegerEmpty))
        | b0 :: b1 :: _ =>
            if (b0 =? 0) && (b1 =? 0)
            then Err (Error (DerConstraintFailed DcIntegerLeadingZeroes))
            else if (b0 =? 0) && (b1 <? 128)
            then Err (Error (DerConstraintFailed DcIntegerLeadingZeroes))
            else continue
        | _ => continue
        end
    | UStr _ | UBmpString | UUniversalString =>
        if constructed then Err (Error (DerConstraintFailed DcConstructed)) else continue
    | UUtcTime | UGeneralizedTime =>
        if (l =? 0) || negb (match nth_error (s_oct i) (N.to_nat (l - 1)) with
                             | Some b => b =? 90
                             | None => false
                             end)
        then Err (Error (DerConstraintFailed DcMissingTimeZone))
        else continue
    | _ => continue
    end.

(** /repo/src/der/parser.rs:557-583 *)
Definition l_der_content_recursive (L : leaves) (i : slice) (hdr : header) (raw : slice)
    (max_depth : nat) : res (nerr berror) (slice * (obj * layout)) :=
  let unknown :=
    let* (r, data) := l_get_content i hdr max_depth in
    Ok (r, (Obj hdr (CUnknown (mkAny hdr (s_oct data))), Layout raw (Some data) [])) in
  match h_class hdr with
  | Universal =>
      match l_der_content_as L i raw (h_tag hdr) (h_length hdr) (h_constructed hdr) max_depth with
      | Ok (r, (c, y)) => Ok (r, (Obj hdr c, y))
      | Err (Error (UnknownTag _)) => unknown
      | Err e => Err e
      | Panic => Panic
      | Diverge => Diverge
      end
  | _ => unknown
  end.

(** /repo/src/der/parser.rs:47-54 *)
Definition l_parse_der_recursive (L : leaves) (i : slice) (max_depth : nat) : res (nerr berror) (slice * (obj * layout)) :=
  let* (i1, (hdr, raw)) := l_header_from_der i in
  match h_length hdr with
  | Definite l =>
      if MAX_OBJECT_SIZE <? l then Err (Error InvalidLength)
      else l_der_content_recursive L i1 hdr raw max_depth
  | Indefinite => l_der_content_recursive L i1 hdr raw max_depth
  end.

(** /repo/src/der/parser.rs:29-31 *)
Definition l_parse_der (L : leaves) (i : slice) : res (nerr berror) (slice * (obj * layout)) :=
  l_parse_der_recursive L i MAX_RECURSION.

(** /repo/src/der/parser.rs:70-82 *)
Definition l_parse_der_with_tag (L : leaves) (i : slice) (t : tag) : res (nerr berror) (slice * (obj * layout)) :=
  let* (i1, (hdr, raw)) := l_header_from_der i in
  let* _ := map_err nerr_of_err (assert_tag hdr t) in
  let* (i2, (c, y)) := l_der_content_as L i1 raw (h_tag hdr) (h_length hdr) (h_constructed hdr) MAX_RECURSION in
  Ok (i2, (Obj hdr c, y)).
