(** * The readers with a count of the headers it reads

    The same functions as in Ber.v, Der.v and Asn1rs.v, each also returning how often it
    read (or tried to read) an element header.  Everything else the reader does
    is a constant number of passes over the contents of one element. *)

From Verif Require Import Base Asn1rs Ber Der.

(** The [?] operator, adding up the counts (e.g. /repo/src/ber/wrap_any.rs:25-28). *)
Definition cbind {E A B} (x : nat * res E A) (k : A -> nat * res E B) : nat * res E B :=
  let (n, v) := x in
  match v with
  | Ok a => let (m, w) := k a in ((n + m)%nat, w)
  | Err e => (n, Err e)
  | Panic => (n, Panic)
  | Diverge => (n, Diverge)
  end.

(** A conversion of the error costs nothing (e.g. /repo/src/ber/wrap_any.rs:27). *)
Definition cmap_err {E F A} (f : E -> F) (x : nat * res E A) : nat * res F A :=
  let (n, v) := x in (n, map_err f v).

(** asn1-rs [Header::from_ber], counted; called at /repo/src/ber/parser.rs:38,117. *)
Definition t_header (i : bytes) : nat * res (nerr berror) (bytes * header) := (1%nat, header_from_ber i).

(** /repo/src/ber/parser.rs:36-45 and its copy in asn1-rs. *)
Fixpoint t_skip_loop (skip1 : bytes -> header -> nat * res (nerr berror) (bytes * bool))
    (fuel : nat) (i : bytes) : nat * res (nerr berror) (bytes * bool) :=
  match fuel with
  | O => (O, Diverge)
  | S fuel' =>
      cbind (t_header i) (fun ih => let (i2, header2) := ih in
      cbind (skip1 i2 header2) (fun ie => let (i3, eoc) := ie in
      if eoc : bool then (O, Ok (i3, false)) else t_skip_loop skip1 fuel' i3))
  end.

(** /repo/src/ber/parser.rs:14-48 and its copy in asn1-rs. *)
Fixpoint t_skip (max_depth : nat) (i : bytes) (hdr : header) {struct max_depth}
  : nat * res (nerr berror) (bytes * bool) :=
  match max_depth with
  | O => (O, Err (Error BerMaxDepth))
  | S d' =>
      match h_length hdr with
      | Definite l =>
          if (l =? 0) && (h_tag hdr =? T_EndOfContent) then (O, Ok (i, true))
          else (O, let* (i', _) := take_streaming l i in Ok (i', false))
      | Indefinite =>
          if negb (h_constructed hdr) then (O, Err (Error ConstructExpected))
          else t_skip_loop (t_skip d') (S (length i)) i
      end
  end.

(** /repo/src/ber/parser.rs:51-68 and its copy in asn1-rs. *)
Definition t_get_content (i : bytes) (hdr : header) (max_depth : nat) : nat * res (nerr berror) (bytes * bytes) :=
  cbind (t_skip max_depth i hdr) (fun re =>
    let len := (length i - length (fst re))%nat in
    let content := firstn len i in
    let i' := skipn len i in
    (O, match h_length hdr with
        | Indefinite =>
            if (length content <? 2)%nat then Panic
            else Ok (i', firstn (length content - 2) content)
        | Definite _ => Ok (i', content)
        end)).

(** asn1-rs [Any::from_ber], called at /repo/src/ber/wrap_any.rs:15,26,33. *)
Definition t_any_from_ber (i : bytes) : nat * res (nerr berror) (bytes * any) :=
  cbind (t_header i) (fun ih => let (i1, h) := ih in
  cbind (t_get_content i1 h ASN1_MAX_RECURSION) (fun id => let (i2, data) := id in
  (O, Ok (i2, mkAny h data)))).

(** /repo/src/ber/wrap_any.rs:147-153 and 158-164. *)
Fixpoint t_iter_collect (conv : any -> nat * res berror obj) (fuel : nat) (data : bytes)
  : nat * res berror (list obj) :=
  match data with
  | [] => (O, Ok [])
  | _ :: _ =>
      match fuel with
      | O => (O, Diverge)
      | S fuel' =>
          cbind (cmap_err err_of_nerr (t_any_from_ber data)) (fun ra => let (r, a) := ra in
          cbind (conv a) (fun o =>
          cbind (t_iter_collect conv fuel' r) (fun os =>
          (O, Ok (o :: os)))))
      end
  end.

(** /repo/src/ber/wrap_any.rs:79-192.  Only the SEQUENCE and SET arms read headers;
    for the others the function of Ber.v is used. *)
Fixpoint t_berobject_from_any (L : leaves) (max_depth : nat) (a : any) {struct max_depth}
  : nat * res berror obj :=
  match max_depth with
  | O => (O, Err BerMaxDepth)
  | S d' =>
      let h := a_header a in
      let data := a_data a in
      if negb (class_eqb (h_class h) Universal) then (O, try_berobject_from_any L (S d') a)
      else
        match utag_of (h_tag h) with
        | USequence =>
            cbind (O, assert_constructed h) (fun _ =>
            cbind (t_iter_collect (t_berobject_from_any L d') (length data) data) (fun l =>
            (O, Ok (Obj h (CSequence l)))))
        | USet =>
            cbind (O, assert_constructed h) (fun _ =>
            cbind (t_iter_collect (t_berobject_from_any L d') (length data) data) (fun l =>
            (O, Ok (Obj h (CSet l)))))
        | _ => (O, try_berobject_from_any L (S d') a)
        end
  end.

(** /repo/src/ber/parser.rs:618-620 with /repo/src/ber/wrap_any.rs:24-29. *)
Definition t_parse_ber_recursive (L : leaves) (i : bytes) (max_depth : nat) : nat * res (nerr berror) (bytes * obj) :=
  if (max_depth =? 0)%nat then (O, Err (Error BerMaxDepth))
  else
    cbind (t_any_from_ber i) (fun ra => let (r, a) := ra in
    cbind (cmap_err nerr_of_err (t_berobject_from_any L max_depth a)) (fun o =>
    (O, Ok (r, o)))).

(** /repo/src/ber/wrap_any.rs:58-76. *)
Definition t_content_as (L : leaves) (i : bytes) (t : tag) (l : blen) (constructed : bool)
    (max_depth : nat) : nat * res (nerr berror) (bytes * content) :=
  let read :=
    let h := header_new Universal constructed t l in
    cbind (t_get_content i h max_depth) (fun rd => let (r, data) := rd in
    cbind (cmap_err nerr_of_err (t_berobject_from_any L max_depth (mkAny h data))) (fun o =>
    (O, Ok (r, o_content o)))) in
  match l with
  | Definite n =>
      if MAX_OBJECT_SIZE <? n then (O, Err (Error InvalidLength))
      else if nlen i <? n then (O, Err (Incomplete (needed_new n)))
      else read
  | Indefinite => read
  end.

(** /repo/src/ber/parser.rs:233-245. *)
Definition t_parse_ber_with_tag (L : leaves) (i : bytes) (t : tag)
  : nat * res (nerr berror) (bytes * obj) :=
  cbind (t_header i) (fun ih => let (i1, hdr) := ih in
  cbind (O, map_err nerr_of_err (assert_tag hdr t)) (fun _ =>
  cbind (t_content_as L i1 (h_tag hdr) (h_length hdr) (h_constructed hdr) MAX_RECURSION) (fun rc =>
  let (i2, c) := rc in (O, Ok (i2, Obj hdr c))))).

(** asn1-rs [Header::from_der], counted; called at /repo/src/der/parser.rs:631. *)
Definition t_header_der (i : bytes) : nat * res (nerr berror) (bytes * header) := (1%nat, header_from_der i).

(** /repo/src/der/parser.rs:481-548. *)
Definition t_der_content_as (L : leaves) (i : bytes) (t : tag) (length : blen)
    (constructed : bool) (max_depth : nat) : nat * res (nerr berror) (bytes * content) :=
  cbind (O, map_err nerr_of_err (length_definite length)) (fun l =>
  if nlen i <? l then (O, Err (Incomplete (needed_new l)))
  else
    let continue := t_content_as L i t length constructed max_depth in
    match utag_of t with
    | UBoolean =>
        if negb (l =? 1) then (O, Err (Error InvalidLength))
        else
          match i with
          | [] => (O, Panic)
          | b :: _ =>
              if negb (b =? 0) && negb (b =? 255)
              then (O, Err (Error (DerConstraintFailed DcInvalidBoolean)))
              else continue
          end
    | UBitString =>
        if constructed then (O, Err (Error (DerConstraintFailed DcConstructed)))
        else (O, der_read_content_bitstring i l)
    | UInteger =>
        match firstn (N.to_nat l) i with
        | [] => (O, Err (Error (DerConstraintFailed DcIntegerEmpty)))
        | b0 :: b1 :: _ =>
            if (b0 =? 0) && (b1 =? 0)
            then (O, Err (Error (DerConstraintFailed DcIntegerLeadingZeroes)))
            else if (b0 =? 0) && (b1 <? 128)
            then (O, Err (Error (DerConstraintFailed DcIntegerLeadingZeroes)))
            else continue
        | _ => continue
        end
    | UStr _ | UBmpString | UUniversalString =>
        if constructed then (O, Err (Error (DerConstraintFailed DcConstructed))) else continue
    | UUtcTime | UGeneralizedTime =>
        if (l =? 0) || negb (match nth_error i (N.to_nat (l - 1)) with
                             | Some b => b =? 90
                             | None => false
                             end)
        then (O, Err (Error (DerConstraintFailed DcMissingTimeZone)))
        else continue
    | _ => continue
    end).

(** /repo/src/der/parser.rs:557-583. *)
Definition t_der_content_recursive (L : leaves) (i : bytes) (hdr : header) (max_depth : nat)
  : nat * res (nerr berror) (bytes * obj) :=
  let unknown :=
    cbind (t_get_content i hdr max_depth) (fun rd => let (r, data) := rd in
    (O, Ok (r, Obj hdr (CUnknown (mkAny hdr data))))) in
  match h_class hdr with
  | Universal =>
      let (n, v) := t_der_content_as L i (h_tag hdr) (h_length hdr) (h_constructed hdr) max_depth in
      match v with
      | Ok (r, c) => (n, Ok (r, Obj hdr c))
      | Err (Error (UnknownTag _)) => let (m, w) := unknown in ((n + m)%nat, w)
      | Err e => (n, Err e)
      | Panic => (n, Panic)
      | Diverge => (n, Diverge)
      end
  | _ => unknown
  end.

(** /repo/src/der/parser.rs:47-54. *)
Definition t_parse_der_recursive (L : leaves) (i : bytes) (max_depth : nat)
  : nat * res (nerr berror) (bytes * obj) :=
  cbind (t_header_der i) (fun ih => let (i1, hdr) := ih in
  match h_length hdr with
  | Definite l =>
      if MAX_OBJECT_SIZE <? l then (O, Err (Error InvalidLength))
      else t_der_content_recursive L i1 hdr max_depth
  | Indefinite => t_der_content_recursive L i1 hdr max_depth
  end).

(** /repo/src/der/parser.rs:70-82. *)
Definition t_parse_der_with_tag (L : leaves) (i : bytes) (t : tag)
  : nat * res (nerr berror) (bytes * obj) :=
  cbind (t_header_der i) (fun ih => let (i1, hdr) := ih in
  cbind (O, map_err nerr_of_err (assert_tag hdr t)) (fun _ =>
  cbind (t_der_content_as L i1 (h_tag hdr) (h_length hdr) (h_constructed hdr) MAX_RECURSION) (fun rc =>
  let (i2, c) := rc in (O, Ok (i2, Obj hdr c))))).
