(** * The functions that call themselves, with the number of nested calls

    The same functions as in Ber.v, Der.v, Asn1rs.v and Serialize.v, each also returning
    how many calls of functions that call themselves are active at the same time:
    [ber_skip_object_content] (and its copy in asn1-rs), [try_berobject_from_any],
    [remove_zeroes], [ber_encode_object] and [ber_encode_object_content].  Between two
    such calls there is a constant number of calls of other functions, which are not
    counted.  Calls are those of the source text: an optimising compiler may turn the
    tail call of [remove_zeroes] into a jump. *)

From Verif Require Import Base Asn1rs Ber Der Serialize.

(** The [?] operator: of two calls after each other the deeper one counts (e.g.
    /repo/src/ber/wrap_any.rs:25-28). *)
Definition nbind {E A B} (x : nat * res E A) (k : A -> nat * res E B) : nat * res E B :=
  let (n, v) := x in
  match v with
  | Ok a => let (m, w) := k a in (Nat.max n m, w)
  | Err e => (n, Err e)
  | Panic => (n, Panic)
  | Diverge => (n, Diverge)
  end.

(** A conversion of the error (e.g. /repo/src/ber/wrap_any.rs:27). *)
Definition nmap_err {E F A} (f : E -> F) (x : nat * res E A) : nat * res F A :=
  let (n, v) := x in (n, map_err f v).

(** The body of a function that calls itself is one call deeper (e.g.
    /repo/src/ber/parser.rs:39). *)
Definition call {A} (x : nat * A) : nat * A := let (n, v) := x in (S n, v).

(** /repo/src/ber/parser.rs:36-45 and its copy in asn1-rs. *)
Fixpoint n_skip_loop (skip1 : bytes -> header -> nat * res (nerr berror) (bytes * bool))
    (fuel : nat) (i : bytes) : nat * res (nerr berror) (bytes * bool) :=
  match fuel with
  | O => (O, Diverge)
  | S fuel' =>
      nbind (O, header_from_ber i) (fun ih => let (i2, header2) := ih in
      nbind (skip1 i2 header2) (fun ie => let (i3, eoc) := ie in
      if eoc : bool then (O, Ok (i3, false)) else n_skip_loop skip1 fuel' i3))
  end.

(** /repo/src/ber/parser.rs:14-48 and its copy in asn1-rs. *)
Fixpoint n_skip (max_depth : nat) (i : bytes) (hdr : header) {struct max_depth}
  : nat * res (nerr berror) (bytes * bool) :=
  call match max_depth with
  | O => (O, Err (Error BerMaxDepth))
  | S d' =>
      match h_length hdr with
      | Definite l =>
          if (l =? 0) && (h_tag hdr =? T_EndOfContent) then (O, Ok (i, true))
          else (O, let* (i', _) := take_streaming l i in Ok (i', false))
      | Indefinite =>
          if negb (h_constructed hdr) then (O, Err (Error ConstructExpected))
          else n_skip_loop (n_skip d') (S (length i)) i
      end
  end.

(** /repo/src/ber/parser.rs:51-68 and its copy in asn1-rs. *)
Definition n_get_content (i : bytes) (hdr : header) (max_depth : nat) : nat * res (nerr berror) (bytes * bytes) :=
  nbind (n_skip max_depth i hdr) (fun re =>
    let len := (length i - length (fst re))%nat in
    let content := firstn len i in
    let i' := skipn len i in
    (O, match h_length hdr with
        | Indefinite =>
            if (length content <? 2)%nat then Panic
            else Ok (i', firstn (length content - 2) content)
        | Definite _ => Ok (i', content)
        end)).

(** asn1-rs [Any::from_ber], called at /repo/src/ber/wrap_any.rs:15,26,33. *)
Definition n_any_from_ber (i : bytes) : nat * res (nerr berror) (bytes * any) :=
  nbind (O, header_from_ber i) (fun ih => let (i1, h) := ih in
  nbind (n_get_content i1 h ASN1_MAX_RECURSION) (fun id => let (i2, data) := id in
  (O, Ok (i2, mkAny h data)))).

(** /repo/src/ber/wrap_any.rs:147-153 and 158-164. *)
Fixpoint n_iter_collect (conv : any -> nat * res berror obj) (fuel : nat) (data : bytes)
  : nat * res berror (list obj) :=
  match data with
  | [] => (O, Ok [])
  | _ :: _ =>
      match fuel with
      | O => (O, Diverge)
      | S fuel' =>
          nbind (nmap_err err_of_nerr (n_any_from_ber data)) (fun ra => let (r, a) := ra in
          nbind (conv a) (fun o =>
          nbind (n_iter_collect conv fuel' r) (fun os =>
          (O, Ok (o :: os)))))
      end
  end.

(** /repo/src/ber/wrap_any.rs:79-192.  Only the SEQUENCE and SET arms call a function
    that calls itself; for the others the function of Ber.v is used. *)
Fixpoint n_berobject_from_any (L : leaves) (max_depth : nat) (a : any) {struct max_depth}
  : nat * res berror obj :=
  call match max_depth with
  | O => (O, Err BerMaxDepth)
  | S d' =>
      let h := a_header a in
      let data := a_data a in
      if negb (class_eqb (h_class h) Universal) then (O, try_berobject_from_any L (S d') a)
      else
        match utag_of (h_tag h) with
        | USequence =>
            nbind (O, assert_constructed h) (fun _ =>
            nbind (n_iter_collect (n_berobject_from_any L d') (length data) data) (fun l =>
            (O, Ok (Obj h (CSequence l)))))
        | USet =>
            nbind (O, assert_constructed h) (fun _ =>
            nbind (n_iter_collect (n_berobject_from_any L d') (length data) data) (fun l =>
            (O, Ok (Obj h (CSet l)))))
        | _ => (O, try_berobject_from_any L (S d') a)
        end
  end.

(** /repo/src/ber/parser.rs:618-620 with /repo/src/ber/wrap_any.rs:24-29. *)
Definition n_parse_ber_recursive (L : leaves) (i : bytes) (max_depth : nat) : nat * res (nerr berror) (bytes * obj) :=
  if (max_depth =? 0)%nat then (O, Err (Error BerMaxDepth))
  else
    nbind (n_any_from_ber i) (fun ra => let (r, a) := ra in
    nbind (nmap_err nerr_of_err (n_berobject_from_any L max_depth a)) (fun o =>
    (O, Ok (r, o)))).

(** /repo/src/ber/wrap_any.rs:58-76. *)
Definition n_content_as (L : leaves) (i : bytes) (t : tag) (l : blen) (constructed : bool)
    (max_depth : nat) : nat * res (nerr berror) (bytes * content) :=
  let read :=
    let h := header_new Universal constructed t l in
    nbind (n_get_content i h max_depth) (fun rd => let (r, data) := rd in
    nbind (nmap_err nerr_of_err (n_berobject_from_any L max_depth (mkAny h data))) (fun o =>
    (O, Ok (r, o_content o)))) in
  match l with
  | Definite n =>
      if MAX_OBJECT_SIZE <? n then (O, Err (Error InvalidLength))
      else if nlen i <? n then (O, Err (Incomplete (needed_new n)))
      else read
  | Indefinite => read
  end.

(** /repo/src/ber/parser.rs:233-245. *)
Definition n_parse_ber_with_tag (L : leaves) (i : bytes) (t : tag)
  : nat * res (nerr berror) (bytes * obj) :=
  nbind (O, header_from_ber i) (fun ih => let (i1, hdr) := ih in
  nbind (O, map_err nerr_of_err (assert_tag hdr t)) (fun _ =>
  nbind (n_content_as L i1 (h_tag hdr) (h_length hdr) (h_constructed hdr) MAX_RECURSION) (fun rc =>
  let (i2, c) := rc in (O, Ok (i2, Obj hdr c))))).

(** /repo/src/der/parser.rs:481-548. *)
Definition n_der_content_as (L : leaves) (i : bytes) (t : tag) (length : blen)
    (constructed : bool) (max_depth : nat) : nat * res (nerr berror) (bytes * content) :=
  nbind (O, map_err nerr_of_err (length_definite length)) (fun l =>
  if nlen i <? l then (O, Err (Incomplete (needed_new l)))
  else
    let continue := n_content_as L i t length constructed max_depth in
    match utag_of t with
    | UBoolean =>
        if negb (l =? 1) then (O, Err (Error InvalidLength))
        else
          match i with
          | [] => (O, Panic)
          | b :: _ =>
              if negb (b =? 0) && negb (b =? 255)
              then (O, Err (Error (DerConstraintFailed DcInvalidBoolean)))
              else continue
          end
    | UBitString =>
        if constructed then (O, Err (Error (DerConstraintFailed DcConstructed)))
        else (O, der_read_content_bitstring i l)
    | UInteger =>
        match firstn (N.to_nat l) i with
        | [] => (O, Err (Error (DerConstraintFailed DcIntegerEmpty)))
        | b0 :: b1 :: _ =>
            if (b0 =? 0) && (b1 =? 0)
            then (O, Err (Error (DerConstraintFailed DcIntegerLeadingZeroes)))
            else if (b0 =? 0) && (b1 <? 128)
            then (O, Err (Error (DerConstraintFailed DcIntegerLeadingZeroes)))
            else continue
        | _ => continue
        end
    | UStr _ | UBmpString | UUniversalString =>
        if constructed then (O, Err (Error (DerConstraintFailed DcConstructed))) else continue
    | UUtcTime | UGeneralizedTime =>
        if (l =? 0) || negb (match nth_error i (N.to_nat (l - 1)) with
                             | Some b => b =? 90
                             | None => false
                             end)
        then (O, Err (Error (DerConstraintFailed DcMissingTimeZone)))
        else continue
    | _ => continue
    end).

(** /repo/src/der/parser.rs:557-583. *)
Definition n_der_content_recursive (L : leaves) (i : bytes) (hdr : header) (max_depth : nat)
  : nat * res (nerr berror) (bytes * obj) :=
  let unknown :=
    nbind (n_get_content i hdr max_depth) (fun rd => let (r, data) := rd in
    (O, Ok (r, Obj hdr (CUnknown (mkAny hdr data))))) in
  match h_class hdr with
  | Universal =>
      let (n, v) := n_der_content_as L i (h_tag hdr) (h_length hdr) (h_constructed hdr) max_depth in
      match v with
      | Ok (r, c) => (n, Ok (r, Obj hdr c))
      | Err (Error (UnknownTag _)) => let (m, w) := unknown in (Nat.max n m, w)
      | Err e => (n, Err e)
      | Panic => (n, Panic)
      | Diverge => (n, Diverge)
      end
  | _ => unknown
  end.

(** /repo/src/der/parser.rs:47-54. *)
Definition n_parse_der_recursive (L : leaves) (i : bytes) (max_depth : nat)
  : nat * res (nerr berror) (bytes * obj) :=
  nbind (O, header_from_der i) (fun ih => let (i1, hdr) := ih in
  match h_length hdr with
  | Definite l =>
      if MAX_OBJECT_SIZE <? l then (O, Err (Error InvalidLength))
      else n_der_content_recursive L i1 hdr max_depth
  | Indefinite => n_der_content_recursive L i1 hdr max_depth
  end).

(** /repo/src/der/parser.rs:70-82. *)
Definition n_parse_der_with_tag (L : leaves) (i : bytes) (t : tag)
  : nat * res (nerr berror) (bytes * obj) :=
  nbind (O, header_from_der i) (fun ih => let (i1, hdr) := ih in
  nbind (O, map_err nerr_of_err (assert_tag hdr t)) (fun _ =>
  nbind (n_der_content_as L i1 (h_tag hdr) (h_length hdr) (h_constructed hdr) MAX_RECURSION) (fun rc =>
  let (i2, c) := rc in (O, Ok (i2, Obj hdr c))))).

(** ** Integers *)

(** /repo/src/ber/integer.rs:7-18. *)
Fixpoint n_remove_zeroes (s : bytes) : nat * bytes :=
  call match s with
  | [0] => (O, s)
  | 0 :: rest => n_remove_zeroes rest
  | _ => (O, s)
  end.

(** /repo/src/ber/integer.rs:41-75. *)
Definition n_decode_array_uint (n : nat) (s : bytes) : nat * res berror bytes :=
  if is_highest_bit_set s then (O, Err IntegerNegative)
  else
    let (k, input) := n_remove_zeroes s in
    (k, if (n <? length input)%nat then Err IntegerTooLarge
        else Ok (repeat 0 (n - length input) ++ input)).

(** /repo/src/ber/integer.rs:95-121. *)
Definition n_decode_array_int (n : nat) (s : bytes) : nat * res berror bytes :=
  let (k, input) := n_remove_zeroes s in
  (k, if (n <? length input)%nat then Err IntegerTooLarge
      else Ok (repeat 255 (n - length input) ++ input)).

(** /repo/src/ber/ber.rs:412-423 (n = 8) and 439-450 (n = 4). *)
Definition n_as_int (n : nat) (c : content) : nat * res berror Z :=
  match c with
  | CInteger s =>
      if is_highest_bit_set s then
        nbind (n_decode_array_int n s) (fun a => (O, Ok (i_from_be_bytes a)))
      else
        nbind (n_decode_array_uint n s) (fun a =>
        (O, Ok (wrap_signed (8 * N.of_nat n) (u_from_be_bytes a))))
  | _ => (O, Err BerValueError)
  end.

(** /repo/src/ber/ber.rs:466-478; only the INTEGER arm calls [remove_zeroes]. *)
Definition n_as_u64 (c : content) : nat * res berror N :=
  match c with
  | CInteger s => nbind (n_decode_array_uint 8 s) (fun a => (O, Ok (u_from_be_bytes a)))
  | _ => (O, as_u64 c)
  end.

(** /repo/src/ber/ber.rs:495-519; likewise. *)
Definition n_as_u32 (c : content) : nat * res berror N :=
  match c with
  | CInteger s => nbind (n_decode_array_uint 4 s) (fun a => (O, Ok (u_from_be_bytes a)))
  | _ => (O, as_u32 c)
  end.

(** ** The encoder *)

(** cookie-factory [many_ref], /repo/src/ber/serialize.rs:70-74. *)
Definition n_many {A} (f : A -> nat * gen) : list A -> nat * gen :=
  fix go l :=
    match l with
    | [] => (O, Ok [])
    | x :: r =>
        nbind (f x) (fun a => nbind (go r) (fun b => (O, Ok (a ++ b))))
    end.

(** /repo/src/ber/serialize.rs:116-172 and 197-208.  Only the arms of the constructed
    variants call a function that calls itself; for the others the function of
    Serialize.v is used. *)
Fixpoint n_encode_object_content (L : leaves) (c : content) {struct c} : nat * gen :=
  call match c with
  | CSequence v => n_many (n_encode_object L) v
  | CSet v => n_many (n_encode_object L) v
  | COptional (Some (Obj _ c')) => n_encode_object_content L c'
  | CTagged _ _ inner => n_encode_object L inner
  | c => (O, ber_encode_object_content L c)
  end
with n_encode_object (L : leaves) (o : obj) {struct o} : nat * gen :=
  call match o with
  | Obj hdr c =>
      nbind (n_encode_object_content L c) (fun v =>
      nbind (O, ber_encode_header (with_length hdr (Definite (nlen v)))) (fun v_hdr =>
      (O, Ok (v_hdr ++ v))))
  end.
