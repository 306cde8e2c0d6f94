(** * The parsers shown in the documentation of multi.rs *)

From Verif Require Import Base Asn1rs Ber Der Combinators Typed.

(** The loop of nom 7 [many1] after the first element, used at /repo/src/ber/multi.rs:104.
    As in [many0], an [Error] ends the loop and an element that consumes nothing is an
    error. Fuel: the number of octets plus one; [Diverge] otherwise. *)
Fixpoint nom_many1_loop {E A} (ops : err_ops E) (f : bytes -> iresult E A)
    (fuel : nat) (acc : list A) (i : bytes) : iresult E (list A) :=
  match fuel with
  | O => Diverge
  | S fuel' =>
      match f i with
      | Err (Error _) => Ok (i, rev acc)
      | Err e => Err e
      | Panic => Panic
      | Diverge => Diverge
      | Ok (i1, o) =>
          if (length i1 =? length i)%nat then Err (Error (from_error_kind ops i EkMany1))
          else nom_many1_loop ops f fuel' (o :: acc) i1
      end
  end.

(** nom 7 [many1], used at /repo/src/ber/multi.rs:104. The first element is required;
    whether it consumes something is not checked. [ParseError::append] of asn1-rs [Error]
    keeps the kind only, so it is written as [from_error_kind]. *)
Definition nom_many1 {E A} (ops : err_ops E) (f : bytes -> iresult E A) (i : bytes)
  : iresult E (list A) :=
  match f i with
  | Err (Error _) => Err (Error (from_error_kind ops i EkMany1))
  | Err e => Err e
  | Panic => Panic
  | Diverge => Diverge
  | Ok (i1, o) => nom_many1_loop ops f (S (length i1)) [o] i1
  end.

(** [Result::unwrap], used at /repo/src/ber/multi.rs:202. *)
Definition unwrap {E E' A} (x : res E A) : res E' A :=
  match x with
  | Ok a => Ok a
  | Err _ | Panic => Panic
  | Diverge => Diverge
  end.

Section Rules.
(** BER or DER: the examples of /repo/src/der/multi.rs are those of /repo/src/ber/multi.rs
    with the DER functions. *)
Context (L : leaves) (der : bool).

(** The integer and octet string parsers of the examples, e.g. /repo/src/ber/multi.rs:104,139
    and /repo/src/der/multi.rs:105,140. *)
Definition doc_integer (i : bytes) : iresult berror obj :=
  if der then parse_der_integer L i else parse_ber_integer L i.
(** /repo/src/ber/multi.rs:139,201 and /repo/src/der/multi.rs:140,202 *)
Definition doc_octetstring (i : bytes) : iresult berror obj :=
  if der then parse_der_octetstring L i else parse_ber_octetstring L i.
(** /repo/src/ber/multi.rs:200 and /repo/src/der/multi.rs:201 *)
Definition doc_u32 (i : bytes) : iresult berror N :=
  if der then parse_der_u32 i else parse_ber_u32 i.

(** ** A sequence of identical types *)

(** /repo/src/ber/multi.rs:102-106 and /repo/src/der/multi.rs:103-107 [localparse_seq] *)
Definition doc_integers_seq (i : bytes) : iresult berror obj :=
  let f := nom_many1 ber_ops (nom_complete ber_ops doc_integer) in
  if der then parse_der_sequence_defined f i else parse_ber_sequence_defined f i.
(** /repo/src/ber/multi.rs:325-329 and /repo/src/der/multi.rs:326-330 *)
Definition doc_integers_set (i : bytes) : iresult berror obj :=
  let f := nom_many1 ber_ops (nom_complete ber_ops doc_integer) in
  if der then parse_der_set_defined f i else parse_ber_set_defined f i.

(** ** A sequence of different types *)

(** The argument of the parsers below, /repo/src/ber/multi.rs:138-141: nom 7 [tuple] and
    [map] written as statements. *)
Definition doc_pair (i : bytes) : iresult berror (list obj) :=
  let* (i, a) := doc_integer i in
  let* (i, b) := doc_octetstring i in
  Ok (i, [a; b]).
(** /repo/src/ber/multi.rs:134-143 and /repo/src/der/multi.rs:135-144 [localparse_seq] *)
Definition doc_pair_seq (i : bytes) : iresult berror obj :=
  if der then parse_der_sequence_defined doc_pair i else parse_ber_sequence_defined doc_pair i.
(** /repo/src/ber/multi.rs:357-366 and /repo/src/der/multi.rs:358-367 [localparse_set] *)
Definition doc_pair_set (i : bytes) : iresult berror obj :=
  if der then parse_der_set_defined doc_pair i else parse_ber_set_defined doc_pair i.

(** The statements shared by the three parsers below, /repo/src/ber/multi.rs:200-203,
    424-427 and 494-497; [MyObject] (lines 187-190) is a pair. *)
Definition doc_object (i : bytes) : iresult berror (N * bytes) :=
  let* (i, a) := doc_u32 i in
  let* (i, o) := doc_octetstring i in
  let* b := unwrap (obj_as_slice o) in
  Ok (i, (a, b)).
(** /repo/src/ber/multi.rs:197-206 and /repo/src/der/multi.rs:198-207 [parse_myobject] *)
Definition doc_object_seq (i : bytes) : iresult berror (N * bytes) :=
  let f i (_ : header) := doc_object i in
  if der then parse_der_sequence_defined_g ber_ops f i else parse_ber_sequence_defined_g ber_ops f i.
(** /repo/src/ber/multi.rs:421-430 and /repo/src/der/multi.rs:422-431 [parse_myobject] *)
Definition doc_object_set (i : bytes) : iresult berror (N * bytes) :=
  let f i (_ : header) := doc_object i in
  if der then parse_der_set_defined_g ber_ops f i else parse_ber_set_defined_g ber_ops f i.
(** /repo/src/ber/multi.rs:488-500 and /repo/src/der/multi.rs:489-501 [parse_myobject] *)
Definition doc_object_container (i : bytes) : iresult berror (N * bytes) :=
  let f i hdr := if negb (h_tag hdr =? T_Sequence) then Err (Error BerTypeError) else doc_object i in
  if der then parse_der_container ber_ops f i else parse_ber_container ber_ops f i.
End Rules.

(** /repo/src/lib.rs:115-121 [localparse_seq] *)
Definition doc_two_seq (L : leaves) (i : bytes) : iresult berror obj :=
  parse_ber_sequence_defined (fun data =>
    let* (rem, a) := parse_ber_integer L data in
    let* (rem, b) := parse_ber_integer L rem in
    Ok (rem, [a; b])) i.
