(** * The Name parser of the test programs

    /repo/tests/der_parser.rs:525-549 composes a parser for the X.501 type Name out of
    the library's combinators; it stands for the parsers programs write. *)

From Verif Require Import Base Asn1rs Der Combinators Typed.

(** /repo/tests/der_parser.rs:525-531 *)
Definition parse_directory_string (L : leaves) (i : bytes) : iresult berror obj :=
  nom_alt [parse_der_utf8string L; parse_der_printablestring L; parse_der_ia5string L] i.

(** /repo/tests/der_parser.rs:533-541; nom's [tuple] runs the parsers one after the
    other. *)
Definition parse_attr_type_and_value (L : leaves) (i : bytes) : iresult berror obj :=
  parse_der_sequence_defined (fun i =>
    let* (i, a) := parse_der_oid L i in
    let* (i, b) := parse_directory_string L i in
    Ok (i, [a; b])) i.

(** /repo/tests/der_parser.rs:543-545 *)
Definition parse_rdn (L : leaves) (i : bytes) : iresult berror obj :=
  parse_der_set_of (parse_attr_type_and_value L) i.

(** /repo/tests/der_parser.rs:547-549 *)
Definition parse_name (L : leaves) (i : bytes) : iresult berror obj :=
  parse_der_sequence_of (parse_rdn L) i.
