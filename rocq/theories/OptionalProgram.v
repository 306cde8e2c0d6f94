(** * The parser with an optional component in /repo/tests/der_parser.rs *)

From Verif Require Import Base Asn1rs Ber Der Combinators Typed.

(** /repo/tests/der_parser.rs:457-459 *)
Definition parse_optional_enum (L : leaves) (i : bytes) : iresult berror obj :=
  parse_ber_optional (parse_der_enum L) i.

(** /repo/tests/der_parser.rs:460-468; nom [tuple] runs the two parsers one after the other
    and stops at the first error. *)
Definition optional_parser (L : leaves) (i : bytes) : iresult berror obj :=
  parse_der_sequence_defined (nom_map (fun ab => [fst ab; snd ab]) (fun i =>
    let* (i, a) := parse_optional_enum L i in
    let* (i, b) := parse_der_integer L i in
    Ok (i, (a, b)))) i.
