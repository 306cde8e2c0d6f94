(** * The readers of implicitly tagged values in the documentation and in the tests *)

From Verif Require Import Base Asn1rs Ber Der Combinators Typed.

(** /repo/tests/issue-76.rs:7-9 and 17-19, for any type instead of BMPString: header and
    contents are read one after the other; [expect] passes the error on here. *)
Definition implicit_by_hand (L : leaves) (u : tag) (i : bytes) : iresult berror content :=
  let* (i1, hdr) := ber_read_element_header i in
  parse_ber_content L u i1 hdr MAX_RECURSION.

(** /repo/tests/der_parser.rs:394-400 and 420-426 [der_read_ia5string_content] *)
Definition ia5_content (L : leaves) (i : bytes) (hdr : header) (depth : nat) : iresult berror content :=
  ber_read_element_content_as L i T_Ia5String (h_length hdr) (h_constructed hdr) depth.
(** /repo/tests/der_parser.rs:401-408 and 427-437: the tag number is 1, 2 or 82 there *)
Definition implicit_ia5 (L : leaves) (t : tag) (i : bytes) : iresult berror obj :=
  parse_der_implicit i t (ia5_content L).

(** /repo/src/ber/serialize.rs:375-381 and 400-406 [der_read_integer_content]: the
    contents are always taken as primitive *)
Definition integer_content (L : leaves) (i : bytes) (hdr : header) (depth : nat) : iresult berror content :=
  ber_read_element_content_as L i T_Integer (h_length hdr) false depth.
(** /repo/src/ber/serialize.rs:382-384 and 407-409 [local_parse]: the tag number is 3 or 30
    there *)
Definition implicit_integer_test (L : leaves) (t : tag) (i : bytes) : iresult berror obj :=
  parse_ber_implicit i t (integer_content L).

(** /repo/src/ber/parser.rs:488-494 and /repo/src/der/parser.rs:340-346
    [parse_int_implicit] *)
Definition doc_int_implicit (L : leaves) (der : bool) (i : bytes) : iresult berror obj :=
  if der then parse_der_implicit i 3 (parse_der_content L T_Integer)
  else parse_ber_implicit i 3 (parse_ber_content L T_Integer).
(** /repo/src/ber/tagged.rs:196-201 and /repo/src/der/tagged.rs:198-203
    [parse_implicit_0_octetstring] *)
Definition doc_implicit_octets (L : leaves) (der : bool) (i : bytes) : iresult berror content :=
  if der then parse_der_tagged_implicit_g ber_ops 2 (parse_der_content2 L T_OctetString) i
  else parse_ber_tagged_implicit_g ber_ops 2 (parse_ber_content2 L T_OctetString) i.
