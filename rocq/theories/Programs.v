(** * The parsers of the test programs constructed.rs and custom_error.rs

    Like X501.v: parsers composed of the library's functions and nom's combinators, as
    programs that use the library write them. *)

From Verif Require Import Base Asn1rs Ber Der Combinators Typed.

(** nom 7 [eof], used at /repo/tests/constructed.rs:37 and 50. *)
Definition nom_eof {E} (ops : err_ops E) (i : bytes) : iresult E bytes :=
  match i with
  | [] => Ok (i, i)
  | _ :: _ => Err (Error (from_error_kind ops i EkEof))
  end.

(** nom 7 [map_res], used at /repo/tests/constructed.rs:256, 341, 387 and 418.
    The error of [g] is lost: asn1-rs [impl FromExternalError for Error] keeps the kind
    only. *)
Definition nom_map_res {A B} (f : bytes -> iresult berror A) (g : A -> res berror B) (i : bytes)
  : iresult berror B :=
  let* (r, a) := f i in
  match g a with
  | Ok b => Ok (r, b)
  | Err _ => Err (Error (ENomError EkMapRes))
  | Panic => Panic
  | Diverge => Diverge
  end.

(** ** Two integers in a SEQUENCE *)

(** The statements shared by the three parsers below, /repo/tests/constructed.rs:27-28,
    35-36 and 48-49; [MyStruct] (lines 19-23) is a pair. *)
Definition two_integers (L : leaves) (i : bytes) : iresult berror (obj * obj) :=
  let* (i, a) := parse_ber_integer L i in
  let* (i, b) := parse_ber_integer L i in
  Ok (i, (a, b)).

(** /repo/tests/constructed.rs:25-31 *)
Definition parse_struct01 (L : leaves) (i : bytes) : iresult berror (obj * obj) :=
  parse_der_sequence_defined_g ber_ops (fun i _ => two_integers L i) i.

(** /repo/tests/constructed.rs:33-40 *)
Definition parse_struct01_complete (L : leaves) (i : bytes) : iresult berror (obj * obj) :=
  parse_der_sequence_defined_g ber_ops (fun i _ =>
    let* (i, s) := two_integers L i in
    let* (_, _) := nom_eof ber_ops i in
    Ok (i, s)) i.

(** /repo/tests/constructed.rs:43-53 *)
Definition parse_struct04 (L : leaves) (i : bytes) (t : tag) : iresult berror (obj * obj) :=
  parse_der_container ber_ops (fun i hdr =>
    if negb (h_tag hdr =? t) then Err (Error InvalidTag)
    else
      let* (i, s) := two_integers L i in
      let* (_, _) := nom_eof ber_ops i in
      Ok (i, s)) i.

(** ** A Name that stops at the first RDN it cannot read *)

(** /repo/tests/constructed.rs:244-250 *)
Definition directory_string02 (L : leaves) (i : bytes) : iresult berror obj :=
  nom_alt [parse_ber_utf8string L; parse_ber_printablestring L; parse_ber_ia5string L] i.

(** /repo/tests/constructed.rs:251-260; [Attr] (lines 208-211) is a pair, [cloned] copies
    a borrowed value. *)
Definition attr02 (L : leaves) (i : bytes) : iresult berror (oid * obj) :=
  parse_der_sequence_defined_g ber_ops (fun i _ =>
    let* (i, o) := nom_map_res (parse_ber_oid L) obj_as_oid i in
    let* (i, s) := directory_string02 L i in
    Ok (i, (o, s))) i.

(** /repo/tests/constructed.rs:261-266; [Rdn] (lines 213-215) holds one [Attr]. *)
Definition rdn02 (L : leaves) (i : bytes) : iresult berror (oid * obj) :=
  parse_der_set_defined_g ber_ops (fun i _ => attr02 L i) i.

(** /repo/tests/constructed.rs:267-272 *)
Definition name02 (L : leaves) (i : bytes) : iresult berror (list (oid * obj)) :=
  parse_der_sequence_defined_g ber_ops (fun i _ =>
    nom_many0 ber_ops (nom_complete ber_ops (rdn02 L)) i) i.

(** ** Tagged integers *)

(** /repo/tests/constructed.rs:320-326; the [?] of line 323 turns the [BerError] into a
    nom error. *)
Definition int_explicit_ber (L : leaves) (i : bytes) : iresult berror N :=
  parse_ber_tagged_explicit_g ber_ops 2 (fun content _ =>
    let* (rem, o) := parse_ber_integer L content in
    let* value := map_err nerr_of_err (obj_as_u32 o) in
    Ok (rem, value)) i.

(** /repo/tests/constructed.rs:340-345 *)
Definition int_explicit_der (L : leaves) (i : bytes) : iresult berror N :=
  nom_map_res (parse_der_tagged_explicit 2 (parse_der_integer L))
    (fun x => let* (_, _, o) := obj_as_tagged x in obj_as_u32 o) i.

(** /repo/tests/constructed.rs:366-372 *)
Definition int_implicit_ber (L : leaves) (i : bytes) : iresult berror N :=
  parse_ber_tagged_implicit_g ber_ops 2 (fun content hdr depth =>
    let* (rem, k) := parse_ber_content L T_Integer content hdr depth in
    let* value := map_err nerr_of_err (as_u32 k) in
    Ok (rem, value)) i.

(** /repo/tests/constructed.rs:386-391 *)
Definition int_implicit_der (L : leaves) (i : bytes) : iresult berror N :=
  nom_map_res (parse_der_tagged_implicit 2 (parse_der_content L T_Integer)) obj_as_u32 i.

(** /repo/tests/constructed.rs:410-421 *)
Definition parse_app01 (L : leaves) (i : bytes) : iresult berror N :=
  parse_der_container ber_ops (fun i hdr =>
    if negb (class_eqb (h_class hdr) Application)
    then Err (Error (UnexpectedClass None (h_class hdr)))
    else if negb (h_tag hdr =? 2) then Err (Error InvalidTag)
    else nom_map_res (parse_ber_integer L) obj_as_u32 i) i.

(** ** The program's own error type *)

(** /repo/tests/custom_error.rs:10-15 *)
Inductive my_error := Variant1 | Variant2 | MyBerError (e : berror) | MyNomError (i : bytes) (k : error_kind).

(** /repo/tests/custom_error.rs:17-31; [append] is not used by the modelled
    combinators. *)
Definition my_ops : err_ops my_error := mkErrOps my_error MyBerError MyNomError.

(** /repo/tests/custom_error.rs:35-43; the arm [_] also stands for [Failure]. *)
Definition my_element (i : bytes) : iresult my_error N :=
  match parse_ber_u32 i with
  | Ok x => Ok x
  | Err (Incomplete n) => Err (Incomplete n)
  | Err _ => Err (Error Variant1)
  | Panic => Panic
  | Diverge => Diverge
  end.

(** /repo/tests/custom_error.rs:49-50 *)
Definition my_sequence_of (i : bytes) : iresult my_error (list N) :=
  parse_ber_sequence_of_v my_ops my_element i.
