(** * Model of the container, SEQUENCE/SET OF, tagged and optional
    combinators: src/ber/multi.rs, src/ber/tagged.rs, src/der/multi.rs,
    src/der/tagged.rs, and the optional/implicit parts of src/ber/parser.rs
    and src/der/parser.rs.

    Callbacks are pure functions here; Stateful.v models the functions that take
    [FnMut] closures for closures that carry state between calls. *)

From Verif Require Import Base Asn1rs Ber Der.

(** The bounds [E: ParseError<&[u8]> + From<BerError>] of the generic combinators: how
    an error type is built from a [BerError] and from a nom error kind. Used by the
    bounds of /repo/src/ber/multi.rs:220-226. *)
Record err_ops (E : Type) := mkErrOps {
  from_ber_error : berror -> E;
  from_error_kind : bytes -> error_kind -> E
}.
Arguments from_ber_error {E}. Arguments from_error_kind {E}.

(** asn1-rs: [impl ParseError<&[u8]> for Error]: keeps the kind only. Used where the
    error type is [BerError], e.g. /repo/src/ber/multi.rs:34-39. *)
Definition ber_ops : err_ops berror := mkErrOps berror (fun e => e) (fun _ k => ENomError k).

(** nom 7 [Err::convert] Called at /repo/src/ber/multi.rs:520,524. *)
Definition err_convert {E} (ops : err_ops E) (e : nerr berror) : nerr E :=
  match e with
  | Incomplete n => Incomplete n
  | Error e => Error (from_ber_error ops e)
  | Failure e => Failure (from_ber_error ops e)
  end.

(** A callback's [.map_err(|e| Err::Error(e.into()))] E.g.
    /repo/src/ber/multi.rs:229,452 and /repo/src/ber/tagged.rs:97,99. *)
Definition err_into {E} (ops : err_ops E) (e : berror) : nerr E :=
  Error (from_ber_error ops e).

(** [nom::bytes::complete::take] (used by /repo/src/ber/multi.rs:3,522 and
    /repo/src/der/multi.rs:4,524). *)
Definition take_complete {E} (ops : err_ops E) (l : N) (i : bytes) : iresult E bytes :=
  if nlen i <? l then Err (Error (from_error_kind ops i EkEof))
  else Ok (skipn (N.to_nat l) i, firstn (N.to_nat l) i).

(** nom 7 combinators [cut], [complete], [many0], [all_consuming], [map]. [cut] is
    used at /repo/src/ber/multi.rs:75. *)
Definition nom_cut {E A} (f : bytes -> iresult E A) (i : bytes) : iresult E A :=
  map_err (fun e => match e with Error e => Failure e | e => e end) (f i).

(** nom 7 [complete], used at /repo/src/ber/multi.rs:75. *)
Definition nom_complete {E A} (ops : err_ops E) (f : bytes -> iresult E A) (i : bytes)
  : iresult E A :=
  map_err (fun e => match e with
                    | Incomplete _ => Error (from_error_kind ops i EkComplete)
                    | e => e
                    end) (f i).

(** [many0]: [f] is called even on empty input; an [Error] ends the loop, an element
    that consumes nothing is an error. Fuel: the number of octets plus one (each round
    consumes at least one); [Diverge] otherwise. Used at /repo/src/ber/multi.rs:75. *)
Fixpoint nom_many0_loop {E A} (ops : err_ops E) (f : bytes -> iresult E A)
    (fuel : nat) (acc : list A) (i : bytes) : iresult E (list A) :=
  match fuel with
  | O => Diverge
  | S fuel' =>
      match f i with
      | Err (Error _) => Ok (i, rev acc)
      | Err e => Err e
      | Panic => Panic
      | Diverge => Diverge
      | Ok (i1, o) =>
          if (length i1 =? length i)%nat then Err (Error (from_error_kind ops i EkMany0))
          else nom_many0_loop ops f fuel' (o :: acc) i1
      end
  end.
(** nom 7 [many0], used at /repo/src/ber/multi.rs:75. *)
Definition nom_many0 {E A} (ops : err_ops E) (f : bytes -> iresult E A) (i : bytes)
  : iresult E (list A) :=
  nom_many0_loop ops f (S (length i)) [] i.

(** nom 7 [all_consuming], used at /repo/src/ber/multi.rs:75. *)
Definition nom_all_consuming {E A} (ops : err_ops E) (f : bytes -> iresult E A) (i : bytes)
  : iresult E A :=
  let* (r, o) := f i in
  match r with
  | [] => Ok (r, o)
  | _ :: _ => Err (Error (from_error_kind ops r EkEof))
  end.

(** nom 7 [alt], used at /repo/tests/constructed.rs:245 and /repo/tests/der_parser.rs:526.
    The first parser that does not give a recoverable error decides. [alt] takes a tuple
    of two or more parsers; here a list. The errors of the parsers are joined with
    [ParseError::or] and [append], which for asn1-rs [Error] keep the kind [Alt] only. *)
Fixpoint nom_alt {A} (fs : list (bytes -> iresult berror A)) (i : bytes) : iresult berror A :=
  match fs with
  | [] => Err (Error (ENomError EkAlt))
  | f :: fs => match f i with Err (Error _) => nom_alt fs i | x => x end
  end.

(** nom 7 [map], used at /repo/src/ber/multi.rs:38,263. *)
Definition nom_map {E A B} (g : A -> B) (f : bytes -> iresult E A) (i : bytes) : iresult E B :=
  let* (r, o) := f i in Ok (r, g o).

(** ** BER containers (src/ber/multi.rs) *)

(** /repo/src/ber/multi.rs:514-530 [parse_ber_container] *)
Definition parse_ber_container {E A} (ops : err_ops E) (f : bytes -> header -> iresult E A)
    (i : bytes) : iresult E A :=
  let* (i1, hdr) := map_err (err_convert ops) (ber_read_element_header i) in
  let* (i2, data) :=
    match h_length hdr with
    | Definite len => take_complete ops len i1
    | Indefinite => map_err (err_convert ops) (ber_get_object_content i1 hdr MAX_RECURSION)
    end in
  let* (_, v) := f data hdr in
  Ok (i2, v).

(** /repo/src/ber/multi.rs:220-232 and 444-455 *)
Definition parse_ber_sequence_defined_g {E A} (ops : err_ops E)
    (f : bytes -> header -> iresult E A) (i : bytes) : iresult E A :=
  parse_ber_container ops (fun c hdr =>
    let* _ := map_err (err_into ops) (assert_tag hdr T_Sequence) in f c hdr) i.
(** /repo/src/ber/multi.rs:444-455 *)
Definition parse_ber_set_defined_g {E A} (ops : err_ops E)
    (f : bytes -> header -> iresult E A) (i : bytes) : iresult E A :=
  parse_ber_container ops (fun c hdr =>
    let* _ := map_err (err_into ops) (assert_tag hdr T_Set) in f c hdr) i.

(** /repo/src/ber/multi.rs:75 and 298: the element loop
    [all_consuming(many0(complete(cut(f))))]. *)
Definition of_subparser {E A} (ops : err_ops E) (f : bytes -> iresult E A) (i : bytes)
  : iresult E (list A) :=
  nom_all_consuming ops (nom_many0 ops (nom_complete ops (nom_cut f))) i.

(** /repo/src/ber/multi.rs:68-77 and 293-300 *)
Definition parse_ber_sequence_of_v {E A} (ops : err_ops E) (f : bytes -> iresult E A)
    (i : bytes) : iresult E (list A) :=
  parse_ber_sequence_defined_g ops (fun data _ => of_subparser ops f data) i.
(** /repo/src/ber/multi.rs:293-300 *)
Definition parse_ber_set_of_v {E A} (ops : err_ops E) (f : bytes -> iresult E A)
    (i : bytes) : iresult E (list A) :=
  parse_ber_set_defined_g ops (fun data _ => of_subparser ops f data) i.

(** /repo/src/ber/multi.rs:34-39, 157-165, 259-264, 380-388 *)
Definition parse_ber_sequence_of (f : bytes -> iresult berror obj) (i : bytes)
  : iresult berror obj := nom_map from_seq (parse_ber_sequence_of_v ber_ops f) i.
(** /repo/src/ber/multi.rs:259-264 *)
Definition parse_ber_set_of (f : bytes -> iresult berror obj) (i : bytes)
  : iresult berror obj := nom_map from_set (parse_ber_set_of_v ber_ops f) i.
(** /repo/src/ber/multi.rs:157-165 *)
Definition parse_ber_sequence_defined (f : bytes -> iresult berror (list obj)) (i : bytes)
  : iresult berror obj :=
  nom_map from_seq (parse_ber_sequence_defined_g ber_ops (fun data _ => f data)) i.
(** /repo/src/ber/multi.rs:380-388 *)
Definition parse_ber_set_defined (f : bytes -> iresult berror (list obj)) (i : bytes)
  : iresult berror obj :=
  nom_map from_set (parse_ber_set_defined_g ber_ops (fun data _ => f data)) i.

(** ** DER containers (src/der/multi.rs) *)

(** /repo/src/der/multi.rs:515-534 [parse_der_container] *)
Definition parse_der_container {E A} (ops : err_ops E) (f : bytes -> header -> iresult E A)
    (i : bytes) : iresult E A :=
  let* (i1, hdr) := map_err (err_convert ops) (der_read_element_header i) in
  let* (i2, data) :=
    match h_length hdr with
    | Definite len => take_complete ops len i1
    | Indefinite => Err (err_into ops (DerConstraintFailed DcIndefiniteLength))
    end in
  let* (_, v) := f data hdr in
  Ok (i2, v).

(** /repo/src/der/multi.rs:221-233 and 445-456 *)
Definition parse_der_sequence_defined_g {E A} (ops : err_ops E)
    (f : bytes -> header -> iresult E A) (i : bytes) : iresult E A :=
  parse_der_container ops (fun c hdr =>
    let* _ := map_err (err_into ops) (assert_tag hdr T_Sequence) in f c hdr) i.
(** /repo/src/der/multi.rs:445-456 *)
Definition parse_der_set_defined_g {E A} (ops : err_ops E)
    (f : bytes -> header -> iresult E A) (i : bytes) : iresult E A :=
  parse_der_container ops (fun c hdr =>
    let* _ := map_err (err_into ops) (assert_tag hdr T_Set) in f c hdr) i.

(** /repo/src/der/multi.rs:69-78 and 294-301 (same [subparser] as BER, lines
    76 and 299) *)
Definition parse_der_sequence_of_v {E A} (ops : err_ops E) (f : bytes -> iresult E A)
    (i : bytes) : iresult E (list A) :=
  parse_der_sequence_defined_g ops (fun data _ => of_subparser ops f data) i.
(** /repo/src/der/multi.rs:294-301 *)
Definition parse_der_set_of_v {E A} (ops : err_ops E) (f : bytes -> iresult E A)
    (i : bytes) : iresult E (list A) :=
  parse_der_set_defined_g ops (fun data _ => of_subparser ops f data) i.

(** /repo/src/der/multi.rs:35-40, 158-166, 260-265, 381-389 *)
Definition parse_der_sequence_of (f : bytes -> iresult berror obj) (i : bytes)
  : iresult berror obj := nom_map from_seq (parse_der_sequence_of_v ber_ops f) i.
(** /repo/src/der/multi.rs:260-265 *)
Definition parse_der_set_of (f : bytes -> iresult berror obj) (i : bytes)
  : iresult berror obj := nom_map from_set (parse_der_set_of_v ber_ops f) i.
(** /repo/src/der/multi.rs:158-166 *)
Definition parse_der_sequence_defined (f : bytes -> iresult berror (list obj)) (i : bytes)
  : iresult berror obj :=
  nom_map from_seq (parse_der_sequence_defined_g ber_ops (fun data _ => f data)) i.
(** /repo/src/der/multi.rs:381-389 *)
Definition parse_der_set_defined (f : bytes -> iresult berror (list obj)) (i : bytes)
  : iresult berror obj :=
  nom_map from_set (parse_der_set_defined_g ber_ops (fun data _ => f data)) i.

(** ** Slices *)

(** /repo/src/ber/parser.rs:595-601 and /repo/src/der/parser.rs:403-409 *)
Definition parse_ber_slice (t : tag) (i : bytes) : iresult berror bytes :=
  parse_ber_container ber_ops (fun c hdr =>
    let* _ := map_err nerr_of_err (assert_tag hdr t) in Ok ([], c)) i.
(** /repo/src/der/parser.rs:403-409 *)
Definition parse_der_slice (t : tag) (i : bytes) : iresult berror bytes :=
  parse_der_container ber_ops (fun c hdr =>
    let* _ := map_err nerr_of_err (assert_tag hdr t) in Ok ([], c)) i.

(** ** Tagged values (src/ber/tagged.rs, src/der/tagged.rs) *)

(** /repo/src/ber/tagged.rs:81-104 *)
Definition parse_ber_tagged_explicit_g {E A} (ops : err_ops E) (t : tag)
    (f : bytes -> header -> iresult E A) (i : bytes) : iresult E A :=
  parse_ber_container ops (fun c hdr =>
    if class_eqb (h_class hdr) Universal
    then Err (err_into ops (UnexpectedClass None (h_class hdr)))
    else
      let* _ := map_err (err_into ops) (assert_tag hdr t) in
      let* _ := map_err (err_into ops) (assert_constructed hdr) in
      f c hdr) i.

(** /repo/src/der/tagged.rs:82-106 *)
Definition parse_der_tagged_explicit_g {E A} (ops : err_ops E) (t : tag)
    (f : bytes -> header -> iresult E A) (i : bytes) : iresult E A :=
  parse_der_container ops (fun c hdr =>
    if class_eqb (h_class hdr) Universal
    then Err (err_into ops (UnexpectedClass None (h_class hdr)))
    else
      let* _ := map_err (err_into ops) (assert_tag hdr t) in
      if negb (h_constructed hdr) then Err (err_into ops ConstructExpected)
      else f c hdr) i.

(** /repo/src/ber/tagged.rs:38-53 and /repo/src/der/tagged.rs:39-54: the
    callback wraps the object as [Tagged]. *)
Definition tagged_explicit_cb (t : tag) (f : bytes -> iresult berror obj)
    (c : bytes) (hdr : header) : iresult berror obj :=
  let* (r, o) := f c in Ok (r, Obj hdr (CTagged (h_class hdr) t o)).
(** /repo/src/ber/tagged.rs:38-53 *)
Definition parse_ber_tagged_explicit (t : tag) (f : bytes -> iresult berror obj) (i : bytes)
  : iresult berror obj :=
  parse_ber_tagged_explicit_g ber_ops t (tagged_explicit_cb t f) i.
(** /repo/src/der/tagged.rs:39-54 *)
Definition parse_der_tagged_explicit (t : tag) (f : bytes -> iresult berror obj) (i : bytes)
  : iresult berror obj :=
  parse_der_tagged_explicit_g ber_ops t (tagged_explicit_cb t f) i.

(** /repo/src/ber/tagged.rs:243-259 and /repo/src/der/tagged.rs:245-261 *)
Definition parse_ber_tagged_implicit_g {E A} (ops : err_ops E) (t : tag)
    (f : bytes -> header -> nat -> iresult E A) (i : bytes) : iresult E A :=
  parse_ber_container ops (fun c hdr =>
    let* _ := map_err (err_into ops) (assert_tag hdr t) in
    f c hdr MAX_RECURSION) i.
(** /repo/src/der/tagged.rs:245-261 *)
Definition parse_der_tagged_implicit_g {E A} (ops : err_ops E) (t : tag)
    (f : bytes -> header -> nat -> iresult E A) (i : bytes) : iresult E A :=
  parse_der_container ops (fun c hdr =>
    let* _ := map_err (err_into ops) (assert_tag hdr t) in
    f c hdr MAX_RECURSION) i.

(** /repo/src/ber/tagged.rs:170-182 and /repo/src/der/tagged.rs:172-184 *)
Definition tagged_implicit_cb (f : bytes -> header -> nat -> iresult berror content)
    (c : bytes) (hdr : header) (depth : nat) : iresult berror obj :=
  let* (r, k) := f c hdr depth in Ok (r, Obj hdr k).
(** /repo/src/ber/tagged.rs:170-182 *)
Definition parse_ber_tagged_implicit (t : tag)
    (f : bytes -> header -> nat -> iresult berror content) (i : bytes) : iresult berror obj :=
  parse_ber_tagged_implicit_g ber_ops t (tagged_implicit_cb f) i.
(** /repo/src/der/tagged.rs:172-184 *)
Definition parse_der_tagged_implicit (t : tag)
    (f : bytes -> header -> nat -> iresult berror content) (i : bytes) : iresult berror obj :=
  parse_der_tagged_implicit_g ber_ops t (tagged_implicit_cb f) i.

(** /repo/src/ber/parser.rs:507-513 and /repo/src/der/parser.rs:359-365 (the
    DER variant calls the BER one). *)
Definition parse_ber_implicit (i : bytes) (t : tag)
    (f : bytes -> header -> nat -> iresult berror content) : iresult berror obj :=
  parse_ber_tagged_implicit t f i.
(** /repo/src/der/parser.rs:359-365 *)
Definition parse_der_implicit (i : bytes) (t : tag)
    (f : bytes -> header -> nat -> iresult berror content) : iresult berror obj :=
  parse_ber_implicit i t f.

(** ** Optional values *)

(** /repo/src/ber/parser.rs:538-555 *)
Definition parse_ber_optional (f : bytes -> iresult berror obj) (i : bytes)
  : iresult berror obj :=
  match f i with
  | Ok (r, inner) => Ok (r, Obj (o_header inner) (COptional (Some inner)))
  | Err _ => Ok (i, from_obj (COptional None))
  | Panic => Panic
  | Diverge => Diverge
  end.

(** /repo/src/ber/parser.rs:455-465: note [Tagged(hdr.class(), hdr.tag(), ..)]. *)
Definition parse_ber_explicit_optional (i : bytes) (t : tag) (f : bytes -> iresult berror obj)
  : iresult berror obj :=
  parse_ber_optional (parse_ber_tagged_explicit_g ber_ops t (fun c hdr =>
    let* (r, o) := f c in
    Ok (r, Obj hdr (CTagged (h_class hdr) (h_tag hdr) o)))) i.

(** /repo/src/der/parser.rs:312-317: calls the BER function. *)
Definition parse_der_explicit_optional (i : bytes) (t : tag) (f : bytes -> iresult berror obj)
  : iresult berror obj :=
  parse_ber_explicit_optional i t f.
