(** * Model of the combinators with callbacks that carry state

    The combinators below take [FnMut] closures, which may change what they have
    captured at every call.  Here a callback is given the captured state and
    returns the new one; Combinators.v has the same functions for callbacks
    without state.  What a callback shares with others (cells, global variables)
    is part of its state. *)

From Verif Require Import Base Asn1rs Ber Der Combinators.

(** The [?] operator, with the state of the callback passed along.  /repo/src/ber/multi.rs:527
    and everywhere else a callback is called. *)
Definition sbind {S E A B} (x : S * res E A) (k : S -> A -> S * res E B) : S * res E B :=
  let (s, v) := x in
  match v with
  | Ok a => k s a
  | Err e => (s, Err e)
  | Panic => (s, Panic)
  | Diverge => (s, Diverge)
  end.

(** A callback [FnMut(&[u8]) -> IResult<&[u8], A, E>], /repo/src/ber/multi.rs:72. *)
Definition callback_of_octets S E A := S -> bytes -> S * iresult E A.
(** A callback [FnMut(&[u8], Header) -> IResult<&[u8], A, E>], /repo/src/ber/multi.rs:224. *)
Definition callback_of_element S E A := S -> bytes -> header -> S * iresult E A.

(** nom 7 [cut], used at /repo/src/ber/multi.rs:75. *)
Definition s_cut {S E A} (f : callback_of_octets S E A) : callback_of_octets S E A :=
  fun s i =>
    let (s, v) := f s i in
    (s, map_err (fun e => match e with Error e => Failure e | e => e end) v).

(** nom 7 [complete], used at /repo/src/ber/multi.rs:75. *)
Definition s_complete {S E A} (ops : err_ops E) (f : callback_of_octets S E A)
  : callback_of_octets S E A :=
  fun s i =>
    let (s, v) := f s i in
    (s, map_err (fun e => match e with
                          | Incomplete _ => Error (from_error_kind ops i EkComplete)
                          | e => e
                          end) v).

(** nom 7 [many0], used at /repo/src/ber/multi.rs:75; fuel as in
    [nom_many0_loop]. *)
Fixpoint s_many0_loop {S E A} (ops : err_ops E) (f : callback_of_octets S E A)
    (fuel : nat) (acc : list A) (s : S) (i : bytes) : S * iresult E (list A) :=
  match fuel with
  | O => (s, Diverge)
  | Datatypes.S fuel' =>
      let (s1, v) := f s i in
      match v with
      | Err (Error _) => (s1, Ok (i, rev acc))
      | Err e => (s1, Err e)
      | Panic => (s1, Panic)
      | Diverge => (s1, Diverge)
      | Ok (i1, o) =>
          if (length i1 =? length i)%nat then (s1, Err (Error (from_error_kind ops i EkMany0)))
          else s_many0_loop ops f fuel' (o :: acc) s1 i1
      end
  end.

(** nom 7 [many0], used at /repo/src/ber/multi.rs:75. *)
Definition s_many0 {S E A} (ops : err_ops E) (f : callback_of_octets S E A)
  : callback_of_octets S E (list A) :=
  fun s i => s_many0_loop ops f (Datatypes.S (length i)) [] s i.

(** nom 7 [all_consuming], used at /repo/src/ber/multi.rs:75. *)
Definition s_all_consuming {S E A} (ops : err_ops E) (f : callback_of_octets S E A)
  : callback_of_octets S E A :=
  fun s i =>
    sbind (f s i) (fun s ro =>
      let (r, o) := ro in
      match r with
      | [] => (s, Ok (r, o))
      | _ :: _ => (s, Err (Error (from_error_kind ops r EkEof)))
      end).

(** nom 7 [map], used at /repo/src/ber/multi.rs:161,384. *)
Definition s_map {S E A B} (g : A -> B) (f : callback_of_octets S E A) : callback_of_octets S E B :=
  fun s i => sbind (f s i) (fun s ro => let (r, o) := ro in (s, Ok (r, g o))).

(** /repo/src/ber/multi.rs:514-530 *)
Definition s_ber_container {S E A} (ops : err_ops E) (f : callback_of_element S E A)
  : callback_of_octets S E A :=
  fun s i =>
    sbind (s, map_err (err_convert ops) (ber_read_element_header i)) (fun s ih =>
    let (i1, hdr) := ih in
    sbind (s, match h_length hdr with
              | Definite len => take_complete ops len i1
              | Indefinite => map_err (err_convert ops) (ber_get_object_content i1 hdr MAX_RECURSION)
              end) (fun s id =>
    let (i2, data) := id in
    sbind (f s data hdr) (fun s rv => (s, Ok (i2, snd rv))))).

(** /repo/src/der/multi.rs:515-534 *)
Definition s_der_container {S E A} (ops : err_ops E) (f : callback_of_element S E A)
  : callback_of_octets S E A :=
  fun s i =>
    sbind (s, map_err (err_convert ops) (der_read_element_header i)) (fun s ih =>
    let (i1, hdr) := ih in
    sbind (s, match h_length hdr with
              | Definite len => take_complete ops len i1
              | Indefinite => Err (err_into ops (DerConstraintFailed DcIndefiniteLength))
              end) (fun s id =>
    let (i2, data) := id in
    sbind (f s data hdr) (fun s rv => (s, Ok (i2, snd rv))))).

(** The closures of /repo/src/ber/multi.rs:227-231 and 450-454,
    /repo/src/der/multi.rs:228-232 and 451-455: the tag first, then the
    callback. *)
Definition s_with_tag {S E A} (ops : err_ops E) (t : tag) (f : callback_of_element S E A)
  : callback_of_element S E A :=
  fun s c hdr =>
    sbind (s, map_err (err_into ops) (assert_tag hdr t)) (fun s _ => f s c hdr).

(** /repo/src/ber/multi.rs:220-232 *)
Definition s_ber_sequence_defined_g {S E A} (ops : err_ops E) (f : callback_of_element S E A)
  : callback_of_octets S E A := s_ber_container ops (s_with_tag ops T_Sequence f).
(** /repo/src/ber/multi.rs:444-455 *)
Definition s_ber_set_defined_g {S E A} (ops : err_ops E) (f : callback_of_element S E A)
  : callback_of_octets S E A := s_ber_container ops (s_with_tag ops T_Set f).
(** /repo/src/der/multi.rs:221-233 *)
Definition s_der_sequence_defined_g {S E A} (ops : err_ops E) (f : callback_of_element S E A)
  : callback_of_octets S E A := s_der_container ops (s_with_tag ops T_Sequence f).
(** /repo/src/der/multi.rs:445-456 *)
Definition s_der_set_defined_g {S E A} (ops : err_ops E) (f : callback_of_element S E A)
  : callback_of_octets S E A := s_der_container ops (s_with_tag ops T_Set f).

(** /repo/src/ber/multi.rs:75 and 298, /repo/src/der/multi.rs:76 and 299 *)
Definition s_of_subparser {S E A} (ops : err_ops E) (f : callback_of_octets S E A)
  : callback_of_octets S E (list A) :=
  s_all_consuming ops (s_many0 ops (s_complete ops (s_cut f))).

(** /repo/src/ber/multi.rs:68-77 *)
Definition s_ber_sequence_of_v {S E A} (ops : err_ops E) (f : callback_of_octets S E A)
  : callback_of_octets S E (list A) :=
  s_ber_sequence_defined_g ops (fun s data _ => s_of_subparser ops f s data).
(** /repo/src/ber/multi.rs:293-300 *)
Definition s_ber_set_of_v {S E A} (ops : err_ops E) (f : callback_of_octets S E A)
  : callback_of_octets S E (list A) :=
  s_ber_set_defined_g ops (fun s data _ => s_of_subparser ops f s data).
(** /repo/src/der/multi.rs:69-78 *)
Definition s_der_sequence_of_v {S E A} (ops : err_ops E) (f : callback_of_octets S E A)
  : callback_of_octets S E (list A) :=
  s_der_sequence_defined_g ops (fun s data _ => s_of_subparser ops f s data).
(** /repo/src/der/multi.rs:294-301 *)
Definition s_der_set_of_v {S E A} (ops : err_ops E) (f : callback_of_octets S E A)
  : callback_of_octets S E (list A) :=
  s_der_set_defined_g ops (fun s data _ => s_of_subparser ops f s data).

(** /repo/src/ber/multi.rs:157-165 *)
Definition s_ber_sequence_defined {S} (f : callback_of_octets S berror (list obj))
  : callback_of_octets S berror obj :=
  s_map from_seq (s_ber_sequence_defined_g ber_ops (fun s data _ => f s data)).
(** /repo/src/ber/multi.rs:380-388 *)
Definition s_ber_set_defined {S} (f : callback_of_octets S berror (list obj))
  : callback_of_octets S berror obj :=
  s_map from_set (s_ber_set_defined_g ber_ops (fun s data _ => f s data)).
(** /repo/src/der/multi.rs:158-166 *)
Definition s_der_sequence_defined {S} (f : callback_of_octets S berror (list obj))
  : callback_of_octets S berror obj :=
  s_map from_seq (s_der_sequence_defined_g ber_ops (fun s data _ => f s data)).
(** /repo/src/der/multi.rs:381-389 *)
Definition s_der_set_defined {S} (f : callback_of_octets S berror (list obj))
  : callback_of_octets S berror obj :=
  s_map from_set (s_der_set_defined_g ber_ops (fun s data _ => f s data)).

(** /repo/src/ber/parser.rs:538-555 *)
Definition s_ber_optional {S} (f : callback_of_octets S berror obj) : callback_of_octets S berror obj :=
  fun s i =>
    let (s1, v) := f s i in
    match v with
    | Ok (r, inner) => (s1, Ok (r, Obj (o_header inner) (COptional (Some inner))))
    | Err _ => (s1, Ok (i, from_obj (COptional None)))
    | Panic => (s1, Panic)
    | Diverge => (s1, Diverge)
    end.
