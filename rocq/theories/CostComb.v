(** * The combinators with a count of the headers they read

    The functions of Combinators.v, each also returning how often it read (or tried to
    read) an element header, its callbacks included; the readers are those of Cost.v.
    Callbacks are pure functions with a count, and the error type is [BerError]. *)

From Verif Require Import Base Asn1rs Ber Der Combinators Cost.

(** /repo/src/ber/multi.rs:514-530. *)
Definition t_ber_container {A} (f : bytes -> header -> nat * res (nerr berror) (bytes * A)) (i : bytes)
  : nat * res (nerr berror) (bytes * A) :=
  cbind (cmap_err (err_convert ber_ops) (t_header i)) (fun ih => let (i1, hdr) := ih in
  cbind (match h_length hdr with
         | Definite len => (O, take_complete ber_ops len i1)
         | Indefinite => cmap_err (err_convert ber_ops) (t_get_content i1 hdr MAX_RECURSION)
         end) (fun id => let (i2, data) := id in
  cbind (f data hdr) (fun rv => let (_, v) := rv in (O, Ok (i2, v))))).

(** /repo/src/der/multi.rs:515-534. *)
Definition t_der_container {A} (f : bytes -> header -> nat * res (nerr berror) (bytes * A)) (i : bytes)
  : nat * res (nerr berror) (bytes * A) :=
  cbind (cmap_err (err_convert ber_ops) (t_header_der i)) (fun ih => let (i1, hdr) := ih in
  cbind (match h_length hdr with
         | Definite len => (O, take_complete ber_ops len i1)
         | Indefinite => (O, Err (err_into ber_ops (DerConstraintFailed DcIndefiniteLength)))
         end) (fun id => let (i2, data) := id in
  cbind (f data hdr) (fun rv => let (_, v) := rv in (O, Ok (i2, v))))).

(** /repo/src/ber/multi.rs:514-530 or /repo/src/der/multi.rs:515-534. *)
Definition t_container {A} (der : bool) (f : bytes -> header -> nat * res (nerr berror) (bytes * A))
  : bytes -> nat * res (nerr berror) (bytes * A) :=
  if der then t_der_container f else t_ber_container f.

(** /repo/src/ber/multi.rs:220-232 and 444-455 ([t] is 16 or 17), the same in
    /repo/src/der/multi.rs:221-233 and 445-456. *)
Definition t_defined_g {A} (der : bool) (t : tag) (f : bytes -> nat * res (nerr berror) (bytes * A)) (i : bytes)
  : nat * res (nerr berror) (bytes * A) :=
  t_container der (fun c hdr =>
    cbind (O, map_err (err_into ber_ops) (assert_tag hdr t)) (fun _ => f c)) i.

(** nom 7 [map], used at /repo/src/ber/multi.rs:38,263. *)
Definition t_map {A B} (g : A -> B) (f : bytes -> nat * res (nerr berror) (bytes * A)) (i : bytes)
  : nat * res (nerr berror) (bytes * B) :=
  cbind (f i) (fun ro => let (r, o) := ro in (O, Ok (r, g o))).

(** nom 7 [complete(cut(f))], used at /repo/src/ber/multi.rs:75. *)
Definition t_complete_cut {A} (f : bytes -> nat * res (nerr berror) (bytes * A)) (i : bytes)
  : nat * res (nerr berror) (bytes * A) :=
  cmap_err (fun e => match e with
                     | Incomplete _ => Error (from_error_kind ber_ops i EkComplete)
                     | e => e
                     end)
    (cmap_err (fun e => match e with Error e => Failure e | e => e end) (f i)).

(** nom 7 [many0], used at /repo/src/ber/multi.rs:75. *)
Fixpoint t_many0_loop {A} (f : bytes -> nat * res (nerr berror) (bytes * A)) (fuel : nat) (acc : list A)
    (i : bytes) : nat * res (nerr berror) (bytes * list A) :=
  match fuel with
  | O => (O, Diverge)
  | S fuel' =>
      let (n, v) := f i in
      match v with
      | Err (Error _) => (n, Ok (i, rev acc))
      | Err e => (n, Err e)
      | Panic => (n, Panic)
      | Diverge => (n, Diverge)
      | Ok (i1, o) =>
          if (length i1 =? length i)%nat then (n, Err (Error (from_error_kind ber_ops i EkMany0)))
          else let (m, w) := t_many0_loop f fuel' (o :: acc) i1 in ((n + m)%nat, w)
      end
  end.

(** /repo/src/ber/multi.rs:75 and 298: [all_consuming(many0(complete(cut(f))))]. *)
Definition t_of_subparser {A} (f : bytes -> nat * res (nerr berror) (bytes * A)) (i : bytes)
  : nat * res (nerr berror) (bytes * list A) :=
  cbind (t_many0_loop (t_complete_cut f) (S (length i)) [] i) (fun ro => let (r, o) := ro in
  (O, match r with
      | [] => Ok (r, o)
      | _ :: _ => Err (Error (from_error_kind ber_ops r EkEof))
      end)).

(** /repo/src/ber/multi.rs:157-165 and 380-388, /repo/src/der/multi.rs:158-166 and
    381-389. *)
Definition t_defined (der : bool) (t : tag) (f : bytes -> nat * res (nerr berror) (bytes * list obj))
  : bytes -> nat * res (nerr berror) (bytes * obj) :=
  t_map (if t =? T_Sequence then from_seq else from_set) (t_defined_g der t f).

(** /repo/src/ber/multi.rs:34-39 and 259-264, /repo/src/der/multi.rs:35-40 and 260-265. *)
Definition t_of (der : bool) (t : tag) (f : bytes -> nat * res (nerr berror) (bytes * obj))
  : bytes -> nat * res (nerr berror) (bytes * obj) :=
  t_map (if t =? T_Sequence then from_seq else from_set) (t_defined_g der t (t_of_subparser f)).

(** /repo/src/ber/tagged.rs:38-53 and 81-104, /repo/src/der/tagged.rs:39-54 and 82-106. *)
Definition t_tagged_explicit (der : bool) (t : tag) (f : bytes -> nat * res (nerr berror) (bytes * obj))
  : bytes -> nat * res (nerr berror) (bytes * obj) :=
  t_container der (fun c hdr =>
    if class_eqb (h_class hdr) Universal
    then (O, Err (err_into ber_ops (UnexpectedClass None (h_class hdr))))
    else
      cbind (O, map_err (err_into ber_ops) (assert_tag hdr t)) (fun _ =>
      cbind (O, if der
                then if negb (h_constructed hdr) then Err (err_into ber_ops ConstructExpected) else Ok tt
                else map_err (err_into ber_ops) (assert_constructed hdr)) (fun _ =>
      cbind (f c) (fun ro => let (r, o) := ro in
      (O, Ok (r, Obj hdr (CTagged (h_class hdr) t o))))))).

(** /repo/src/ber/tagged.rs:170-182 and 243-259, /repo/src/der/tagged.rs:172-184 and
    245-261. *)
Definition t_tagged_implicit (der : bool) (t : tag)
    (f : bytes -> header -> nat -> nat * res (nerr berror) (bytes * content))
  : bytes -> nat * res (nerr berror) (bytes * obj) :=
  t_container der (fun c hdr =>
    cbind (O, map_err (err_into ber_ops) (assert_tag hdr t)) (fun _ =>
    cbind (f c hdr MAX_RECURSION) (fun rk => let (r, k) := rk in (O, Ok (r, Obj hdr k))))).

(** /repo/src/ber/parser.rs:538-555. *)
Definition t_optional (f : bytes -> nat * res (nerr berror) (bytes * obj)) (i : bytes)
  : nat * res (nerr berror) (bytes * obj) :=
  let (n, v) := f i in
  match v with
  | Ok (r, inner) => (n, Ok (r, Obj (o_header inner) (COptional (Some inner))))
  | Err _ => (n, Ok (i, from_obj (COptional None)))
  | Panic => (n, Panic)
  | Diverge => (n, Diverge)
  end.

(** nom 7 [alt], used at /repo/tests/constructed.rs:245 and /repo/tests/der_parser.rs:526. *)
Fixpoint t_alt {A} (fs : list (bytes -> nat * res (nerr berror) (bytes * A))) (i : bytes)
  : nat * res (nerr berror) (bytes * A) :=
  match fs with
  | [] => (O, Err (Error (ENomError EkAlt)))
  | f :: fs =>
      let (n, v) := f i in
      match v with
      | Err (Error _) => let (m, w) := t_alt fs i in ((n + m)%nat, w)
      | x => (n, x)
      end
  end.

(** /repo/src/ber/parser.rs:178-184, /repo/src/der/parser.rs:436-442. *)
Definition t_content (der : bool) (L : leaves) (t : tag) (i : bytes) (hdr : header) (max_recursion : nat)
  : nat * res (nerr berror) (bytes * content) :=
  (if der then t_der_content_as else t_content_as)
    L i t (h_length hdr) (h_constructed hdr) max_recursion.

(** /repo/src/ber/parser.rs:233-245, /repo/src/der/parser.rs:70-82. *)
Definition t_with_tag (der : bool) (L : leaves) (t : tag) (i : bytes)
  : nat * res (nerr berror) (bytes * obj) :=
  if der then t_parse_der_with_tag L i t else t_parse_ber_with_tag L i t.
