(** * Model of the flag handling of src/ber/print.rs (the text produced by
    the [Debug] implementation is in PrintText.v). *)

From Verif Require Import Base.

(** /repo/src/ber/print.rs:15-18 *)
Inductive flag := Recursive | ShowHeader.

(** Derived [PartialEq], /repo/src/ber/print.rs:14. *)
Definition flag_eqb (a b : flag) : bool :=
  match a, b with
  | Recursive, Recursive | ShowHeader, ShowHeader => true
  | _, _ => false
  end.

(** /repo/src/ber/print.rs:23-29 *)
Record pretty := mkPretty { p_obj : obj; p_indent : N; p_inc : N; p_flags : list flag }.

(** /repo/src/ber/print.rs:31-35,38-50 *)
Definition pretty_new (o : obj) (flags : list flag) (indent inc : N) : pretty :=
  mkPretty o indent inc flags.
(** /repo/src/ber/print.rs:31-35 *)
Definition as_pretty (o : obj) (indent inc : N) : pretty := pretty_new o [Recursive] indent inc.

(** /repo/src/ber/print.rs:62-64; with [Recursive] it is [is_recursive], lines 75-78 *)
Definition is_flag_set (p : pretty) (f : flag) : bool := existsb (flag_eqb f) (p_flags p).

(** /repo/src/ber/print.rs:52-56 *)
Definition set_flag (p : pretty) (f : flag) : pretty :=
  if is_flag_set p f then p
  else mkPretty (p_obj p) (p_indent p) (p_inc p) (p_flags p ++ [f]).

(** /repo/src/ber/print.rs:58-60 *)
Definition unset_flag (p : pretty) (f : flag) : pretty :=
  mkPretty (p_obj p) (p_indent p) (p_inc p) (filter (fun g => negb (flag_eqb g f)) (p_flags p)).

(** /repo/src/ber/print.rs:66-73 *)
Definition next_indent (p : pretty) (o : obj) : pretty :=
  mkPretty o (p_indent p + p_inc p) (p_inc p) (p_flags p).
