(** * How large an object tree is (for C77) *)

From Verif Require Import Base.

(** Number of objects in a tree. *)
Fixpoint objects (o : obj) : nat :=
  match o with Obj _ c => S (objects_content c) end
with objects_content (c : content) : nat :=
  match c with
  | CSequence l => list_sum (map objects l)
  | CSet l => list_sum (map objects l)
  | COptional (Some o) => objects o
  | CTagged _ _ o => objects o
  | _ => O
  end.

(** Number of octets the tree refers to: identifier octets of the headers and
    contents of the leaves (the identifier octets repeated inside an [Unknown] are
    not counted twice). *)
Definition raw_length (h : header) : nat :=
  match h_raw_tag h with Some s => length s | None => O end.
Fixpoint octets (o : obj) : nat :=
  match o with Obj h c => (raw_length h + octets_content c)%nat end
with octets_content (c : content) : nat :=
  match c with
  | CInteger s | COctetString s | CStr _ s | CBmpString s | CUniversalString s => length s
  | CBitString _ s => S (length s)
  | COID x | CRelativeOID x => length (oid_bytes x)
  | CUnknown a => length (a_data a)
  | CSequence l => list_sum (map octets l)
  | CSet l => list_sum (map octets l)
  | COptional (Some o) => octets o
  | CTagged _ _ o => octets o
  | _ => O
  end.

(** Number of levels of a tree (for C105). *)
Fixpoint height (o : obj) : nat :=
  match o with Obj _ c => S (height_content c) end
with height_content (c : content) : nat :=
  match c with
  | CSequence l => list_max (map height l)
  | CSet l => list_max (map height l)
  | COptional (Some o) => height o
  | CTagged _ _ o => height o
  | _ => O
  end.
