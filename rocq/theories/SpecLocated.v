(** * Independent specification of where a decoded object borrows its octets.

    From Located.v only the data types [slice] and [layout] are used. *)

From Verif Require Import Base Spec Located.

(** [lies s p i]: the slice is made of octets of [i], where [i] begins at address [p]. *)
Definition lies (s : slice) (p : nat) (i : bytes) : Prop :=
  exists pre post, i = pre ++ s_oct s ++ post /\ s_at s = (p + length pre)%nat.

(** The contents that keep all of the contents octets, and those that keep none. *)
Definition keeps (k : content) : option bytes :=
  match k with
  | CInteger s | COctetString s | CStr _ s | CBmpString s | CUniversalString s => Some s
  | COID x | CRelativeOID x => Some (oid_bytes x)
  | CUnknown a => Some (a_data a)
  | _ => None
  end.
Definition keeps_none (k : content) : Prop :=
  match k with
  | CEndOfContent | CBoolean _ | CNull | CEnum _ | CUTCTime _ | CGeneralizedTime _ | CSequence _ | CSet _ => True
  | _ => False
  end.

(** [holds q c k data]: of the contents octets [c] at address [q], [k] keeps [data]. *)
Inductive holds (q : nat) (c : bytes) : content -> option slice -> Prop :=
| holds_all k : keeps k = Some c -> holds q c k (Some (mkSlice q c))
| holds_bits u s : c = u :: s -> holds q c (CBitString u s) (Some (mkSlice (q + 1) s))
| holds_none k : keeps_none k -> holds q c k None.

(** [placed p bs o y]: the element [bs] at address [p] was decoded to [o]; the tag is
    borrowed from its first octets, contents from the octets behind the header, and the
    members of a SEQUENCE or SET lie one behind the other in the contents. *)
Inductive placed : nat -> bytes -> obj -> layout -> Prop :=
| placed_element p ib lb c tl h k data ms e :
    header_octets h (ib ++ lb) -> h_raw_tag h = Some ib ->
    match h_length h with Definite n => n = N.of_nat (length c) /\ tl = [] | Indefinite => length tl = 2%nat end ->
    body e h (c ++ tl) ->
    holds (p + length ib + length lb) c k data ->
    placed_members (p + length ib + length lb) c k ms ->
    placed p (ib ++ lb ++ c ++ tl) (Obj h k) (Layout (mkSlice p ib) data ms)
with placed_members : nat -> bytes -> content -> list layout -> Prop :=
| pm_sequence q c l ms : placed_all q c l ms -> placed_members q c (CSequence l) ms
| pm_set q c l ms : placed_all q c l ms -> placed_members q c (CSet l) ms
| pm_leaf q c k : (forall l, k <> CSequence l) -> (forall l, k <> CSet l) -> placed_members q c k []
with placed_all : nat -> bytes -> list obj -> list layout -> Prop :=
| pa_nil q : placed_all q [] [] []
| pa_cons q bs rest o os y ys :
    placed q bs o y -> placed_all (q + length bs) rest os ys -> placed_all q (bs ++ rest) (o :: os) (y :: ys).

Scheme placed_ind2 := Minimality for placed Sort Prop
with placed_members_ind2 := Minimality for placed_members Sort Prop
with placed_all_ind2 := Minimality for placed_all Sort Prop.
Combined Scheme placed_mut from placed_ind2, placed_members_ind2, placed_all_ind2.

(** The slices of a layout, an object before those inside it. *)
Fixpoint borrows (y : layout) : list slice :=
  match y with
  | Layout tag_octets data members =>
      tag_octets :: match data with Some s => [s] | None => [] end ++ flat_map borrows members
  end.

(** One behind the other, without overlap, between the addresses [a] and [b]. *)
Inductive apart : nat -> nat -> list slice -> Prop :=
| apart_nil a b : (a <= b)%nat -> apart a b []
| apart_cons a b s l :
    (a <= s_at s)%nat -> apart (s_at s + length (s_oct s)) b l -> apart a b (s :: l).
