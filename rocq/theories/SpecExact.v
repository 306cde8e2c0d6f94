(** * Independent specification: the values that survive decoding, and objects builds
    for any value. *)

From Verif Require Import Base Spec SpecAbstract.

(** Values the readers return as they are: ENUMERATED from 0 to 2^32 - 1 and tag
    numbers below 2^32.  What is inside an explicit tag is kept as octets and does not
    matter. *)
Inductive readable : asn1 -> Prop :=
| rd_enumerated z : (0 <= z < 2 ^ 32)%Z -> readable (AEnumerated z)
| rd_explicit c t v : t < 2 ^ 32 -> readable (AExplicit c t v)
| rd_sequence l : Forall readable l -> readable (ASequence l)
| rd_set l : Forall readable l -> readable (ASet l)
| rd_other v :
    match v with AEnumerated _ | AExplicit _ _ _ | ASequence _ | ASet _ => False | _ => True end ->
    readable v.

(** [builds n o v]: like [stands] with the distinguished rules, but for every
    ENUMERATED an object can hold and for every tag number. *)
Inductive builds : nat -> obj -> asn1 -> Prop :=
| bt_primitive n h k v :
    header_is h Universal false (value_tag v) -> stored Der k v -> builds (S n) (Obj h k) v
| bt_enumerated n h m :
    header_is h Universal false 10 -> m < 2 ^ 64 -> builds (S n) (Obj h (CEnum m)) (AEnumerated (Z.of_N m))
| bt_sequence n h os vs :
    header_is h Universal true 16 -> builds_all n os vs -> builds (S n) (Obj h (CSequence os)) (ASequence vs)
| bt_set n h os vs :
    header_is h Universal true 17 -> builds_all n os vs -> builds (S n) (Obj h (CSet os)) (ASet vs)
| bt_explicit n h c t o v :
    header_is h c true t -> c <> Universal -> builds n o v ->
    builds (S n) (Obj h (CTagged c t o)) (AExplicit c t v)
| bt_unknown n h c t a v :
    header_is h c true t -> c <> Universal -> encodes Der n v (a_data a) ->
    builds (S n) (Obj h (CUnknown a)) (AExplicit c t v)
with builds_all : nat -> list obj -> list asn1 -> Prop :=
| ba_nil n : builds_all n [] []
| ba_cons n o os v vs : builds n o v -> builds_all n os vs -> builds_all n (o :: os) (v :: vs).
