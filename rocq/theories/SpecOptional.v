(** * How the results of the DER and the BER parser of one type may differ (for C99) *)

From Verif Require Import Base Asn1rs SpecAccept.

(** The object that stands for an absent OPTIONAL component. *)
Definition absent : obj := Obj (mkHeader Universal false 0 (Definite 0) None) (COptional None).

Definition present (o : obj) : obj := Obj (o_header o) (COptional (Some o)).

(** [fuller o o']: [o'] is [o], except that in records of [o] whose last components
    are absent, some of these may be present in [o']. *)
Inductive fuller : obj -> obj -> Prop :=
| fu_same o : fuller o o
| fu_sequence h l l' : fuller_list l l' -> fuller (Obj h (CSequence l)) (Obj h (CSequence l'))
| fu_set h l l' : fuller_list l l' -> fuller (Obj h (CSet l)) (Obj h (CSet l'))
| fu_tagged h cl t o o' : fuller o o' -> fuller (Obj h (CTagged cl t o)) (Obj h (CTagged cl t o'))
| fu_present o o' : fuller o o' -> fuller (present o) (present o')
with fuller_list : list obj -> list obj -> Prop :=
| fu_nil : fuller_list [] []
| fu_cons o o' l l' : fuller o o' -> fuller_list l l' -> fuller_list (o :: l) (o' :: l')
| fu_rest l x l' :
    Forall (eq absent) l -> length l = length l' ->
    Forall (fun o => o = absent \/ exists y, o = present y) l' ->
    fuller_list (absent :: l) (present x :: l').

(** No SEQUENCE or SET, looked for through components, OPTIONAL and tags, has an
    absent component at its end. *)
Inductive ends_present : obj -> Prop :=
| ep_sequence h l : last_present l -> ends_present (Obj h (CSequence l))
| ep_set h l : last_present l -> ends_present (Obj h (CSet l))
| ep_tagged h cl t o : ends_present o -> ends_present (Obj h (CTagged cl t o))
| ep_optional h x : (forall o, x = Some o -> ends_present o) -> ends_present (Obj h (COptional x))
| ep_other h k :
    (forall l, k <> CSequence l /\ k <> CSet l) -> (forall cl t o, k <> CTagged cl t o) ->
    (forall x, k <> COptional x) -> ends_present (Obj h k)
with last_present : list obj -> Prop :=
| lp_nil : last_present []
| lp_last o : ends_present o -> o <> absent -> last_present [o]
| lp_cons o l : ends_present o -> l <> [] -> last_present l -> last_present (o :: l).
