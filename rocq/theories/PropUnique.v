(** * C86: decoded objects stand for one value, and the encoding of an object
    depends on its value only *)

From Coq Require Import String.
From Verif Require Import Base Asn1rs Ber Der Serialize Conformance Spec SpecValue SpecComb SpecSer SpecOid SpecAbstract.
From Verif Require Import LemBase LemHeader LemSkip LemParse LemText LemTree LemNode LemComb LemFrame LemInt LemSer LemAbstract LemUnique.
From Verif Require Import PropDer PropSer PropEnc PropAbstract PropAbstractEnc.
Local Open Scope string_scope.
Local Open Scope N_scope.
Local Open Scope list_scope.

(** The object decoded from an encoding of [v] denotes [v] and nothing else. *)
Theorem C86_one_value : forall L n v bs r, accepts_oids L -> supported v -> (n <= 49)%nat -> bytes_ok r ->
  (encodes Whole n v bs ->
     exists o, parse_ber L (bs ++ r) = Ok (r, o) /\ forall v', denotes Whole o v' <-> v' = v)
  /\ (encodes SpecAbstract.Der n v bs -> no_unknown_tag L -> N.of_nat (length bs) <= 4294967295 ->
     exists o, parse_der L (bs ++ r) = Ok (r, o) /\ forall v', denotes SpecAbstract.Der o v' <-> v' = v).
Proof.
  intros L n v bs r HL Hs Hn Hr. split.
  - intros H. destruct (C82_partial L n v bs r HL Hs Hn Hr H) as (o & E & D). exists o. split; [exact E|].
    intros v'. split; [|now intros ->]. intros D'. exact (proj1 (denotes_unique Whole ltac:(discriminate)) _ _ D' _ D).
  - intros H HU Hlen. destruct (C83_partial L n v bs r HL HU Hs Hn Hr Hlen H) as (o & E & D). exists o. split; [exact E|].
    intros v'. split; [|now intros ->]. intros D'.
    exact (proj1 (denotes_unique SpecAbstract.Der ltac:(discriminate)) _ _ D' _ D).
Qed.
Print Assumptions C86_one_value.

(** Two distinguished encodings decoded to the same object are the same octets. *)
Theorem C86_injective : forall L n n' v v' bs bs' r r' o, accepts_oids L -> no_unknown_tag L ->
  supported v -> supported v' -> (n <= 49)%nat -> (n' <= 49)%nat -> bytes_ok r -> bytes_ok r' ->
  N.of_nat (length bs) <= 4294967295 -> N.of_nat (length bs') <= 4294967295 ->
  encodes SpecAbstract.Der n v bs -> encodes SpecAbstract.Der n' v' bs' ->
  parse_der L (bs ++ r) = Ok (r, o) -> parse_der L (bs' ++ r') = Ok (r', o) -> v = v' /\ bs = bs'.
Proof.
  intros L n n' v v' bs bs' r r' o HL HU Hs Hs' Hn Hn' Hr Hr' Hl Hl' H H' E E'.
  destruct (C83_partial L n v bs r HL HU Hs Hn Hr Hl H) as (o1 & E1 & D1).
  destruct (C83_partial L n' v' bs' r' HL HU Hs' Hn' Hr' Hl' H') as (o2 & E2 & D2).
  rewrite E in E1. rewrite E' in E2. injection E1 as <-. injection E2 as <-.
  assert (v = v') by exact (proj1 (denotes_unique SpecAbstract.Der ltac:(discriminate)) _ _ D1 _ D2). subst v'.
  split; [reflexivity|]. exact (proj1 der_unique _ _ _ H _ _ H').
Qed.
Print Assumptions C86_injective.

(** Objects are encoded to the same octets exactly if they have the same value. *)
Theorem C86_canonical : forall L n n' o o' v v' bs bs', stands SpecAbstract.Der n o v -> stands SpecAbstract.Der n' o' v' ->
  to_vec L o = Ok bs -> to_vec L o' = Ok bs' -> nlen bs < 2 ^ 64 -> nlen bs' < 2 ^ 64 ->
  (bs = bs' <-> v = v').
Proof.
  intros L n n' o o' v v' bs bs' H H' E E' Hl Hl'.
  pose proof (proj1 (stands_encode SpecAbstract.Der L) _ _ _ H bs E Hl) as He.
  pose proof (proj1 (stands_encode SpecAbstract.Der L) _ _ _ H' bs' E' Hl') as He'.
  split.
  - intros <-. exact (proj1 (proj1 (encodes_cut SpecAbstract.Der ltac:(discriminate)) _ _ _ He _ _ _ [] [] He' eq_refl)).
  - intros <-. exact (proj1 der_unique _ _ _ He _ _ He').
Qed.
Print Assumptions C86_canonical.

(** Two objects for the same value that differ in their headers. *)
Example C86_ex : exists o o', o <> o'
  /\ stands SpecAbstract.Der 1 o (AInteger (-129)) /\ stands SpecAbstract.Der 1 o' (AInteger (-129))
  /\ to_vec SL o = Ok (hx "02 02 ff 7f") /\ to_vec SL o' = Ok (hx "02 02 ff 7f").
Proof.
  exists (from_int_slice [255; 127]),
    (Obj (mkHeader Universal false 2 (Definite 77) (Some [2])) (CInteger [255; 127])).
  assert (Hc : stored SpecAbstract.Der (CInteger [255; 127]) (AInteger (-129))).
  { apply stored_integer. change (-129)%Z with (twos_complement [255; 127]).
    apply c_integer; [bok|]. vm_compute. intuition discriminate. }
  split; [discriminate|]. split; [apply st_primitive; [repeat split|exact Hc]|].
  split; [apply st_primitive; [repeat split|exact Hc]|]. split; vm_compute; reflexivity.
Qed.
