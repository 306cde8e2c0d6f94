(** * Independent specification of the combinators. *)

From Verif Require Import Base Spec.

(** A nom parser returns a suffix of its input. *)
Definition nom_parser {E A} (f : bytes -> iresult E A) : Prop :=
  forall i r v, f i = Ok (r, v) -> exists p, i = p ++ r.

(** An element with definite length. *)
Definition definite_element (h : header) (c bs : bytes) : Prop :=
  exists hb, bs = hb ++ c /\ header_octets h hb /\ h_length h = Definite (N.of_nat (length c)).

(** [splits f c vs]: applied repeatedly to what is left of [c], [f] consumes at
    least one octet each time, yields the values [vs] and nothing is left. *)
Inductive splits {E A} (f : bytes -> iresult E A) : bytes -> list A -> Prop :=
| splits_nil : splits f [] []
| splits_cons piece rest v vs :
    piece <> [] -> f (piece ++ rest) = Ok (rest, v) -> splits f rest vs ->
    splits f (piece ++ rest) (v :: vs).

(** [reaches f c c']: as above, but [c'] is left over. *)
Inductive reaches {E A} (f : bytes -> iresult E A) : bytes -> bytes -> Prop :=
| reaches_here c : reaches f c c
| reaches_next piece rest v c' :
    piece <> [] -> f (piece ++ rest) = Ok (rest, v) -> reaches f rest c' ->
    reaches f (piece ++ rest) c'.
