(** * C97: SET with components and the order of its elements *)

From Coq Require Import String Permutation Sorted.
From Verif Require Import Base Asn1rs Ber Der Combinators Serialize Conformance Spec SpecValue SpecComb SpecSer SpecOid SpecAbstract SpecSchema.
From Verif Require Import LemBase LemHeader LemParse LemAbstract.
From Verif Require Import PropAbstract PropSchema PropSchemaEnc PropReadWrite.
Local Open Scope string_scope. Local Open Scope N_scope. Local Open Scope list_scope.

(** A list has one strictly ascending arrangement. *)
Lemma ascending_unique {A B} (f : A -> B) (R : B -> B -> Prop) :
  (forall x, ~ R x x) -> (forall x y z, R x y -> R y z -> R x z) ->
  forall l l', Permutation l l' -> StronglySorted R (map f l) -> StronglySorted R (map f l') -> l = l'.
Proof.
  intros Hirr Htr. induction l as [|a l IH]; intros l' Hp Hs Hs'.
  - now apply Permutation_nil in Hp.
  - destruct l' as [|b l']; [symmetry in Hp; now apply Permutation_nil in Hp|].
    cbn [map] in *. inversion Hs as [|? ? Hl Ha]; inversion Hs' as [|? ? Hl' Hb]; subst.
    assert (E : a = b).
    { pose proof (Permutation_in a Hp (or_introl eq_refl)) as [E|Hin]; [auto|].
      pose proof (Permutation_in b (Permutation_sym Hp) (or_introl eq_refl)) as [E|Hin']; [auto|].
      exfalso. rewrite Forall_forall in Ha, Hb. apply (Hirr (f a)), (Htr _ (f b)).
      - apply Ha. now apply in_map.
      - apply Hb. now apply in_map. }
    subst b. f_equal. apply IH; auto. now apply Permutation_cons_inv in Hp.
Qed.

Lemma chosen_alternative ru lim e n d bs : encodes_as ru lim e n d bs -> In (chosen e d) (alternatives e).
Proof. induction 1; cbn [chosen alternatives]; rewrite ?in_app_iff; auto; now left. Qed.

Lemma parts_fields ru lim fs n ds ps : encodes_parts ru lim fs n ds ps ->
  encodes_fields ru lim fs n ds (concat (map snd ps))
  /\ (canonical fs -> StronglySorted tag_before (map fst ps))
  /\ (forall e, Forall (all_before e) (field_types fs) -> forall x, In x (alternatives e) -> Forall (tag_before x) (map fst ps)).
Proof.
  unfold canonical. induction 1 as [n|n opt e fs d ds bs ps He Hp (IH1 & IH2 & IH3)|n e fs ds ps Hp (IH1 & IH2 & IH3)].
  - split; [constructor|split; [constructor|intros; constructor]].
  - cbn [map concat snd fst field_types]. pose proof (chosen_alternative _ _ _ _ _ _ He) as Hc. split; [now constructor|]. split.
    + intros Hs. inv Hs. constructor; eauto.
    + intros e' Hf x Hx. inv Hf. constructor; eauto.
  - cbn [field_types]. split; [now constructor|]. split.
    + intros Hs. inv Hs. auto.
    + intros e' Hf x Hx. inv Hf. eauto.
Qed.

Lemma fields_parts ru lim fs n ds c : encodes_fields ru lim fs n ds c ->
  exists ps, encodes_parts ru lim fs n ds ps /\ c = concat (map snd ps).
Proof.
  induction 1 as [n|n opt e fs d ds bs rest He Hf (ps & IH & ->)|n e fs ds rest Hf (ps & IH & ->)].
  - exists []. split; [constructor|reflexivity].
  - exists ((chosen e d, bs) :: ps). split; [now constructor|reflexivity].
  - exists ps. split; [now constructor|reflexivity].
Qed.

(** For a type that lists its components in canonical order, the distinguished
    encodings are those with the components in the order of the type. *)
Lemma canonical_set fs n ds bs : canonical fs ->
  (encodes_set SpecAbstract.Der false fs n ds bs <-> encodes_as SpecAbstract.Der false (TSet fs) (S n) (DRecord ds) bs).
Proof.
  intros Hc. split.
  - intros (ps & ps' & Hp & Hperm & Hs & Hw). destruct (parts_fields _ _ _ _ _ _ Hp) as (Hf & Hsort & _).
    assert (E : ps = ps').
    { apply (ascending_unique fst tag_before); auto.
      - intros x. unfold tag_before. lia.
      - intros x y z. unfold tag_before. lia. }
    subst ps'. eapply as_set; eauto.
  - intros H. inversion H; subst.
    match goal with H : encodes_fields _ _ _ _ _ _ |- _ => destruct (fields_parts _ _ _ _ _ _ H) as (ps & Hp & ->) end.
    exists ps, ps. split; [exact Hp|]. split; [reflexivity|]. split; [|assumption].
    intros _. exact (proj1 (proj2 (parts_fields _ _ _ _ _ _ Hp)) Hc).
Qed.

(** Its parsers read every distinguished encoding. *)
Theorem C97_reads : forall L fs n ds bs r, accepts_oids L -> proper (TSet fs) -> canonical fs -> (S n <= 49)%nat -> bytes_ok r ->
  N.of_nat (length bs) <= 4294967295 -> encodes_set SpecAbstract.Der false fs n ds bs ->
  exists o o', parse_der_set_defined (read_fields (der_kit L) fs) (bs ++ r) = Ok (r, o)
    /\ decoded SpecAbstract.Der (TSet fs) (DRecord ds) o
    /\ parse_ber_set_defined (read_fields (ber_kit L) fs) (bs ++ r) = Ok (r, o')
    /\ decoded SpecAbstract.Der (TSet fs) (DRecord ds) o'.
Proof.
  intros L fs n ds bs r HL Hp Hc Hn Hr Hlen H. apply canonical_set in H; [|exact Hc].
  destruct (C89_der L (TSet fs) (S n) (DRecord ds) bs r HL Hp Hn Hr Hlen H) as (o & Ho & Hd).
  destruct (proj2 (C89_ber L (TSet fs) (S n) (DRecord ds) bs r HL Hp Hn Hr Hlen) H) as (o' & Ho' & Hd').
  exists o, o'. auto.
Qed.
Print Assumptions C97_reads.

(** What is written for such a type is the distinguished encoding, in order. *)
Theorem C97_writes : forall L fs n o ds, canonical fs -> made (TSet fs) (S n) o (DRecord ds) ->
  exists bs, to_vec L o = Ok bs /\ (nlen bs < 2 ^ 64 -> encodes_set SpecAbstract.Der false fs n ds bs).
Proof.
  intros L fs n o ds Hc H. destruct (C90_writes L _ _ _ _ H) as (bs & E & He). exists bs. split; [exact E|].
  intros Hn. apply canonical_set; auto.
Qed.
Print Assumptions C97_writes.

(** ** Other orders *)

Ltac is_canonical := unfold canonical; cbn [field_types];
  repeat first [apply SSorted_nil|apply SSorted_cons|apply Forall_nil|apply Forall_cons];
  intros x y Hx Hy; cbn in Hx, Hy; unfold tag_before; intuition (subst; cbn; lia).

Definition boolean_integer : fields := FCons false (TValue 1) (FCons false (TValue 2) FNil).
Definition integer_boolean : fields := FCons false (TValue 2) (FCons false (TValue 1) FNil).

Lemma true_part ru lim : encodes_as ru lim (TValue 1) 1 (DValue (ABoolean true)) [1; 1; 255].
Proof.
  refine (as_value _ _ 1 (ABoolean true) _ _ I _); [|now apply sup_other].
  refine (e_primitive _ 0 (ABoolean true) [255] [1] _ _); [|now apply any_short].
  apply c_boolean; [lia|split; discriminate|right; reflexivity].
Qed.

Lemma integer_part ru lim x : x < 128 -> encodes_as ru lim (TValue 2) 1 (DValue (AInteger (twos_complement [x]))) [2; 1; x].
Proof.
  intros Hx. refine (as_value _ _ 1 (AInteger (twos_complement [x])) _ _ I _); [|now apply sup_other].
  refine (e_primitive _ 0 (AInteger (twos_complement [x])) [x] [1] _ _); [|now apply any_short].
  apply c_integer; [constructor; [lia|constructor]|exact I].
Qed.

Lemma six_wrapped ru c : length c = 6%nat -> wrapped ru Universal 17 c ([49; 6] ++ c).
Proof.
  intros Hc. exists [49]. split; [left; split; reflexivity|]. left. exists [6]. rewrite Hc. split; [now apply any_short|reflexivity].
Qed.

(** A basic encoding may have the components in another order, and then it is not
    read. *)
Theorem C97_any_order_refuted : exists ds bs,
  proper (TSet boolean_integer) /\ canonical boolean_integer /\ encodes_set Whole true boolean_integer 1 ds bs
  /\ exists x, parse_ber_set_defined (read_fields (ber_kit SL) boolean_integer) bs = Err x.
Proof.
  exists [Some (DValue (ABoolean true)); Some (DValue (AInteger (twos_complement [5])))], [49; 6; 2; 1; 5; 1; 1; 255].
  split; [cbn; repeat split; discriminate|]. split.
  { is_canonical. }
  split.
  - exists [(TValue 1, [1; 1; 255]); (TValue 2, [2; 1; 5])], [(TValue 2, [2; 1; 5]); (TValue 1, [1; 1; 255])].
    split; [|split; [apply perm_swap|split; [discriminate|now apply six_wrapped]]].
    refine (part_present _ _ _ _ (TValue 1) _ _ _ _ _ _ _); [apply true_part|]. refine (part_present _ _ _ _ (TValue 2) _ _ _ _ _ _ _); [now apply integer_part|constructor].
  - eexists. vm_compute. reflexivity.
Qed.
Print Assumptions C97_any_order_refuted.

(** If the type lists its components in another order, the distinguished encoding is
    not read, and what is written is not the distinguished encoding. *)
Theorem C97_listed_refuted : exists ds bs o bs', proper (TSet integer_boolean)
  /\ encodes_set SpecAbstract.Der false integer_boolean 1 ds bs
  /\ (exists x, parse_der_set_defined (read_fields (der_kit SL) integer_boolean) bs = Err x)
  /\ made (TSet integer_boolean) 2 o (DRecord ds) /\ to_vec SL o = Ok bs' /\ bs' <> bs
  /\ (exists o', parse_der_set_defined (read_fields (der_kit SL) integer_boolean) bs' = Ok ([], o')).
Proof.
  exists [Some (DValue (AInteger (twos_complement [5]))); Some (DValue (ABoolean true))], [49; 6; 1; 1; 255; 2; 1; 5],
    (from_set [from_obj (CInteger [5]); from_obj (CBoolean true)]), [49; 6; 2; 1; 5; 1; 1; 255].
  split; [cbn; repeat split; discriminate|]. split.
  { exists [(TValue 2, [2; 1; 5]); (TValue 1, [1; 1; 255])], [(TValue 1, [1; 1; 255]); (TValue 2, [2; 1; 5])].
    split; [|split; [apply perm_swap|split; [intros _; repeat constructor; cbn; lia|now apply six_wrapped]]].
    apply part_present; [now apply integer_part|]. apply part_present; [apply true_part|constructor]. }
  split; [eexists; vm_compute; reflexivity|]. split.
  { apply b_set; [repeat split|]. apply b_component; [|apply b_component; [|constructor]].
    - refine (b_value _ _ (AInteger (twos_complement [5])) _ I _); [|now apply sup_other].
      apply st_primitive; [repeat split|]. apply stored_integer, c_integer; [repeat constructor|exact I].
    - refine (b_value _ _ (ABoolean true) _ I _); [|now apply sup_other].
      apply st_primitive; [repeat split|]. constructor. }
  split; [vm_compute; reflexivity|]. split; [discriminate|]. eexists. vm_compute. reflexivity.
Qed.
Print Assumptions C97_listed_refuted.

(** With a CHOICE among the components there may be no order that does: SET { CHOICE
    { BOOLEAN, UTF8String }, INTEGER }, since the INTEGER stands between the two
    alternatives in the canonical order. *)
Definition boolean_or_text : ty := TChoice (TValue 1) (TValue 12).
Definition choice_integer : fields := FCons false boolean_or_text (FCons false (TValue 2) FNil).
Definition integer_choice : fields := FCons false (TValue 2) (FCons false boolean_or_text FNil).

Lemma text_part ru lim : encodes_as ru lim (TValue 12) 1 (DValue (AText TUtf8 [65])) [12; 1; 65].
Proof.
  refine (as_value _ _ 1 (AText TUtf8 [65]) _ _ I _); [|now apply sup_other].
  refine (e_primitive _ 0 (AText TUtf8 [65]) [65] [1] _ _); [|now apply any_short].
  refine (c_text _ TUtf8 [65] _). constructor; [left; reflexivity|constructor].
Qed.

Theorem C97_choice_refuted :
  proper (TSet choice_integer) /\ proper (TSet integer_choice)
  /\ (exists ds bs, encodes_set SpecAbstract.Der false choice_integer 1 ds bs
        /\ exists x, parse_der_set_defined (read_fields (der_kit SL) choice_integer) bs = Err x)
  /\ exists ds bs, encodes_set SpecAbstract.Der false integer_choice 1 ds bs
        /\ exists x, parse_der_set_defined (read_fields (der_kit SL) integer_choice) bs = Err x.
Proof.
  split; [is_proper|]. split; [is_proper|]. split.
  - exists [Some (DSecond (DValue (AText TUtf8 [65]))); Some (DValue (AInteger (twos_complement [5])))], [49; 6; 2; 1; 5; 12; 1; 65].
    split; [|eexists; vm_compute; reflexivity].
    exists [(TValue 12, [12; 1; 65]); (TValue 2, [2; 1; 5])], [(TValue 2, [2; 1; 5]); (TValue 12, [12; 1; 65])].
    split; [|split; [apply perm_swap|split; [intros _; repeat constructor; cbn; lia|now apply six_wrapped]]].
    refine (part_present _ _ _ _ boolean_or_text _ (DSecond (DValue (AText TUtf8 [65]))) _ _ _ _ _); [constructor; apply text_part|].
    apply part_present; [now apply integer_part|constructor].
  - exists [Some (DValue (AInteger (twos_complement [5]))); Some (DFirst (DValue (ABoolean true)))], [49; 6; 1; 1; 255; 2; 1; 5].
    split; [|eexists; vm_compute; reflexivity].
    exists [(TValue 2, [2; 1; 5]); (TValue 1, [1; 1; 255])], [(TValue 1, [1; 1; 255]); (TValue 2, [2; 1; 5])].
    split; [|split; [apply perm_swap|split; [intros _; repeat constructor; cbn; lia|now apply six_wrapped]]].
    refine (part_present _ _ _ _ (TValue 2) _ _ _ _ _ _ _); [now apply integer_part|].
    refine (part_present _ _ _ _ boolean_or_text _ (DFirst (DValue (ABoolean true))) _ _ _ _ _); [constructor; apply true_part|constructor].
Qed.
Print Assumptions C97_choice_refuted.

(** The order of the elements of a SET is not one of the constraints [parse_der]
    or the SET OF functions check (X.690 10.3, and 11.6 for SET OF: ascending octets), and [to_vec] writes
    the elements as they come. *)
Theorem C97_unsorted_refuted :
  (exists d1 d2 c1 c2 bs o, encodes_as SpecAbstract.Der false (TValue 2) 1 d1 c1
     /\ encodes_as SpecAbstract.Der false (TValue 1) 1 d2 c2 /\ tag_before (TValue 1) (TValue 2)
     /\ wrapped SpecAbstract.Der Universal 17 (c1 ++ c2) bs
     /\ parse_der SL bs = Ok ([], o) /\ to_vec SL o = Ok bs)
  /\ exists d1 d2 c1 c2 bs o, encodes_as SpecAbstract.Der false (TValue 2) 1 d1 c1
     /\ encodes_as SpecAbstract.Der false (TValue 2) 1 d2 c2 /\ octets_before c2 c1
     /\ wrapped SpecAbstract.Der Universal 17 (c1 ++ c2) bs
     /\ parse_der SL bs = Ok ([], o) /\ to_vec SL o = Ok bs
     /\ exists o', parse_der_set_of (fun i => parse_der_with_tag SL i 2) bs = Ok ([], o')
     /\ parse_ber_set_of (fun i => parse_ber_with_tag SL i 2) bs = Ok ([], o').
Proof.
  split; do 2 eexists; exists [2; 1; 5]; [exists [1; 1; 255], [49; 6; 2; 1; 5; 1; 1; 255]|exists [2; 1; 3], [49; 6; 2; 1; 5; 2; 1; 3]];
    eexists; (split; [apply integer_part; lia|]).
  - split; [apply true_part|]. split; [right; split; reflexivity|]. split; [now apply six_wrapped|].
    split; [vm_compute; reflexivity|vm_compute; reflexivity].
  - split; [apply integer_part; lia|]. split; [do 2 apply ob_later; now apply ob_here|]. split; [now apply six_wrapped|].
    split; [vm_compute; reflexivity|]. split; [vm_compute; reflexivity|]. eexists. split; vm_compute; reflexivity.
Qed.
Print Assumptions C97_unsorted_refuted.

(** SET { a BOOLEAN OPTIONAL, b INTEGER, c [0] EXPLICIT NULL OPTIONAL } with [a] and [b]. *)
Example C97_ex :
  let fs := FCons true (TValue 1) (FCons false (TValue 2) (FCons true (TExplicit ContextSpecific 0 (TValue 5)) FNil)) in
  let ds := [Some (DValue (ABoolean true)); Some (DValue (AInteger (twos_complement [5]))); None] in
  proper (TSet fs) /\ canonical fs /\ encodes_set SpecAbstract.Der false fs 1 ds [49; 6; 1; 1; 255; 2; 1; 5]
  /\ (exists h h1 h2 h3 h4, parse_der_set_defined (read_fields (der_kit SL) fs) [49; 6; 1; 1; 255; 2; 1; 5; 170]
        = Ok ([170], Obj h (CSet [Obj h1 (COptional (Some (Obj h2 (CBoolean true)))); Obj h3 (CInteger [5]); Obj h4 (COptional None)])))
  /\ made (TSet fs) 2 (from_set [from_obj (CBoolean true); from_obj (CInteger [5])]) (DRecord ds)
  /\ to_vec SL (from_set [from_obj (CBoolean true); from_obj (CInteger [5])]) = Ok [49; 6; 1; 1; 255; 2; 1; 5].
Proof.
  cbv zeta. split; [is_proper|]. split.
  { is_canonical. }
  split.
  { exists [(TValue 1, [1; 1; 255]); (TValue 2, [2; 1; 5])], [(TValue 1, [1; 1; 255]); (TValue 2, [2; 1; 5])].
    split; [|split; [reflexivity|split; [intros _; repeat constructor; cbn; lia|now apply six_wrapped]]].
    apply part_present; [apply true_part|]. apply part_present; [now apply integer_part|]. apply part_absent. constructor. }
  split; [do 5 eexists; vm_compute; reflexivity|]. split; [|vm_compute; reflexivity].
  apply b_set; [repeat split|]. apply b_component; [|apply b_component; [|apply b_absent; constructor]].
  - refine (b_value _ _ (ABoolean true) _ I _); [|now apply sup_other].
    apply st_primitive; [repeat split|]. constructor.
  - refine (b_value _ _ (AInteger (twos_complement [5])) _ I _); [|now apply sup_other].
    apply st_primitive; [repeat split|]. apply stored_integer, c_integer; [repeat constructor|exact I].
Qed.
