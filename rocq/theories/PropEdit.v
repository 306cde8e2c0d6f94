(** * C123: decode, edit, encode, decode *)

From Coq Require Import String.
From Verif Require Import Base Asn1rs Ber Der Serialize Visit Conformance Spec SpecValue SpecSer SpecVisit.
From Verif Require Import LemBase LemParse LemTree LemNode LemSer PropSer PropVisit.
Local Open Scope string_scope. Local Open Scope N_scope. Local Open Scope list_scope.

(** [g] keeps the variant of a content (as the callbacks of a mutable visitor must), puts
    contents that are valid for their type in the place of such contents, and leaves the
    class, the form and the tag of elements that are not decoded. *)
Definition valid_edit (L : leaves) (g : content -> nat -> content) : Prop :=
  (forall c n, allowed c (g c n))
  /\ (forall pc c n, leaf_ok L pc c -> leaf_ok L pc (g c n))
  /\ (forall a n a', g (CUnknown a) n = CUnknown a' ->
        erase_h (a_header a') = erase_h (a_header a) /\ (bytes_ok (a_data a) -> bytes_ok (a_data a'))).

Lemma leaf_variant L pc k k' : leaf_ok L pc k -> allowed k k' -> variant_tag k' = variant_tag k.
Proof.
  destruct k as [| | | | | | | | |c s| | | | | | |[x|]| |]; cbn [leaf_ok allowed]; intros Hl Ha; try contradiction;
    try (destruct c); repeat match goal with H : exists _, _ |- _ => destruct H end; subst; reflexivity.
Qed.

Lemma leaf_not L pc k : leaf_ok L pc k -> (forall l, k <> CSequence l) /\ (forall l, k <> CSet l).
Proof. intros H. split; intros l ->; exact H. Qed.

(** The headers that are written are those of the object before the edit. *)
Lemma edited_well_formed L g : valid_edit L g -> forall d o, well_formed L d o ->
  forall n o', edited g n o o' -> well_formed L d o' /\ forall h, written h o' <-> written h o.
Proof.
  intros (Hall & Hleaf & Hunk). induction d as [|d IH]; intros o Hw n o' He; [inversion Hw|].
  assert (Hlist : forall l l', Forall (well_formed L d) l -> Forall2 (edited g (S n)) l l' ->
    Forall (well_formed L d) l' /\ forall h, (exists x', In x' l' /\ written h x') <-> exists x, In x l /\ written h x).
  { intros l l' Hf He2. induction He2 as [|x x' l l' Hx Hl IHl]; [split; [constructor|reflexivity]|].
    inversion Hf; subst. destruct (IH _ H1 _ _ Hx) as [Hw' Hh]. destruct (IHl H2) as [Hf' Hh'].
    split; [constructor; assumption|]. intros h. split.
    - intros (y & [->|Hy] & Hwr); [exists x; cbn; split; [auto|now apply Hh]|].
      destruct (proj1 (Hh' h)) as (z & Hz & Hzw); [eauto|]. exists z. cbn. auto.
    - intros (y & [->|Hy] & Hwr); [exists x'; cbn; split; [auto|now apply Hh]|].
      destruct (proj2 (Hh' h)) as (z & Hz & Hzw); [eauto|]. exists z. cbn. auto. }
  inversion Hw as [? h k Hc Ht Hl|? h a Hc Heq Hb|? h l Hc Ht Hp Hf|? h l Hc Ht Hp Hf]; subst.
  - inversion He; subst; try (destruct Hl; fail).
    assert (Hl' := Hleaf _ _ n Hl). split.
    + apply wf_leaf; auto. rewrite <- Ht. eapply leaf_variant; eauto.
    + intros h'. split; intros Hwr; inversion Hwr as [|? ? Hin]; subst; try constructor.
      * inversion Hin; subst; match goal with E : _ = g _ _ |- _ => rewrite <- E in Hl'; destruct Hl' end.
      * inversion Hin; subst; destruct Hl.
  - inversion He; subst. destruct (Hall (CUnknown a) n) as (a' & Ea). rewrite Ea. destruct (Hunk _ _ _ Ea) as [E1 E2]. split.
    + apply wf_unknown; auto. congruence.
    + intros h'. split; intros Hwr; inversion Hwr as [|? ? Hin]; subst; try constructor; inversion Hin.
  - inversion He as [? ? Hn1 _|? ? l' Hl2|]; subst; [now destruct (Hn1 _ eq_refl)|]. destruct (Hlist _ _ Hf Hl2) as [Hf' Hh]. split.
    + now apply wf_sequence.
    + intros h'. split; intros Hwr; inversion Hwr as [|? ? Hin]; subst; try constructor; inversion Hin as [x ? Hx Hxw| | |]; subst.
      * destruct (proj1 (Hh h')) as (y & Hy & Hyw); [eauto|]. eapply written_seq; eauto.
      * destruct (proj2 (Hh h')) as (y & Hy & Hyw); [eauto|]. eapply written_seq; eauto.
  - inversion He as [? ? _ Hn1| |? ? l' Hl2]; subst; [now destruct (Hn1 _ eq_refl)|]. destruct (Hlist _ _ Hf Hl2) as [Hf' Hh]. split.
    + now apply wf_set.
    + intros h'. split; intros Hwr; inversion Hwr as [|? ? Hin]; subst; try constructor; inversion Hin as [|x ? Hx Hxw| |]; subst.
      * destruct (proj1 (Hh h')) as (y & Hy & Hyw); [eauto|]. eapply written_set; eauto.
      * destruct (proj2 (Hh h')) as (y & Hy & Hyw); [eauto|]. eapply written_set; eauto.
Qed.

(** What is decoded can be edited by a mutable visitor and encoded; decoding this gives the
    edited object, with the lengths and raw tags of the new octets.  The lengths in the
    headers of the decoded object, which no longer are those of the contents, do no harm. *)
Theorem C123_edit : forall L g d i r o fuel, length_blind L -> bytes_ok i ->
  parse_ber_recursive L i d = Ok (r, o) -> no_times o -> valid_edit L g -> (nesting o < fuel)%nat ->
  exists o', visit_mut_run (replacing g) fuel tt o = Ok (tt, o') /\ edited g 0 o o'
    /\ ((tag_too_large o /\ to_vec L o' = Panic)
        \/ exists bs, to_vec L o' = Ok bs
             /\ (nlen bs < 2 ^ 64 -> exists o2, parse_ber_recursive L bs d = Ok ([], o2) /\ erase o2 = erase o')).
Proof.
  intros L g d i r o fuel HL Hok H Hn Hg Hf. destruct (C60_replaced g o 0 fuel (proj1 Hg) Hf) as (o' & E & He).
  exists o'. split; [exact E|]. split; [exact He|].
  apply parse_ber_iff in H as (bs & c & -> & Hel & Hv); [|assumption]. apply bytes_ok_app in Hok as [Hok _].
  assert (Hw : well_formed L d o).
  { destruct o as [h k]. eapply value_well_formed; eauto. eapply subslice_ok; [|exact Hok]. eapply element_content_sub, Hel. }
  destruct (edited_well_formed _ _ Hg _ _ Hw _ _ He) as [Hw' Hh].
  destruct (proj1 (gen_total L) o') as [(bs2 & E2)|E2]; [right|left; split; [|exact E2]].
  2: { apply (C38_panics L) in E2 as (h & Hwr & Ht). exists h. split; [now apply Hh|exact Ht]. }
  exists bs2. split; [exact E2|]. intros Hlen. destruct (round_trip _ _ _ _ Hw' E2 Hlen) as (o2 & Hp & Ee & _). eauto.
Qed.
Print Assumptions C123_edit.

(** A decoded SEQUENCE with non-minimal and indefinite lengths; the visitor appends the
    depth to every INTEGER. *)
Example C123_ex : exists o o' bs o2,
  parse_ber_recursive SL (hx "30 80 02 81 01 05 31 03 02 01 06 00 00") 50 = Ok ([], o)
  /\ no_times o /\ valid_edit SL (fun c n => match c with CInteger s => CInteger (s ++ [N.of_nat n mod 256]) | _ => c end)
  /\ (nesting o < 3)%nat
  /\ visit_mut_run (replacing (fun c n => match c with CInteger s => CInteger (s ++ [N.of_nat n mod 256]) | _ => c end)) 3 tt o = Ok (tt, o')
  /\ to_vec SL o' = Ok bs /\ bs = hx "30 0a 02 02 05 01 31 04 02 02 06 02"
  /\ parse_ber_recursive SL bs 50 = Ok ([], o2) /\ erase o2 = erase o' /\ o2 <> o'.
Proof.
  eexists _, _, _, _. split; [vm_compute; reflexivity|]. split.
  { intros n t Hn. repeat match goal with
      | H : node _ (Obj _ _) |- _ => inversion H; subst; clear H
      | H : In _ (_ :: _) |- _ => destruct H as [<-|H]
      | H : In _ [] |- _ => destruct H
      end; split; discriminate. }
  split.
  { split; [|split].
    - intros c n. destruct c as [| | | | | | | | |k x| | | | | | |[o|]| |]; cbn [allowed]; eauto; destruct k; eauto.
    - intros pc c n Hl. destruct c; try exact Hl. cbn in *. apply bytes_ok_app. split; [exact Hl|].
      constructor; [|constructor]. apply N.mod_lt. discriminate.
    - intros a n a' [= ->]. auto. }
  split; [vm_compute; lia|]. split; [vm_compute; reflexivity|]. split; [vm_compute; reflexivity|]. split; [vm_compute; reflexivity|].
  split; [vm_compute; reflexivity|]. split; [vm_compute; reflexivity|discriminate].
Qed.
