(** * C87: mutable visitors that replace whole objects *)

From Verif Require Import Base Asn1rs Ber Serialize Visit Spec SpecValue SpecVisit LemBase LemTree PropVisit.

(** The visitor with [visit_ber_mut], [visit_ber_sequence_mut] and
    [visit_ber_set_mut] implemented, the other callbacks left at their default. *)
Definition rewriting {St} (g : St -> obj -> nat -> St * obj) (gs gt : St -> list obj -> nat -> St * list obj)
  : visitor_mut St := {|
  vm_ber := g;
  vm_bitstring := fun s i x d => (s, (i, x));
  vm_bmpstring := fun s x d => (s, x);
  vm_boolean := fun s x d => (s, x);
  vm_endofcontent := fun s d => s;
  vm_enum := fun s x d => (s, x);
  vm_str := fun k s x d => (s, x);
  vm_utf8string := fun s x d => s;
  vm_generalizedtime := fun s x d => s;
  vm_integer := fun s x d => (s, x);
  vm_null := fun s d => s;
  vm_oid := fun s x d => (s, x);
  vm_octetstring := fun s x d => s;
  vm_optional_some := fun s x d => (s, x);
  vm_optional_none := fun s d => s;
  vm_relative_oid := fun s x d => (s, x);
  vm_sequence := gs;
  vm_set := gt;
  vm_tagged := fun s c t x d => (s, (c, t, x));
  vm_utctime := fun s x d => s;
  vm_universalstring := fun s x d => (s, x);
  vm_unknown := fun s x d => (s, x)
|}.

Scheme rewritten_mind := Induction for rewritten Sort Prop
with rewritten_all_mind := Induction for rewritten_all Sort Prop.
Combined Scheme rewritten_both_ind from rewritten_mind, rewritten_all_mind.

Section Proofs.
  Context {St : Type} (g : St -> obj -> nat -> St * obj) (gs gt : St -> list obj -> nat -> St * list obj).
  Notation walk := (visit_ber_bfs_mut (rewriting g gs gt)).
  Notation walk_all fuel d := (visit_children_mut (fun s item => walk fuel s item d)).

  Lemma walk_leaf fuel s o d s1 h c : g s o d = (s1, Obj h c) ->
    (forall l, c <> CSequence l) -> (forall l, c <> CSet l) -> walk (S fuel) s o d = Ok (s1, Obj h c).
  Proof.
    intros E H1 H2. cbn [visit_ber_bfs_mut rewriting vm_ber]. rewrite E. cbn [o_content o_header].
    destruct c as [| | | | | | | | |k x| | | | | | |[y|]| |]; try reflexivity; try (now destruct k);
      exfalso; [eapply H1|eapply H2]; reflexivity.
  Qed.

  Lemma walk_seq fuel s o d s1 h l s2 l2 : g s o d = (s1, Obj h (CSequence l)) -> gs s1 l d = (s2, l2) ->
    walk (S fuel) s o d = let* (s3, l') := walk_all fuel (S d) s2 l2 in Ok (s3, Obj h (CSequence l')).
  Proof.
    intros E E2. cbn [visit_ber_bfs_mut rewriting vm_ber]. rewrite E. cbn [o_content o_header vm_sequence rewriting].
    rewrite E2. reflexivity.
  Qed.
  Lemma walk_set fuel s o d s1 h l s2 l2 : g s o d = (s1, Obj h (CSet l)) -> gt s1 l d = (s2, l2) ->
    walk (S fuel) s o d = let* (s3, l') := walk_all fuel (S d) s2 l2 in Ok (s3, Obj h (CSet l')).
  Proof.
    intros E E2. cbn [visit_ber_bfs_mut rewriting vm_ber]. rewrite E. cbn [o_content o_header vm_set rewriting].
    rewrite E2. reflexivity.
  Qed.

  (** Members to list, for both directions. *)
  Lemma walk_all_sound fuel d :
    (forall s o s' o', walk fuel s o d = Ok (s', o') -> rewritten g gs gt d s o s' o') ->
    forall l s s' l', walk_all fuel d s l = Ok (s', l') -> rewritten_all g gs gt d s l s' l'.
  Proof.
    intros H. induction l as [|o l IH]; intros s s' l' E; cbn [visit_children_mut] in E.
    - injection E as <- <-. constructor.
    - destruct (walk fuel s o d) as [[s1 o1]| | |] eqn:E1; cbn [bind] in E; try discriminate.
      destruct (walk_all fuel d s1 l) as [[s2 l2]| | |] eqn:E2; cbn [bind] in E; try discriminate.
      injection E as <- <-. econstructor; eauto.
  Qed.

  Lemma walk_sound fuel : forall d s o s' o', walk fuel s o d = Ok (s', o') -> rewritten g gs gt d s o s' o'.
  Proof.
    induction fuel as [|fuel IH]; intros d s o s' o' E; [discriminate|].
    destruct (g s o d) as [s1 [h c]] eqn:Eg.
    assert (Hc : (exists l, c = CSequence l) \/ (exists l, c = CSet l)
                 \/ ((forall l, c <> CSequence l) /\ (forall l, c <> CSet l))).
    { destruct c; try (right; right; split; discriminate); eauto. }
    destruct Hc as [(l & ->)|[(l & ->)|[H1 H2]]].
    - destruct (gs s1 l d) as [s2 l2] eqn:E2. rewrite (walk_seq fuel s o d s1 h l s2 l2 Eg E2) in E.
      destruct (walk_all fuel (S d) s2 l2) as [[s3 l3]| | |] eqn:E3; cbn [bind] in E; try discriminate.
      injection E as <- <-. eapply rw_seq; eauto. eapply walk_all_sound; eauto.
    - destruct (gt s1 l d) as [s2 l2] eqn:E2. rewrite (walk_set fuel s o d s1 h l s2 l2 Eg E2) in E.
      destruct (walk_all fuel (S d) s2 l2) as [[s3 l3]| | |] eqn:E3; cbn [bind] in E; try discriminate.
      injection E as <- <-. eapply rw_set; eauto. eapply walk_all_sound; eauto.
    - rewrite (walk_leaf fuel s o d s1 h c Eg H1 H2) in E. injection E as <- <-. now apply rw_leaf.
  Qed.

  Lemma walk_complete :
    (forall d s o s' o', rewritten g gs gt d s o s' o' ->
       exists n, forall fuel, (n <= fuel)%nat -> walk fuel s o d = Ok (s', o'))
    /\ (forall d s l s' l', rewritten_all g gs gt d s l s' l' ->
       exists n, forall fuel, (n <= fuel)%nat -> walk_all fuel d s l = Ok (s', l')).
  Proof.
    apply rewritten_both_ind.
    - intros d s o s1 h c E H1 H2. exists 1%nat. intros [|fuel] Hf; [lia|]. now apply walk_leaf.
    - intros d s o s1 h l s2 l2 s3 l3 E E2 _ (n & Hn). exists (S n). intros [|fuel] Hf; [lia|].
      rewrite (walk_seq fuel s o d s1 h l s2 l2 E E2), Hn by lia. reflexivity.
    - intros d s o s1 h l s2 l2 s3 l3 E E2 _ (n & Hn). exists (S n). intros [|fuel] Hf; [lia|].
      rewrite (walk_set fuel s o d s1 h l s2 l2 E E2), Hn by lia. reflexivity.
    - intros d s. exists O. reflexivity.
    - intros d s o l s1 o' s2 l' _ (n & Hn) _ (m & Hm). exists (Nat.max n m). intros fuel Hf.
      cbn [visit_children_mut]. rewrite Hn by lia. cbn [bind]. rewrite Hm by lia. reflexivity.
  Qed.
End Proofs.

(** What the walk returns, if it returns, is the top-down rewriting; and it
    returns (with enough stack, for any larger amount too) whenever the rewriting
    comes to an end. *)
Theorem C87_rewrites : forall S (g : S -> obj -> nat -> S * obj) gs gt d s o s' o',
  rewritten g gs gt d s o s' o'
  <-> exists n, forall fuel, (n <= fuel)%nat -> visit_ber_bfs_mut (rewriting g gs gt) fuel s o d = Ok (s', o').
Proof.
  intros S g gs gt d s o s' o'. split.
  - apply walk_complete.
  - intros (n & H). eapply walk_sound. apply (H n). lia.
Qed.
Print Assumptions C87_rewrites.

(** No stack depth gives another result. *)
Theorem C87_only : forall S (g : S -> obj -> nat -> S * obj) gs gt fuel s o s' o',
  visit_mut_run (rewriting g gs gt) fuel s o = Ok (s', o') -> rewritten g gs gt 0 s o s' o'.
Proof. intros S g gs gt fuel s o s' o'. apply walk_sound. Qed.
Print Assumptions C87_only.

(** The walk ends when no callback makes the tree deeper. *)
Definition never_deeper {S} (g : S -> obj -> nat -> S * obj) (gs gt : S -> list obj -> nat -> S * list obj) : Prop :=
  (forall s o d, nesting (snd (g s o d)) <= nesting o)%nat
  /\ (forall s l d, list_max (map nesting (snd (gs s l d))) <= list_max (map nesting l))%nat
  /\ (forall s l d, list_max (map nesting (snd (gt s l d))) <= list_max (map nesting l))%nat.

Theorem C87_ends_partial : forall S (g : S -> obj -> nat -> S * obj) gs gt d s o fuel,
  never_deeper g gs gt -> (nesting o < fuel)%nat ->
  exists s' o', visit_ber_bfs_mut (rewriting g gs gt) fuel s o d = Ok (s', o') /\ rewritten g gs gt d s o s' o'.
Proof.
  intros S g gs gt d s o fuel (Hg & Hs & Ht) Hf.
  enough (H : exists s' o', visit_ber_bfs_mut (rewriting g gs gt) fuel s o d = Ok (s', o')).
  { destruct H as (s' & o' & E). exists s', o'. split; [exact E|]. eapply walk_sound; eauto. }
  revert d s o Hf. induction fuel as [|fuel IH]; intros d s o Hf; [lia|].
  assert (Hl : forall d l s, (list_max (map nesting l) < fuel)%nat ->
    exists s' l', visit_children_mut (fun s item => visit_ber_bfs_mut (rewriting g gs gt) fuel s item d) s l = Ok (s', l')).
  { intros d'. induction l as [|x l IHl]; intros s0 H; [eexists; eexists; reflexivity|].
    cbn [map list_max fold_right] in H. change (fold_right Nat.max 0 (map nesting l))%nat with (list_max (map nesting l)) in H.
    destruct (IH d' s0 x) as (s1 & o1 & E1); [lia|]. destruct (IHl s1) as (s2 & l2 & E2); [lia|].
    cbn [visit_children_mut]. rewrite E1. cbn [bind]. rewrite E2. eexists; eexists; reflexivity. }
  pose proof (Hg s o d) as Hn. destruct (g s o d) as [s1 [h c]] eqn:Eg. cbn [snd] in Hn.
  assert (Hc : (exists l, c = CSequence l) \/ (exists l, c = CSet l)
               \/ ((forall l, c <> CSequence l) /\ (forall l, c <> CSet l))).
  { destruct c; try (right; right; split; discriminate); eauto. }
  destruct Hc as [(l & ->)|[(l & ->)|[H1 H2]]].
  - pose proof (Hs s1 l d) as Hm. destruct (gs s1 l d) as [s2 l2] eqn:E2. cbn [snd] in Hm.
    rewrite (walk_seq g gs gt fuel s o d s1 h l s2 l2 Eg E2).
    cbn [nesting nesting_content] in Hn. destruct (Hl (Datatypes.S d) l2 s2) as (s3 & l3 & E3); [lia|].
    rewrite E3. eexists; eexists; reflexivity.
  - pose proof (Ht s1 l d) as Hm. destruct (gt s1 l d) as [s2 l2] eqn:E2. cbn [snd] in Hm.
    rewrite (walk_set g gs gt fuel s o d s1 h l s2 l2 Eg E2).
    cbn [nesting nesting_content] in Hn. destruct (Hl (Datatypes.S d) l2 s2) as (s3 & l3 & E3); [lia|].
    rewrite E3. eexists; eexists; reflexivity.
  - rewrite (walk_leaf g gs gt fuel s o d s1 h c Eg H1 H2). eexists; eexists; reflexivity.
Qed.
Print Assumptions C87_ends_partial.

(** A visitor that puts every object into a SEQUENCE never comes to an end: the
    new member is visited, and is put into a SEQUENCE. *)
Definition wrap_all (s : unit) (o : obj) (d : nat) : unit * obj := (s, from_seq [o]).
Definition keep_list (s : unit) (l : list obj) (d : nat) : unit * list obj := (s, l).

Theorem C87_ends_refuted : forall fuel o d,
  visit_ber_bfs_mut (rewriting wrap_all keep_list keep_list) fuel tt o d = Diverge
  /\ ~ exists s' o', rewritten wrap_all keep_list keep_list d tt o s' o'.
Proof.
  assert (H : forall fuel o d, visit_ber_bfs_mut (rewriting wrap_all keep_list keep_list) fuel tt o d = Diverge).
  { induction fuel as [|fuel IH]; intros o d; [reflexivity|].
    rewrite (walk_seq wrap_all keep_list keep_list fuel tt o d tt _ [o] tt [o] eq_refl eq_refl).
    cbn [visit_children_mut]. rewrite IH. reflexivity. }
  intros fuel o d. split; [apply H|]. intros (s' & o' & HR). apply C87_rewrites in HR as (n & HR).
  specialize (HR n (le_n n)). rewrite H in HR. discriminate.
Qed.
Print Assumptions C87_ends_refuted.

(** Every NULL is replaced by the next number, and SETs become SEQUENCEs; a
    SEQUENCE loses its first member before the members are visited. *)
Definition numbered (n : N) (o : obj) (d : nat) : N * obj :=
  match o_content o with
  | CNull => (n + 1, from_int_slice [n])
  | CSet l => (n, from_seq l)
  | _ => (n, o)
  end.
Definition drop_first (n : N) (l : list obj) (d : nat) : N * list obj := (n, tl l).
Definition same_list (n : N) (l : list obj) (d : nat) : N * list obj := (n, l).

Example C87_ex : never_deeper numbered drop_first same_list
  /\ visit_mut_run (rewriting numbered drop_first same_list) 3 7
       (from_set [from_obj CNull; from_seq [from_obj CNull; from_obj CNull]; from_obj CNull])
     = Ok (9, from_seq [from_seq [from_int_slice [7]]; from_int_slice [8]]).
Proof.
  split; [|reflexivity]. repeat split.
  - intros s [h c] d. unfold numbered. cbn [o_content]. destruct c; cbn; lia.
  - intros s [|x l] d; cbn [drop_first snd tl map list_max fold_right]; [lia|].
    change (fold_right Nat.max 0 (map nesting l))%nat with (list_max (map nesting l)). lia.
  - intros s l d. cbn [same_list snd]. lia.
Qed.
