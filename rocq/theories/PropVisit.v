(** * C42-C46, C51, C53: traversal, iteration, accessors, printer flags *)

From Coq Require Import String Sorting.Sorted.
From Verif Require Import Base Asn1rs Ber Visit Print Conformance Spec SpecValue SpecVisit.
From Verif Require Import LemBase LemSer.
Local Open Scope string_scope.
Local Open Scope N_scope.
Local Open Scope list_scope.

(** ** C42 *)

(** The visits of the children [l], the first of which has index [k]. *)
Definition children_order (k : nat) (l : list obj) (vs : list (list nat * obj)) : Prop :=
  StronglySorted before (map fst vs)
  /\ (forall p x, In (p, x) vs <-> exists i c q, p = (k + i)%nat :: q /\ nth_error l i = Some c /\ at_path c q x).

Lemma sorted_app {A} (R : A -> A -> Prop) l m : StronglySorted R l -> StronglySorted R m ->
  (forall x y, In x l -> In y m -> R x y) -> StronglySorted R (l ++ m).
Proof.
  induction 1 as [|x l Hs IH Hf]; intros Hm Hx; cbn [app]; [assumption|]. constructor.
  - apply IH; [assumption|]. intros; apply Hx; [now right|assumption].
  - apply Forall_app. split; [assumption|]. apply Forall_forall. intros y Hy. apply Hx; [now left|assumption].
Qed.

Lemma sorted_map {A B} (R : A -> A -> Prop) (R' : B -> B -> Prop) (f : A -> B) l :
  (forall x y, R x y -> R' (f x) (f y)) -> StronglySorted R l -> StronglySorted R' (map f l).
Proof.
  intros Hf. induction 1 as [|x l Hs IH Hx]; cbn [map]; constructor; [assumption|].
  apply Forall_map. eapply Forall_impl; [|exact Hx]. auto.
Qed.

Definition walks o visits := document_order o visits /\ forall S (v : visitor S) s d,
  visit_run_at v s o d = fold_left v (flat_map (calls_at d) visits) s.

Lemma children_walk k l : Forall (fun o => exists visits, walks o visits) l ->
  exists vs, children_order k l vs /\ forall S (v : visitor S) s d,
    visit_children (fun s item => visit_ber_bfs v s item (Datatypes.S d)) s l
    = fold_left v (flat_map (calls_at d) vs) s.
Proof.
  intros H. revert k. induction H as [|o l (vo & (Hs & Hi) & Hv) _ IH]; intros k.
  - exists []. split; [split; [constructor|]|reflexivity]. intros p x. split; [intros []|].
    intros (i & c & q & _ & E & _). destruct i; discriminate.
  - destruct (IH (S k)) as (vs & (Hss & His) & Hvs).
    exists (map (fun px => (k :: fst px, snd px)) vo ++ vs). split; [split|].
    + rewrite map_app, map_map. cbn [fst]. apply sorted_app.
      * rewrite <- map_map. apply (sorted_map before); [|assumption]. intros; now constructor.
      * assumption.
      * intros p q Hp Hq. apply in_map_iff in Hp as ((p' & x) & <- & _). apply in_map_iff in Hq as ((q' & y) & <- & Hy).
        apply His in Hy as (i & c & q & -> & _). cbn [fst]. constructor. lia.
    + intros p x. rewrite in_app_iff, in_map_iff. split.
      * intros [((q & y) & E & Hin)|Hin].
        -- cbn [fst snd] in E. inv E. apply Hi in Hin. exists O, o, q. split; [f_equal; lia|]. split; [reflexivity|assumption].
        -- apply His in Hin as (i & c & q & -> & E & Hq). exists (S i), c, q. split; [f_equal; lia|]. split; assumption.
      * intros (i & c & q & -> & E & Hq). destruct i as [|i]; cbn [nth_error] in E.
        -- inv E. left. exists (q, x). split; [cbn; repeat f_equal; lia|]. now apply Hi.
        -- right. apply His. exists i, c, q. split; [f_equal; lia|]. split; assumption.
    + intros S v s d. cbn [visit_children]. specialize (Hv S v s (Datatypes.S d)). unfold visit_run_at in Hv. rewrite Hv.
      rewrite flat_map_app, fold_left_app, <- Hvs. f_equal.
      rewrite flat_map_concat_map, (flat_map_concat_map (calls_at d)), map_map. do 2 f_equal.
      apply map_ext. intros (p & x). cbn [fst snd calls_at length]. now rewrite Nat.add_succ_r.
Qed.

Lemma leaf_walk h c : children (Obj h c) = [] ->
  (forall S (v : visitor S) s d, visit_run_at v s (Obj h c) d
     = v (v s (VisitBer (Obj h c) d)) (VisitCb (callback_of c) d)) ->
  exists visits, walks (Obj h c) visits.
Proof.
  intros Hc Hv. exists [([], Obj h c)]. split; [split|].
  - repeat constructor.
  - intros p x. split.
    + intros [E|[]]. inv E. constructor.
    + intros H. inversion H as [|o i c' p' x' E]; subst; [now left|].
      rewrite Hc in E. destruct i; discriminate.
  - intros S v s d. rewrite Hv. cbn [flat_map calls_at length app o_content fold_left]. now rewrite Nat.add_0_r.
Qed.

Lemma node_walk h c l : children (Obj h c) = l -> Forall (fun o => exists visits, walks o visits) l ->
  (forall S (v : visitor S) s d, visit_run_at v s (Obj h c) d
     = visit_children (fun s item => visit_ber_bfs v s item (Datatypes.S d))
         (v (v s (VisitBer (Obj h c) d)) (VisitCb (callback_of c) d)) l) ->
  exists visits, walks (Obj h c) visits.
Proof.
  intros Hc Hl Hv. destruct (children_walk 0 l Hl) as (vs & (Hs & Hi) & Hvs).
  exists (([], Obj h c) :: vs). split; [split|].
  - cbn [map fst]. constructor; [assumption|]. apply Forall_map, Forall_forall. intros (p & x) Hp.
    apply Hi in Hp as (i & c' & q & -> & _). constructor.
  - intros p x. split.
    + intros [E|Hin]; [inv E; constructor|]. apply Hi in Hin as (i & c' & q & -> & E & Hq).
      eapply path_child; [rewrite Hc; exact E|exact Hq].
    + intros H. inversion H as [|o i c' p' x' E Hq]; subst; [now left|]. right. apply Hi.
      exists i, c', p'. auto.
  - intros S v s d. rewrite Hv, Hvs. cbn [flat_map calls_at length app o_content fold_left]. now rewrite Nat.add_0_r.
Qed.

(** For every object there is one list of visits, in document order, that every
    visitor makes: at each object [visit_ber], then the callback of its
    variant, with the depth of its path. *)
Theorem C42_visits : forall o, exists visits, document_order o visits
  /\ forall S (v : visitor S) s d,
       visit_run_at v s o d = fold_left v (flat_map (calls_at d) visits) s.
Proof.
  assert (HPQ : (forall o, exists visits, walks o visits) /\ (forall c h, exists visits, walks (Obj h c) visits)).
  2: exact (proj1 HPQ).
  apply obj_content_ind.
  - intros h c Hc. apply Hc.
  - intros l Hl h. apply node_walk with l; auto.
  - intros l Hl h. apply node_walk with l; auto.
  - intros h' c' _ _ h. apply leaf_walk; reflexivity.
  - intros k t o _ h. apply leaf_walk; reflexivity.
  - intros c Hc h. destruct c as [| | | | | | | | | | | | | | | |[o|]| |]; try contradiction; apply leaf_walk; reflexivity.
Qed.
Print Assumptions C42_visits.

(** [run] starts at depth 0; and the visits are unique: the order and the
    objects determine the list. *)
Theorem C42_run : forall o, exists visits, document_order o visits
  /\ (forall visits', document_order o visits' -> visits' = visits)
  /\ forall S (v : visitor S) s, visit_run v s o = fold_left v (flat_map (calls_at 0) visits) s.
Proof.
  intros o. destruct (C42_visits o) as (visits & Hd & Hv). exists visits. split; [assumption|]. split.
  - intros visits' Hd'.
    assert (Hirr : forall p, ~ before p p).
    { induction p as [|i p IH]; intros H; inv H; [lia|auto]. }
    assert (Hasym : forall p q, before p q -> before q p -> False).
    { induction 1 as [i p|i j p q Hij|i p q H IH]; intros H'; inv H'; try lia; auto. }
    assert (Hfun : forall o p x y, at_path o p x -> at_path o p y -> x = y).
    { intros o0 p x y H. revert y. induction H as [o0|o0 i c p x E H IH]; intros y Hy; inv Hy; [reflexivity|].
      apply IH. congruence. }
    assert (Hu : forall l l' : list (list nat * obj),
      StronglySorted before (map fst l) -> StronglySorted before (map fst l') ->
      (forall px, In px l <-> In px l') -> l = l').
    { induction l as [|(p & x) l IH]; intros [|(q & y) l'] H H' Hin.
      - reflexivity.
      - exfalso. apply (proj2 (Hin (q, y))). now left.
      - exfalso. apply (proj1 (Hin (p, x))). now left.
      - cbn [map fst] in H, H'. inv H. inv H'.
        match goal with A : Forall (before p) _, B : Forall (before q) _ |- _ =>
          rewrite Forall_forall in A, B; rename A into Hp; rename B into Hq end.
        assert (E : (p, x) = (q, y)).
        { destruct (proj1 (Hin (p, x)) (or_introl eq_refl)) as [E|E]; [now symmetry|].
          destruct (proj2 (Hin (q, y)) (or_introl eq_refl)) as [E'|E']; [assumption|]. exfalso.
          apply (Hasym p q).
          - apply Hp. change q with (fst (q, y)). now apply in_map.
          - apply Hq. change p with (fst (p, x)). now apply in_map. }
        inv E. f_equal. apply IH; auto. intros (r & z). split; intros Hi.
        + destruct (proj1 (Hin (r, z)) (or_intror Hi)) as [E|E]; [|assumption]. inv E. exfalso.
          apply (Hirr r). apply Hp. change r with (fst (r, z)) at 1. now apply in_map.
        + destruct (proj2 (Hin (r, z)) (or_intror Hi)) as [E|E]; [|assumption]. inv E. exfalso.
          apply (Hirr r). apply Hq. change r with (fst (r, z)) at 1. now apply in_map. }
    destruct Hd as [Hs Hi], Hd' as [Hs' Hi']. apply Hu; auto. intros (p & x). rewrite Hi, Hi'. reflexivity.
  - intros S v s. apply Hv.
Qed.
Print Assumptions C42_run.

(** The log of all calls. *)
Definition logger : visitor (list call) := fun s c => s ++ [c].

Example C42_ex : visit_run logger [] (from_seq [from_int_slice [5]; from_set [from_obj CNull]])
  = [VisitBer (from_seq [from_int_slice [5]; from_set [from_obj CNull]]) 0;
     VisitCb (CbSequence [from_int_slice [5]; from_set [from_obj CNull]]) 0;
     VisitBer (from_int_slice [5]) 1; VisitCb (CbInteger [5]) 1;
     VisitBer (from_set [from_obj CNull]) 1; VisitCb (CbSet [from_obj CNull]) 1;
     VisitBer (from_obj CNull) 2; VisitCb CbNull 2]
  /\ at_path (from_seq [from_int_slice [5]; from_set [from_obj CNull]]) [1; 0]%nat (from_obj CNull).
Proof. split; [reflexivity|]. eapply path_child; [reflexivity|]. eapply path_child; [reflexivity|constructor]. Qed.

(** ** C43 *)

Lemma logger_fold l : forall s, fold_left logger l s = s ++ l.
Proof.
  induction l as [|c l IH]; intros s; cbn [fold_left]; [now rewrite app_nil_r|].
  rewrite IH. unfold logger. now rewrite <- app_assoc.
Qed.

(** The object inside a tagged object (and inside an optional one) is never
    visited. *)
Theorem C43_refuted : exists o n, node n o
  /\ forall d, ~ In (VisitBer n d) (visit_run logger [] o).
Proof.
  exists (from_obj (CTagged ContextSpecific 1 (from_obj CNull))), (from_obj CNull). split.
  - apply node_tagged. constructor.
  - intros d. cbn. intros [H|[H|[]]]; discriminate.
Qed.
Print Assumptions C43_refuted.

(** Missing: objects inside [Tagged] and [Optional] contents.  What is visited:
    exactly the objects reachable through SEQUENCE and SET. *)
Theorem C43_partial : forall o n, (exists d, In (VisitBer n d) (visit_run logger [] o)) <-> exists p, at_path o p n.
Proof.
  intros o n. destruct (C42_run o) as (visits & (_ & Hi) & _ & Hv). rewrite Hv, logger_fold. cbn [app]. split.
  - intros (d & H). apply in_flat_map in H as ((p & x) & Hp & Hc). cbn [calls_at In] in Hc.
    destruct Hc as [E|[E|[]]]; [|discriminate]. inv E. exists p. now apply Hi.
  - intros (p & Hp). exists (0 + length p)%nat. apply in_flat_map. exists (p, n). split; [now apply Hi|now left].
Qed.
Print Assumptions C43_partial.

Example C43_ex : In (VisitBer (from_obj CNull) 2) (visit_run logger [] (from_seq [from_set [from_obj CNull]])).
Proof. cbn. tauto. Qed.

(** ** C44 *)

(** The mutable visitor that makes the calls of [u] and changes nothing. *)
Definition neutral {S} (u : visitor S) : visitor_mut S := {|
  vm_ber := fun s o d => (u s (VisitBer o d), o);
  vm_bitstring := fun s i x d => (u s (VisitCb (CbBitString i x) d), (i, x));
  vm_bmpstring := fun s x d => (u s (VisitCb (CbBmpString x) d), x);
  vm_boolean := fun s x d => (u s (VisitCb (CbBoolean x) d), x);
  vm_endofcontent := fun s d => u s (VisitCb CbEndOfContent d);
  vm_enum := fun s x d => (u s (VisitCb (CbEnum x) d), x);
  vm_str := fun k s x d => (u s (VisitCb (CbStr k x) d), x);
  vm_utf8string := fun s x d => u s (VisitCb (CbStr KUTF8 x) d);
  vm_generalizedtime := fun s x d => u s (VisitCb (CbGeneralizedTime x) d);
  vm_integer := fun s x d => (u s (VisitCb (CbInteger x) d), x);
  vm_null := fun s d => u s (VisitCb CbNull d);
  vm_oid := fun s x d => (u s (VisitCb (CbOid x) d), x);
  vm_octetstring := fun s x d => u s (VisitCb (CbOctetString x) d);
  vm_optional_some := fun s x d => (u s (VisitCb (CbOptional (Some x)) d), x);
  vm_optional_none := fun s d => u s (VisitCb (CbOptional None) d);
  vm_relative_oid := fun s x d => (u s (VisitCb (CbRelativeOid x) d), x);
  vm_sequence := fun s x d => (u s (VisitCb (CbSequence x) d), x);
  vm_set := fun s x d => (u s (VisitCb (CbSet x) d), x);
  vm_tagged := fun s c t x d => (u s (VisitCb (CbTagged c t x) d), (c, t, x));
  vm_utctime := fun s x d => u s (VisitCb (CbUtcTime x) d);
  vm_universalstring := fun s x d => (u s (VisitCb (CbUniversalString x) d), x);
  vm_unknown := fun s x d => (u s (VisitCb (CbUnknown x) d), x)
|}.

Lemma children_mut {S} (u : visitor S) fuel d l :
  Forall (fun o => forall s d, (nesting o < fuel)%nat -> visit_ber_bfs_mut (neutral u) fuel s o d = Ok (visit_run_at u s o d, o)) l ->
  (list_max (map nesting l) < fuel)%nat -> forall s,
  visit_children_mut (fun s item => visit_ber_bfs_mut (neutral u) fuel s item (Datatypes.S d)) s l
  = Ok (visit_children (fun s item => visit_ber_bfs u s item (Datatypes.S d)) s l, l).
Proof.
  induction 1 as [|o l Ho _ IH]; intros Hn s; [reflexivity|]. cbn [map list_max fold_right] in Hn.
  change (fold_right Nat.max 0 (map nesting l))%nat with (list_max (map nesting l)) in Hn.
  cbn [visit_children_mut visit_children]. rewrite Ho by lia. cbn [bind].
  rewrite IH by lia. reflexivity.
Qed.

(** The recursion of the model needs fuel; any amount above the nesting of the
    tree gives the same result. *)
Theorem C44_neutral : forall S (u : visitor S) o s d fuel, (nesting o < fuel)%nat ->
  visit_ber_bfs_mut (neutral u) fuel s o d = Ok (visit_run_at u s o d, o).
Proof.
  intros S u.
  assert (HPQ : (forall o s d fuel, (nesting o < fuel)%nat -> visit_ber_bfs_mut (neutral u) fuel s o d = Ok (visit_run_at u s o d, o))
    /\ (forall c h s d fuel, (nesting_content c < fuel)%nat -> visit_ber_bfs_mut (neutral u) fuel s (Obj h c) d = Ok (visit_run_at u s (Obj h c) d, Obj h c))).
  2: exact (proj1 HPQ).
  apply obj_content_ind.
  - intros h c Hc s d fuel Hf. now apply Hc.
  - intros l Hl h s d [|fuel] Hf; [lia|]. cbn [nesting_content] in Hf.
    cbn [visit_ber_bfs_mut neutral vm_ber vm_sequence vm_set o_content o_header].
    rewrite children_mut; [reflexivity| |lia]. eapply Forall_impl; [|exact Hl]. auto.
  - intros l Hl h s d [|fuel] Hf; [lia|]. cbn [nesting_content] in Hf.
    cbn [visit_ber_bfs_mut neutral vm_ber vm_sequence vm_set o_content o_header].
    rewrite children_mut; [reflexivity| |lia]. eapply Forall_impl; [|exact Hl]. auto.
  - intros h' c' _ _ h s d [|fuel] Hf; [lia|]. reflexivity.
  - intros k t o _ h s d [|fuel] Hf; [lia|]. reflexivity.
  - intros c Hc h s d [|fuel] Hf; [lia|].
    destruct c as [| | | | | | | | | | | | | | | |[o|]| |]; try contradiction; try reflexivity; destruct k; reflexivity.
Qed.
Print Assumptions C44_neutral.

(** [VisitMut::run]. *)
Theorem C44_run : forall S (u : visitor S) o s, exists fuel,
  visit_mut_run (neutral u) fuel s o = Ok (visit_run u s o, o).
Proof. intros S u o s. exists (Datatypes.S (nesting o)). apply C44_neutral. lia. Qed.
Print Assumptions C44_run.

Example C44_ex : let o := from_seq [from_int_slice [5]; from_set [from_obj CNull]] in
  exists log, visit_mut_run (neutral logger) 3 [] o = Ok (log, o) /\ length log = 8%nat.
Proof. eexists. split; reflexivity. Qed.

(** ** C59, C60: visitors that modify *)

(** [visit_ber_mut] and the SEQUENCE and SET callbacks change no object. *)
Definition leaves_only {S} (v : visitor_mut S) : Prop :=
  (forall s o d, snd (vm_ber v s o d) = o)
  /\ (forall s l d, snd (vm_sequence v s l d) = l) /\ (forall s l d, snd (vm_set v s l d) = l).

Lemma children_mut_rel {S} (R : obj -> obj -> Prop) (f : S -> obj -> res unit (S * obj)) l :
  Forall (fun o => forall s, exists s' o', f s o = Ok (s', o') /\ R o o') l ->
  forall s, exists s' l', visit_children_mut f s l = Ok (s', l') /\ Forall2 R l l'.
Proof.
  induction 1 as [|o l Ho _ IH]; intros s; [exists s, []; split; [reflexivity|constructor]|].
  destruct (Ho s) as (s1 & o1 & E & HR). destruct (IH s1) as (s2 & l2 & E2 & HF).
  exists s2, (o1 :: l2). split; [|now constructor].
  cbn [visit_children_mut]. rewrite E. cbn [bind]. rewrite E2. reflexivity.
Qed.

(** A visitor that changes leaves only keeps the shape of the tree, and every
    octet string, UTF8String and time. *)
Theorem C59_shape : forall S (v : visitor_mut S) o s d fuel, leaves_only v -> (nesting o < fuel)%nat ->
  exists s' o', visit_ber_bfs_mut v fuel s o d = Ok (s', o') /\ same_shape o o'.
Proof.
  intros S v o s d fuel (Hb & Hq & Ht). revert o s d fuel.
  assert (Hlist : forall mk l fuel d s1 h (vm : S -> list obj -> nat -> S * list obj),
    (forall h l l', Forall2 same_shape l l' -> same_shape (Obj h (mk l)) (Obj h (mk l'))) ->
    (forall s l d, snd (vm s l d) = l) ->
    Forall (fun o => forall s d fuel, (nesting o < fuel)%nat ->
      exists s' o', visit_ber_bfs_mut v fuel s o d = Ok (s', o') /\ same_shape o o') l ->
    (list_max (map nesting l) < fuel)%nat ->
    exists s' o', (let (s2, l2) := vm s1 l d in
      let* (s3, l') := visit_children_mut (fun s item => visit_ber_bfs_mut v fuel s item (Datatypes.S d)) s2 l2 in
      Ok (s3, Obj h (mk l'))) = Ok (s', o') /\ same_shape (Obj h (mk l)) o').
  { intros mk l fuel d s1 h vm Hmk Hvm Hl Hf. pose proof (Hvm s1 l d) as E. destruct (vm s1 l d) as [s2 l2].
    cbn [snd] in E. subst l2.
    destruct (children_mut_rel same_shape (fun s item => visit_ber_bfs_mut v fuel s item (Datatypes.S d)) l) with (s := s2)
      as (s3 & l3 & E & HF).
    - rewrite Forall_forall in *. intros o Ho s. apply Hl; [assumption|].
      enough (nesting o <= list_max (map nesting l))%nat by lia.
      pose proof (proj1 (list_max_le (map nesting l) _) (le_n _)) as Hm. rewrite Forall_forall in Hm. now apply Hm, in_map.
    - exists s3, (Obj h (mk l3)). split; [now rewrite E|]. now apply Hmk. }
  assert (HPQ : (forall o s d fuel, (nesting o < fuel)%nat ->
      exists s' o', visit_ber_bfs_mut v fuel s o d = Ok (s', o') /\ same_shape o o')
    /\ (forall c h s d fuel, (nesting_content c < fuel)%nat ->
      exists s' o', visit_ber_bfs_mut v fuel s (Obj h c) d = Ok (s', o') /\ same_shape (Obj h c) o')).
  2: exact (proj1 HPQ).
  assert (Hstart : forall (fuel : nat) s h c d, exists s1, vm_ber v s (Obj h c) d = (s1, Obj h c)).
  { intros _ s h c d. pose proof (Hb s (Obj h c) d) as E. destruct (vm_ber v s (Obj h c) d) as [s1 o1]. cbn [snd] in E.
    subst. eauto. }
  apply obj_content_ind.
  - intros h c Hc s d fuel Hf. now apply Hc.
  - intros l Hl h s d [|fuel] Hf; [lia|]. cbn [nesting_content] in Hf. destruct (Hstart fuel s h (CSequence l) d) as (s1 & E).
    cbn [visit_ber_bfs_mut]. rewrite E. cbn [o_content o_header].
    apply (Hlist CSequence); [exact shape_seq|assumption|assumption|lia].
  - intros l Hl h s d [|fuel] Hf; [lia|]. cbn [nesting_content] in Hf. destruct (Hstart fuel s h (CSet l) d) as (s1 & E).
    cbn [visit_ber_bfs_mut]. rewrite E. cbn [o_content o_header].
    apply (Hlist CSet); [exact shape_set|assumption|assumption|lia].
  - intros h' c' _ _ h s d [|fuel] Hf; [lia|]. destruct (Hstart fuel s h (COptional (Some (Obj h' c'))) d) as (s1 & E).
    cbn [visit_ber_bfs_mut]. rewrite E. cbn [o_content o_header].
    destruct (vm_optional_some _ _ _ _) as [s2 o2]. eexists _, _. split; [reflexivity|].
    constructor; [discriminate|discriminate|]. cbn [allowed]. eauto.
  - intros k t o _ h s d [|fuel] Hf; [lia|]. destruct (Hstart fuel s h (CTagged k t o) d) as (s1 & E).
    cbn [visit_ber_bfs_mut]. rewrite E. cbn [o_content o_header].
    destruct (vm_tagged _ _ _ _ _ _) as [s2 [[k2 t2] o2]]. eexists _, _. split; [reflexivity|].
    constructor; [discriminate|discriminate|]. cbn [allowed]. eauto.
  - intros c Hc h s d [|fuel] Hf; [lia|]. destruct (Hstart fuel s h c d) as (s1 & E).
    cbn [visit_ber_bfs_mut]. rewrite E. cbn [o_content o_header].
    assert (Hns : (forall l, c <> CSequence l) /\ (forall l, c <> CSet l)) by (split; intros l ->; exact Hc).
    destruct Hns as [Hn1 Hn2].
    destruct c as [| | | | | | | | |k x| | | | | | |[o|]| |]; try contradiction; try (destruct k);
      try (match goal with |- context [let (_, _) := ?e in _] => destruct e end);
      (eexists _, _; split; [reflexivity|]); (constructor; [assumption|assumption|]); cbn [allowed]; eauto.
Qed.
Print Assumptions C59_shape.

(** The stateless visitor that replaces the content [c] of a leaf at depth [d]
    by [g c d]. *)
Definition replacing (g : content -> nat -> content) : visitor_mut unit := {|
  vm_ber := fun s o d => (s, o);
  vm_bitstring := fun s i x d => (s, match g (CBitString i x) d with CBitString i' x' => (i', x') | _ => (i, x) end);
  vm_bmpstring := fun s x d => (s, match g (CBmpString x) d with CBmpString x' => x' | _ => x end);
  vm_boolean := fun s x d => (s, match g (CBoolean x) d with CBoolean x' => x' | _ => x end);
  vm_endofcontent := fun s d => s;
  vm_enum := fun s x d => (s, match g (CEnum x) d with CEnum x' => x' | _ => x end);
  vm_str := fun k s x d => (s, match g (CStr k x) d with CStr _ x' => x' | _ => x end);
  vm_utf8string := fun s x d => s;
  vm_generalizedtime := fun s x d => s;
  vm_integer := fun s x d => (s, match g (CInteger x) d with CInteger x' => x' | _ => x end);
  vm_null := fun s d => s;
  vm_oid := fun s x d => (s, match g (COID x) d with COID x' => x' | _ => x end);
  vm_octetstring := fun s x d => s;
  vm_optional_some := fun s x d => (s, match g (COptional (Some x)) d with COptional (Some x') => x' | _ => x end);
  vm_optional_none := fun s d => s;
  vm_relative_oid := fun s x d => (s, match g (CRelativeOID x) d with CRelativeOID x' => x' | _ => x end);
  vm_sequence := fun s x d => (s, x);
  vm_set := fun s x d => (s, x);
  vm_tagged := fun s c t x d => (s, match g (CTagged c t x) d with CTagged c' t' x' => (c', t', x') | _ => (c, t, x) end);
  vm_utctime := fun s x d => s;
  vm_universalstring := fun s x d => (s, match g (CUniversalString x) d with CUniversalString x' => x' | _ => x end);
  vm_unknown := fun s x d => (s, match g (CUnknown x) d with CUnknown x' => x' | _ => x end)
|}.

(** Every leaf that is visited is replaced, at its depth, and nothing else. *)
Theorem C60_replaced : forall g o d fuel, (forall c n, allowed c (g c n)) -> (nesting o < fuel)%nat ->
  exists o', visit_ber_bfs_mut (replacing g) fuel tt o d = Ok (tt, o') /\ edited g d o o'.
Proof.
  intros g o d fuel Hg. revert o d fuel.
  assert (Hlist : forall l fuel d,
    Forall (fun o => forall d fuel, (nesting o < fuel)%nat ->
      exists o', visit_ber_bfs_mut (replacing g) fuel tt o d = Ok (tt, o') /\ edited g d o o') l ->
    (list_max (map nesting l) < fuel)%nat ->
    exists l', visit_children_mut (fun s item => visit_ber_bfs_mut (replacing g) fuel s item (Datatypes.S d)) tt l = Ok (tt, l')
      /\ Forall2 (edited g (Datatypes.S d)) l l').
  { intros l fuel d Hl Hf.
    destruct (children_mut_rel (edited g (Datatypes.S d))
      (fun s item => visit_ber_bfs_mut (replacing g) fuel s item (Datatypes.S d)) l) with (s := tt) as ([] & l3 & E & HF); [|eauto].
    rewrite Forall_forall in *. intros o Ho []. destruct (Hl o Ho (Datatypes.S d) fuel) as (o' & E & HR); [|eauto].
    enough (nesting o <= list_max (map nesting l))%nat by lia.
    pose proof (proj1 (list_max_le (map nesting l) _) (le_n _)) as Hm. rewrite Forall_forall in Hm. now apply Hm, in_map. }
  assert (HPQ : (forall o d fuel, (nesting o < fuel)%nat ->
      exists o', visit_ber_bfs_mut (replacing g) fuel tt o d = Ok (tt, o') /\ edited g d o o')
    /\ (forall c h d fuel, (nesting_content c < fuel)%nat ->
      exists o', visit_ber_bfs_mut (replacing g) fuel tt (Obj h c) d = Ok (tt, o') /\ edited g d (Obj h c) o')).
  2: exact (proj1 HPQ).
  assert (Hleaf : forall h c d fuel, (forall l, c <> CSequence l) -> (forall l, c <> CSet l) ->
    visit_ber_bfs_mut (replacing g) (Datatypes.S fuel) tt (Obj h c) d = Ok (tt, Obj h (g c d))).
  { intros h c d fuel H1 H2. pose proof (Hg c d) as Ha. cbn [visit_ber_bfs_mut replacing vm_ber o_content o_header].
    destruct c as [| | | | | | | | |k x| | | | | | |[o|]| |]; cbn [allowed] in Ha;
      try (exfalso; eapply H1; reflexivity); try (exfalso; eapply H2; reflexivity);
      try (destruct k); cbn [replacing vm_bitstring vm_bmpstring vm_boolean vm_endofcontent vm_enum vm_str vm_utf8string
        vm_generalizedtime vm_integer vm_null vm_oid vm_octetstring vm_optional_some vm_optional_none vm_relative_oid
        vm_tagged vm_utctime vm_universalstring vm_unknown]; try (rewrite Ha; reflexivity).
    all: try (destruct Ha as (? & Ha); rewrite Ha; reflexivity).
    - destruct Ha as (? & ? & Ha); rewrite Ha; reflexivity.
    - destruct Ha as (? & ? & ? & Ha); rewrite Ha; reflexivity. }
  apply obj_content_ind.
  - intros h c Hc d fuel Hf. now apply Hc.
  - intros l Hl h d [|fuel] Hf; [lia|]. cbn [nesting_content] in Hf. destruct (Hlist l fuel d Hl) as (l' & E & HF); [lia|].
    cbn [visit_ber_bfs_mut replacing vm_ber vm_sequence o_content o_header].
    fold (replacing g). rewrite E. cbn [bind]. eexists. split; [reflexivity|]. now constructor.
  - intros l Hl h d [|fuel] Hf; [lia|]. cbn [nesting_content] in Hf. destruct (Hlist l fuel d Hl) as (l' & E & HF); [lia|].
    cbn [visit_ber_bfs_mut replacing vm_ber vm_set o_content o_header].
    fold (replacing g). rewrite E. cbn [bind]. eexists. split; [reflexivity|]. now constructor.
  - intros h' c' _ _ h d [|fuel] Hf; [lia|]. rewrite Hleaf by discriminate. eexists. split; [reflexivity|]. now constructor.
  - intros k t o _ h d [|fuel] Hf; [lia|]. rewrite Hleaf by discriminate. eexists. split; [reflexivity|]. now constructor.
  - intros c Hc h d [|fuel] Hf; [lia|]. 
    assert (Hns : (forall l, c <> CSequence l) /\ (forall l, c <> CSet l)) by (split; intros l ->; exact Hc).
    destruct Hns as [Hn1 Hn2]. rewrite Hleaf by assumption. eexists. split; [reflexivity|]. now constructor.
Qed.
Print Assumptions C60_replaced.

(** Appends the depth to every INTEGER. *)
Definition stamp (c : content) (d : nat) : content :=
  match c with CInteger s => CInteger (s ++ [N.of_nat d]) | _ => c end.

Example C60_ex : (forall c n, allowed c (stamp c n)) /\ leaves_only (replacing stamp)
  /\ visit_mut_run (replacing stamp) 3 tt (from_seq [from_int_slice [5]; from_set [from_int_slice [6]; from_obj CNull]])
     = Ok (tt, from_seq [from_int_slice [5; 1]; from_set [from_int_slice [6; 2]; from_obj CNull]]).
Proof.
  split; [|split; [repeat split|reflexivity]].
  intros c n. destruct c as [| | | | | | | | |k x| | | | | | |[o|]| |]; cbn [stamp allowed]; eauto; destruct k; eauto.
Qed.

(** ** C45 *)

Lemma nexts_seq (next : obj * nat -> option obj * (obj * nat)) (f : obj -> nat -> option obj) o n : forall k,
  (forall i, next (o, i) = (f o i, (o, S i))) -> nexts next n (o, k) = map (f o) (seq k n).
Proof.
  induction n as [|n IH]; intros k H; [reflexivity|]. cbn [nexts seq map]. rewrite H. now rewrite IH.
Qed.

(** The i-th call of [next] yields the i-th child, [None] once there are no more. *)
Theorem C45_ref_iter : forall o n,
  nexts ref_iter_next n (ref_iter o) = map (nth_error (children o)) (seq 0 n).
Proof.
  intros o n. unfold ref_iter. apply (nexts_seq ref_iter_next (fun o => nth_error (children o))). intros k.
  destruct o as [h c]. unfold ref_iter_next, children. cbn [o_content].
  destruct c; try (destruct k; reflexivity);
    (destruct (k <? length l)%nat eqn:El; [reflexivity|]; f_equal; symmetry; apply nth_error_None; lia).
Qed.
Print Assumptions C45_ref_iter.

Theorem C45_index : forall o i,
  (forall x, obj_index o i = Ok x <-> nth_error (children o) i = Some x)
  /\ (obj_index o i = Panic <-> (length (children o) <= i)%nat).
Proof.
  intros o i. rewrite <- nth_error_None.
  assert (E : obj_index o i = match nth_error (children o) i with Some x => Ok x | None => Panic end).
  { destruct o as [h c]. unfold obj_index, children. cbn [o_content].
    destruct c; try (destruct i; reflexivity);
      (destruct (i <? length l)%nat eqn:El; [reflexivity|];
       assert (En : nth_error l i = None) by (apply nth_error_None; lia); now rewrite En). }
  rewrite E. split; [intros x|]; destruct (nth_error (children o) i) as [y|]; split; intros H; congruence.
Qed.
Print Assumptions C45_index.

Example C45_ex : nexts ref_iter_next 4 (ref_iter (from_set [from_obj CNull; from_int_slice [5]]))
    = [Some (from_obj CNull); Some (from_int_slice [5]); None; None]
  /\ nexts ref_iter_next 2 (ref_iter (from_int_slice [5])) = [None; None]
  /\ obj_index (from_seq [from_obj CNull; from_int_slice [5]]) 1 = Ok (from_int_slice [5])
  /\ obj_index (from_seq [from_obj CNull; from_int_slice [5]]) 2 = Panic
  /\ obj_index (from_int_slice [5]) 0 = Panic.
Proof. repeat split. Qed.

(** ** C46 *)

(** An empty SEQUENCE yields itself. *)
Theorem C46_refuted : exists o, o_content o = CSequence [] /\ children o = []
  /\ fst (into_iter_next (into_iter o)) = Some o.
Proof. exists (from_seq []). repeat split. Qed.
Print Assumptions C46_refuted.

(** Missing: the empty SEQUENCE and SET. *)
Theorem C46_partial : forall o n,
  (children o <> [] -> nexts into_iter_next n (into_iter o) = map (nth_error (children o)) (seq 0 n))
  /\ (children o = [] -> nexts into_iter_next n (into_iter o) = map (nth_error [o]) (seq 0 n)).
Proof.
  intros o n. unfold into_iter. split; intros Hc.
  - apply (nexts_seq into_iter_next (fun o => nth_error (children o))). intros k.
    destruct o as [h c]. unfold into_iter_next, children in *. cbn [o_content].
    destruct c; try congruence;
      (destruct (k <? length l)%nat eqn:El; [reflexivity|];
       destruct k; [destruct l; [congruence|cbn in El; lia]|]; cbn [Nat.eqb]; f_equal; symmetry; apply nth_error_None; lia).
  - apply (nexts_seq into_iter_next (fun o => nth_error [o])). intros k.
    destruct o as [h c]. unfold into_iter_next, children in *. cbn [o_content].
    assert (Ed : (if (k =? 0)%nat then Some (Obj h c) else None) = nth_error [Obj h c] k)
      by (destruct k as [|[|k]]; reflexivity).
    destruct c; try (rewrite Ed; reflexivity);
      (subst l; cbn [length]; destruct (k <? 0)%nat eqn:El; [lia|]; rewrite Ed; reflexivity).
Qed.
Print Assumptions C46_partial.

Example C46_ex : nexts into_iter_next 3 (into_iter (from_seq [from_obj CNull; from_int_slice [5]]))
    = [Some (from_obj CNull); Some (from_int_slice [5]); None]
  /\ nexts into_iter_next 3 (into_iter (from_int_slice [5])) = [Some (from_int_slice [5]); None; None].
Proof. repeat split. Qed.

(** ** C51 *)

(** [reads f holds e]: [f] returns the value [v] exactly when [holds c v], and
    the error [e] when there is no such value. *)
Definition reads {A} (f : content -> res berror A) (holds : content -> A -> Prop) (e : berror) : Prop :=
  forall c, (forall v, f c = Ok v <-> holds c v) /\ ((forall v, ~ holds c v) <-> f c = Err e).

Lemma reads_intro {A} (f : content -> res berror A) (holds : content -> A -> Prop) e :
  (forall c v, f c = Ok v <-> holds c v) -> (forall c, (exists v, f c = Ok v) \/ f c = Err e) -> reads f holds e.
Proof.
  intros H Ht c. split; [apply H|]. split.
  - intros Hn. destruct (Ht c) as [(v & E)|E]; [|exact E]. exfalso. apply (Hn v). now apply H.
  - intros E v Hv. apply H in Hv. congruence.
Qed.

Ltac tot := first [right; reflexivity|left; eexists; reflexivity].
Ltac by_variant := apply reads_intro; [intros c v; destruct c; split; intros H; inv H; reflexivity|intros []; tot].

Theorem C51_accessors :
  reads as_bool (fun c b => c = CBoolean b) BerTypeError
  /\ reads as_oid (fun c o => c = COID o \/ c = CRelativeOID o) BerTypeError
  /\ reads as_optional (fun c o => c = COptional o) BerTypeError
  /\ reads as_tagged (fun c x => c = CTagged (fst (fst x)) (snd (fst x)) (snd x)) BerTypeError
  /\ reads as_bitstring (fun c s => exists u, c = CBitString u s) BerTypeError
  /\ reads as_sequence (fun c l => c = CSequence l) BerTypeError
  /\ reads as_set (fun c l => c = CSet l) BerTypeError.
Proof.
  split; [by_variant|]. split; [|split; [|split; [|split; [|split; by_variant]]]].
  - apply reads_intro; [|intros []; tot]. intros c v. split.
    + destruct c; intros H; inv H; auto.
    + intros [-> | ->]; reflexivity.
  - apply reads_intro; [|intros c; destruct c as [| | | | | | | | | | | | | | | |[o|]| |]; tot]. intros c v. split.
    + destruct c as [| | | | | | | | | | | | | | | |[o|]| |]; intros H; inv H; reflexivity.
    + intros ->. destruct v; reflexivity.
  - apply reads_intro; [|intros []; tot]. intros c ((k, t), o). split.
    + destruct c; intros H; inv H; reflexivity.
    + cbn [fst snd]. intros ->. reflexivity.
  - apply reads_intro; [|intros []; tot]. intros c v. split.
    + destruct c; intros H; inv H; eauto.
    + intros (u & ->). reflexivity.
Qed.
Print Assumptions C51_accessors.

(** The octets of the string types, INTEGER, BIT STRING, OCTET STRING and
    undecoded elements; the text of the types that hold text; they agree. *)
Theorem C51_strings :
  reads as_slice (fun c s => (exists k, c = CStr k s) \/ c = CInteger s \/ (exists u, c = CBitString u s)
    \/ c = COctetString s \/ c = CBmpString s \/ c = CUniversalString s \/ (exists h, c = CUnknown (mkAny h s))) BerTypeError
  /\ reads as_str (fun c s => exists k, c = CStr k s) BerTypeError
  /\ (forall c s, as_str c = Ok s -> as_slice c = Ok s).
Proof.
  split; [|split].
  - apply reads_intro; [|intros []; tot]. intros c v. split.
    + destruct c as [| | | | | | | | | | | | | | | | | |[h s]]; intros H; inv H; eauto 10.
    + intros [(k & ->)|[->|[(u & ->)|[->|[->|[->|(h & ->)]]]]]]; reflexivity.
  - apply reads_intro; [|intros []; tot]. intros c v. split.
    + destruct c; intros H; inv H; eauto.
    + intros (k & ->). reflexivity.
  - intros c s H; destruct c; inv H; reflexivity.
Qed.
Print Assumptions C51_strings.

(** Type errors of the number accessors. *)
Theorem C51_numbers : forall c,
  ((forall s, c <> CInteger s) ->
     as_i64 c = Err BerValueError /\ as_i32 c = Err BerValueError
     /\ as_bigint c = Err BerValueError /\ as_biguint c = Err BerValueError)
  /\ ((forall s, c <> CInteger s) -> (forall u s, c <> CBitString u s) -> (forall n, c <> CEnum n) ->
     as_u64 c = Err BerTypeError /\ as_u32 c = Err BerTypeError)
  /\ (forall n, c = CEnum n -> as_u64 c = Ok n
        /\ (n < 2 ^ 32 -> as_u32 c = Ok n) /\ (2 ^ 32 <= n -> as_u32 c = Err IntegerTooLarge)).
Proof.
  intros c. split; [|split].
  - intros H. destruct c; try (exfalso; eapply H; reflexivity); auto.
  - intros H1 H2 H3. destruct c; try (exfalso; eapply H1; reflexivity); try (exfalso; eapply H2; reflexivity);
      try (exfalso; eapply H3; reflexivity); auto.
  - intros n ->. split; [reflexivity|]. cbn [as_u32]. change (2 ^ 32) with 4294967296.
    split; intros Hn; destruct (4294967295 <? n) eqn:E; try reflexivity; lia.
Qed.
Print Assumptions C51_numbers.

Example C51_ex : as_bool (CBoolean true) = Ok true /\ as_bool CNull = Err BerTypeError
  /\ as_slice (CStr KUTF8 (hx "41")) = Ok [65] /\ as_str (CStr KUTF8 (hx "41")) = Ok [65]
  /\ as_str (CBmpString (hx "00 41")) = Err BerTypeError
  /\ as_u32 (CEnum 5000000000) = Err IntegerTooLarge.
Proof. repeat split. Qed.

(** ** C53 *)

Inductive flag_op := SetFlag (f : flag) | UnsetFlag (f : flag).
Definition apply_op (p : pretty) (op : flag_op) : pretty :=
  match op with SetFlag f => set_flag p f | UnsetFlag f => unset_flag p f end.

(** The last operation on [f] in a history decides: [Some true] set,
    [Some false] unset, [None] no operation on [f]. *)
Inductive last_op (f : flag) : list flag_op -> option bool -> Prop :=
| last_none : last_op f [] None
| last_set ops : last_op f (ops ++ [SetFlag f]) (Some true)
| last_unset ops : last_op f (ops ++ [UnsetFlag f]) (Some false)
| last_other ops g r : g <> f -> last_op f ops r -> last_op f (ops ++ [SetFlag g]) r
| last_other' ops g r : g <> f -> last_op f ops r -> last_op f (ops ++ [UnsetFlag g]) r.

Lemma flag_eqb_spec f g : flag_eqb f g = true <-> f = g.
Proof. destruct f, g; split; intros H; try reflexivity; discriminate. Qed.

Lemma existsb_flag f l : existsb (flag_eqb f) l = true <-> In f l.
Proof.
  rewrite existsb_exists. split.
  - intros (x & Hx & E). apply flag_eqb_spec in E. now subst.
  - intros H. exists f. split; [assumption|]. now apply flag_eqb_spec.
Qed.

Lemma set_in p f g : In g (p_flags (set_flag p f)) <-> g = f \/ In g (p_flags p).
Proof.
  unfold set_flag, is_flag_set. destruct (existsb (flag_eqb f) (p_flags p)) eqn:E.
  - apply existsb_flag in E. split; [auto|]. intros [->|H]; auto.
  - cbn [p_flags]. rewrite in_app_iff. cbn. intuition.
Qed.

Lemma unset_in p f g : In g (p_flags (unset_flag p f)) <-> g <> f /\ In g (p_flags p).
Proof.
  unfold unset_flag. cbn [p_flags]. rewrite filter_In, negb_true_iff, <- not_true_iff_false, flag_eqb_spec. tauto.
Qed.

Theorem C53_history : forall p ops f,
  let q := fold_left apply_op ops p in
  (last_op f ops (Some true) -> is_flag_set q f = true)
  /\ (last_op f ops (Some false) -> is_flag_set q f = false)
  /\ (last_op f ops None -> is_flag_set q f = is_flag_set p f)
  /\ p_obj q = p_obj p /\ p_indent q = p_indent p /\ p_inc q = p_inc p.
Proof.
  intros p ops f q.
  assert (Hl : forall r, last_op f ops r ->
    is_flag_set q f = match r with Some b => b | None => is_flag_set p f end).
  { unfold q. intros r H. induction H as [|ops|ops|ops g r Hg H IH|ops g r Hg H IH].
    - reflexivity.
    - rewrite fold_left_app. cbn [fold_left apply_op]. apply existsb_flag, set_in. auto.
    - rewrite fold_left_app. cbn [fold_left apply_op]. apply not_true_iff_false. unfold is_flag_set.
      rewrite existsb_flag, unset_in. tauto.
    - rewrite fold_left_app. cbn [fold_left apply_op]. rewrite <- IH. unfold is_flag_set. apply eq_true_iff_eq.
      rewrite !existsb_flag, set_in. intuition congruence.
    - rewrite fold_left_app. cbn [fold_left apply_op]. rewrite <- IH. unfold is_flag_set. apply eq_true_iff_eq.
      rewrite !existsb_flag, unset_in. intuition congruence. }
  split; [apply Hl|]. split; [apply Hl|]. split; [apply Hl|]. unfold q. clear.
  revert p. induction ops as [|op ops IH]; intros p; [auto|]. cbn [fold_left].
  destruct (IH (apply_op p op)) as (-> & -> & ->). destruct op as [g|g]; cbn [apply_op]; [|auto].
  unfold set_flag. destruct (is_flag_set p g); auto.
Qed.
Print Assumptions C53_history.

(** One operation; no duplicates are introduced; [next_indent] keeps the flags. *)
Theorem C53_step : forall p f,
  is_flag_set (set_flag p f) f = true /\ is_flag_set (unset_flag p f) f = false
  /\ (forall g, g <> f -> is_flag_set (set_flag p f) g = is_flag_set p g
                          /\ is_flag_set (unset_flag p f) g = is_flag_set p g)
  /\ (NoDup (p_flags p) -> NoDup (p_flags (set_flag p f)) /\ NoDup (p_flags (unset_flag p f)))
  /\ (forall o, is_flag_set (next_indent p o) f = is_flag_set p f).
Proof.
  intros p f. destruct (C53_history p [SetFlag f] f) as (H1 & _).
  destruct (C53_history p [UnsetFlag f] f) as (_ & H2 & _).
  split; [apply H1, (last_set f [])|]. split; [apply H2, (last_unset f [])|]. split; [|split].
  - intros g Hg. destruct (C53_history p [SetFlag f] g) as (_ & _ & H3 & _).
    destruct (C53_history p [UnsetFlag f] g) as (_ & _ & H4 & _). split.
    + apply H3. apply (last_other g [] f None); [congruence|constructor].
    + apply H4. apply (last_other' g [] f None); [congruence|constructor].
  - intros Hn. split.
    + unfold set_flag. destruct (is_flag_set p f) eqn:E; [assumption|]. cbn [p_flags].
      apply NoDup_rev in Hn. rewrite <- (rev_involutive (p_flags p ++ [f])). apply NoDup_rev.
      rewrite rev_app_distr. cbn. constructor; [|assumption]. rewrite <- in_rev. intros Hi.
      apply existsb_flag in Hi. unfold is_flag_set in E. congruence.
    + apply NoDup_filter. assumption.
  - reflexivity.
Qed.
Print Assumptions C53_step.

(** Every history has a last operation on each flag, or none. *)
Lemma last_op_total f ops : exists r, last_op f ops r.
Proof.
  induction ops as [|op ops IH] using rev_ind; [exists None; constructor|]. destruct IH as (r & Hr).
  assert (Hd : forall g, g = f \/ g <> f) by (intros g; destruct g, f; auto; right; discriminate).
  destruct op as [g|g]; destruct (Hd g) as [->|Hg]; eexists; try (now constructor); constructor; eauto.
Qed.

Example C53_ex : last_op ShowHeader [SetFlag ShowHeader; UnsetFlag Recursive] (Some true)
  /\ is_flag_set (fold_left apply_op [SetFlag ShowHeader; UnsetFlag Recursive] (as_pretty (from_obj CNull) 0 2)) ShowHeader = true
  /\ is_flag_set (fold_left apply_op [SetFlag ShowHeader; UnsetFlag Recursive] (as_pretty (from_obj CNull) 0 2)) Recursive = false.
Proof.
  split; [|split; reflexivity]. apply (last_other' ShowHeader [SetFlag ShowHeader] Recursive); [discriminate|].
  apply (last_set ShowHeader []).
Qed.
