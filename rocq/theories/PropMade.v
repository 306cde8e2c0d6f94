(** * Property C118: objects made by a program, and comparing them with decoded ones. *)

From Coq Require Import String.
From Verif Require Import Base Asn1rs Ber Der Typed Equal Spec SpecValue SpecComb SpecSer SpecEqual SpecTyped
  LemBase LemHeader LemSkip LemParse LemTree LemNode LemSer LemDer Conformance PropFraming PropDer PropVariant PropTyped PropEqual.
Local Open Scope string_scope.
Local Open Scope N_scope.
Local Open Scope list_scope.

(** ** The header an object gets *)

(** The header of an object made from contents of type number [t]: universal, in
    the form X.690 8.1.2.5 asks of that type, of length 0 and with no raw tag. *)
Record made_as (t : tag) (o : obj) : Prop := {
  ma_class : h_class (o_header o) = Universal;
  ma_tag : h_tag (o_header o) = t;
  ma_form : h_constructed (o_header o) = true <-> t = 16 \/ t = 17;
  ma_length : h_length (o_header o) = Definite 0;
  ma_raw : h_raw_tag (o_header o) = None }.

(** The type number of contents ([variant_tag], where there is one); a tagged or
    undecoded value has the number it was given, an optional value that of what it
    holds. *)
Inductive number_of : content -> tag -> Prop :=
| no_variant c t : variant_tag c = Some t -> number_of c t
| no_tagged k t x : number_of (CTagged k t x) t
| no_unknown a : number_of (CUnknown a) (h_tag (a_header a))
| no_some h c t : number_of c t -> number_of (COptional (Some (Obj h c))) t
| no_none : number_of (COptional None) 0.

Lemma tag_number c t : number_of c t -> content_tag c = t.
Proof.
  induction 1 as [c t H| | |h c t H IH|]; try reflexivity; [|exact IH].
  destruct c as [| | | | | | | | |[]| | | | | | | | |]; cbn in H; try discriminate; inv H; reflexivity.
Qed.

Lemma from_obj_made c t : number_of c t -> made_as t (from_obj c).
Proof.
  intros H. apply tag_number in H. unfold from_obj. split; cbn [o_header header_new h_class h_tag h_constructed h_length h_raw_tag];
    auto. rewrite H, orb_true_iff, !N.eqb_eq. reflexivity.
Qed.

(** What a program gets from each way of making an object: the contents it gave,
    under the header that goes with them. *)
Theorem C118_made : forall c t, number_of c t ->
  made_as t (from_obj c) /\ o_content (from_obj c) = c
  /\ made_as t (obj_from_content c) /\ o_content (obj_from_content c) = c.
Proof. intros c t H. pose proof (from_obj_made c t H). auto. Qed.
Print Assumptions C118_made.

Theorem C118_made_as : forall s l x raw,
  made_as 2 (from_int_slice s) /\ o_content (from_int_slice s) = CInteger s
  /\ made_as 16 (from_seq l) /\ o_content (from_seq l) = CSequence l
  /\ made_as 17 (from_set l) /\ o_content (from_set l) = CSet l
  /\ made_as 6 (obj_from_oid x) /\ o_content (obj_from_oid x) = COID x
  /\ (forall o, o_content (set_raw_tag o raw) = o_content o
       /\ h_raw_tag (o_header (set_raw_tag o raw)) = raw
       /\ erase (set_raw_tag o raw) = erase o).
Proof.
  intros s l x raw. repeat match goal with |- _ /\ _ => split end; try reflexivity.
  - split; cbn; auto. split; [discriminate|intros [H|H]; discriminate].
  - apply from_obj_made. now constructor.
  - apply from_obj_made. now constructor.
  - apply from_obj_made. now constructor.
  - intros [h c]. auto.
Qed.
Print Assumptions C118_made_as.

(** ** Comparing with a decoded object *)

(** A program rebuilds a decoded object from its contents, with the functions
    above, as the tests of the crate do for the value they expect. *)
Fixpoint by_hand (o : obj) : obj :=
  match o with
  | Obj _ c =>
      match c with
      | CSequence l => from_seq (map by_hand l)
      | CSet l => from_set (map by_hand l)
      | CInteger s => from_int_slice s
      | COID x => obj_from_oid x
      | _ => obj_from_content c
      end
  end.

(** Universal, and constructed exactly if a SEQUENCE or a SET. *)
Definition ordinary (n : obj) : Prop :=
  h_class (o_header n) = Universal
  /\ (h_constructed (o_header n) = true <-> h_tag (o_header n) = 16 \/ h_tag (o_header n) = 17).

(** What is known of every object inside a decoded one. *)
Definition fits (n : obj) : Prop :=
  content_tag (o_content n) = h_tag (o_header n)
  /\ (forall x, o_content n <> COptional x) /\ (forall c t x, o_content n <> CTagged c t x).

Lemma header_ordinary h k t : made_as t k -> h_tag h = t ->
  (header_eqb h (o_header k) = true <-> h_class h = Universal /\ (h_constructed h = true <-> h_tag h = 16 \/ h_tag h = 17)).
Proof.
  intros [Hc Ht Hf _ Hr] E. rewrite header_eqb_iff. unfold erase_h, compatible. rewrite Hr.
  rewrite <- E in *. split.
  - intros [H _]. injection H as H1 H2 H3. rewrite <- H2 in Hf. split; [congruence|exact Hf].
  - intros [H1 H2]. split; [|auto]. rewrite Hc, H1, Ht. f_equal.
    apply Bool.eq_true_iff_eq. rewrite H2, Hf. reflexivity.
Qed.

Lemma content_refl c : content_eqb c c = true.
Proof. pose proof (C76_reflexive (Obj (header_new Universal false 0 (Definite 0)) c)) as H. cbn [obj_eqb] in H. now apply andb_true_iff in H. Qed.

Lemma compare_members l : Forall (fun o => (forall n, node n o -> fits n) ->
    (obj_eqb o (by_hand o) = true <-> forall n, node n o -> ordinary n)) l ->
  (forall x n, In x l -> node n x -> fits n) ->
  (slice_eqb obj_eqb l (map by_hand l) = true <-> forall x n, In x l -> node n x -> ordinary n).
Proof.
  induction 1 as [|o l Ho _ IH]; intros Hf; cbn [slice_eqb map].
  - split; [intros _ x n []|reflexivity].
  - fold (slice_eqb obj_eqb l (map by_hand l)). rewrite andb_true_iff, Ho, IH.
    + split.
      * intros [H1 H2] x n [<-|Hx] Hn; eauto.
      * intros H. split; intros; eapply H; eauto; [now left|now right].
    + intros x n Hx. apply Hf. now right.
    + intros n. apply Hf. now left.
Qed.

Lemma leaf_compare h c k : (forall x, ~ child x c) -> h_tag h = content_tag c -> k = Obj (o_header k) c ->
  made_as (content_tag c) k ->
  (obj_eqb (Obj h c) k = true <-> forall n, node n (Obj h c) -> ordinary n).
Proof.
  intros Hl Ht Ek Hm. rewrite Ek. cbn [obj_eqb]. rewrite content_refl, andb_true_r.
  rewrite (header_ordinary h k _ Hm Ht). split.
  - intros H n Hn. apply node_inv in Hn as [->|(x & Hx & _)]; [exact H|]. now apply Hl in Hx.
  - intros H. apply (H (Obj h c)). constructor.
Qed.

Lemma compare_list h l (k : list obj -> content) t :
  (t = 16 /\ k = CSequence \/ t = 17 /\ k = CSet) ->
  Forall (fun o => (forall n, node n o -> fits n) ->
    (obj_eqb o (by_hand o) = true <-> forall n, node n o -> ordinary n)) l ->
  (forall n, node n (Obj h (k l)) -> fits n) ->
  (obj_eqb (Obj h (k l)) (from_obj (k (map by_hand l))) = true <-> forall n, node n (Obj h (k l)) -> ordinary n).
Proof.
  intros Hk IH Hf.
  assert (Ht : h_tag h = t).
  { destruct (Hf _ (node_self _)) as [E _]. cbn [o_header o_content] in E. rewrite <- E.
    destruct Hk as [[-> ->]|[-> ->]]; reflexivity. }
  assert (Hm : made_as t (from_obj (k (map by_hand l)))).
  { apply from_obj_made. destruct Hk as [[-> ->]|[-> ->]]; now constructor. }
  assert (Ec : obj_eqb (Obj h (k l)) (from_obj (k (map by_hand l)))
               = header_eqb h (o_header (from_obj (k (map by_hand l)))) && slice_eqb obj_eqb l (map by_hand l)).
  { destruct Hk as [[-> ->]|[-> ->]]; reflexivity. }
  assert (Hc : forall x, child x (k l) <-> In x l) by (intros x; destruct Hk as [[-> ->]|[-> ->]]; reflexivity).
  rewrite Ec, andb_true_iff, (header_ordinary h _ t Hm Ht), (compare_members l IH).
  - split.
    + intros [H1 H2] n Hn. apply node_inv in Hn as [->|(x & Hx & Hn)]; [exact H1|]. apply Hc in Hx. eauto.
    + intros H. split; [apply (H (Obj h (k l))); constructor|].
      intros x n Hx Hn. apply H. eapply node_child; eauto. now apply Hc.
  - intros x n Hx Hn. apply Hf. eapply node_child; eauto. now apply Hc.
Qed.

Lemma compare : forall o, (forall n, node n o -> fits n) ->
  (obj_eqb o (by_hand o) = true <-> forall n, node n o -> ordinary n).
Proof.
  apply (obj_content_ind
    (fun o => (forall n, node n o -> fits n) -> (obj_eqb o (by_hand o) = true <-> forall n, node n o -> ordinary n))
    (fun c => forall h, (forall n, node n (Obj h c) -> fits n) ->
       (obj_eqb (Obj h c) (by_hand (Obj h c)) = true <-> forall n, node n (Obj h c) -> ordinary n))).
  - intros h c H. apply H.
  - intros l IH h Hf. exact (compare_list h l CSequence 16 (or_introl (conj eq_refl eq_refl)) IH Hf).
  - intros l IH h Hf. exact (compare_list h l CSet 17 (or_intror (conj eq_refl eq_refl)) IH Hf).
  - intros h' c _ _ h Hf. destruct (Hf _ (node_self _)) as (_ & H & _). now destruct (H (Some (Obj h' c))).
  - intros k t o _ h Hf. destruct (Hf _ (node_self _)) as (_ & _ & H). now destruct (H k t o).
  - intros c Hc h Hf. destruct (Hf _ (node_self _)) as (Ht & Ho & _). cbn [o_header o_content] in Ht.
    assert (Hl : forall x, ~ child x c)
      by (intros x; destruct c as [| | | | | | | | | | | | | | | |[?|]| |]; try exact (fun H => H); destruct Hc).
    apply leaf_compare; auto.
    + destruct c as [| | | | | | | | | | | | | | | |[?|]| |]; try reflexivity; destruct Hc.
    + destruct c as [| | | | | | | | | | | | | | | |[?|]| |]; try (destruct Hc; fail);
        try (apply from_obj_made; constructor; reflexivity).
      exact (proj1 (C118_made_as s [] (mkOid false []) None)).
Qed.

Lemma variant_fits n bs : variant_ok n bs -> fits n.
Proof.
  intros Hv. split; [|now apply C11_no_wrappers in Hv]. destruct Hv as [H1 H2].
  destruct (in_dec N.eq_dec (h_tag (o_header n)) mapped_tags) as [Hi|Hi].
  - destruct (class_eqb (h_class (o_header n)) Universal) eqn:Ec.
    + apply class_eqb_eq in Ec. apply tag_number. constructor. auto.
    + destruct H2 as (h' & c & _ & E & Hs & _).
      { intros [E _]. rewrite E in Ec. discriminate. }
      rewrite E. symmetry. apply Hs.
  - destruct H2 as (h' & c & _ & E & Hs & _); [tauto|]. rewrite E. symmetry. apply Hs.
Qed.

(** A decoded object equals the one made by hand from its contents exactly if every
    object in it is ordinary. *)
Theorem C118_ber : forall L i d r o, bytes_ok i -> parse_ber_recursive L i d = Ok (r, o) ->
  (obj_eqb o (by_hand o) = true <-> forall n, node n o -> ordinary n).
Proof.
  intros L i d r o Hok H. apply compare. intros n Hn.
  destruct (C11_parse_ber _ _ _ _ _ _ Hok H Hn) as (bs & _ & Hv). eapply variant_fits; eauto.
Qed.
Print Assumptions C118_ber.

Theorem C118_der : forall L i d r o, no_unknown_tag L -> bytes_ok i -> parse_der_recursive L i d = Ok (r, o) ->
  (obj_eqb o (by_hand o) = true <-> forall n, node n o -> ordinary n).
Proof.
  intros L i d r o HL Hok H. apply compare. intros n Hn.
  destruct (C11_parse_der _ _ _ _ _ _ HL Hok H Hn) as (bs & _ & Hv). eapply variant_fits; eauto.
Qed.
Print Assumptions C118_der.

Lemma value_fits L d h c k : value L d h c k -> fits (Obj h k).
Proof.
  intros Hv. destruct (value_variant _ _ _ _ _ Hv) as [H1 H2].
  assert (D : h_class h = Universal /\ In (h_tag h) mapped_tags \/ ~ (h_class h = Universal /\ In (h_tag h) mapped_tags)).
  { destruct (in_dec N.eq_dec (h_tag h) mapped_tags) as [Hi|Hi]; [|right; tauto].
    destruct (h_class h); [left|right; intros [? _]..]; try discriminate; auto. }
  unfold fits. cbn [o_header o_content]. destruct D as [[Hc Hi]|D].
  - specialize (H1 Hc Hi). split; [apply tag_number; now constructor|]. split; intros; intros ->; discriminate.
  - specialize (H2 D). subst k. split; [reflexivity|]. split; intros; discriminate.
Qed.

Lemma typed_fits L h c k : value L 50 (as_universal h) c k -> forall n, node n (Obj h k) -> fits n.
Proof.
  intros Hv n Hn. apply node_inv in Hn as [->|(x & Hx & Hn)].
  - exact (value_fits _ _ _ _ _ Hv).
  - assert (Hn' : node n (Obj (as_universal h) k)) by (eapply node_child; eauto).
    destruct (value_nodes _ _ _ _ _ _ Hv Hn') as [->|(bs2 & c2 & d2 & Hs2 & He2 & Hv2 & _)].
    + exact (value_fits _ _ _ _ _ Hv).
    + destruct n. eapply value_fits; eauto.
Qed.

(** The same of the readers for one type (C62 says which functions these are), which
    do not look at the class. *)
Theorem C118_typed : forall L i t r o, bytes_ok i ->
  parse_ber_with_tag L i t = Ok (r, o) \/ parse_der_with_tag L i t = Ok (r, o) ->
  (obj_eqb o (by_hand o) = true <-> forall n, node n o -> ordinary n).
Proof.
  intros L i t r [h k] Hok H. apply compare.
  assert (Hv : exists c, value L 50 (as_universal h) c k).
  { destruct H as [H|H].
    - apply with_tag_exact in H as (bs & c & _ & _ & _ & _ & Hv); eauto.
    - apply der_with_tag_exact in H as (bs & c & _ & _ & _ & _ & _ & _ & Hv); eauto. }
  destruct Hv as [c Hv]. exact (typed_fits _ _ _ _ Hv).
Qed.
Print Assumptions C118_typed.

(** Nested indefinite lengths and a long-form tag do not matter; a class or form out
    of the ordinary does, deep inside too. *)
Example C118_ex : exists o1 o2 o3 o4,
  parse_ber SL (hx "30 80 1f 02 01 07 31 80 05 00 00 00 00 00") = Ok ([], o1)
  /\ o1 <> by_hand o1 /\ obj_eqb o1 (by_hand o1) = true
  /\ obj_eqb o1 (from_seq [from_int_slice [7]; from_set [from_obj CNull]]) = true
  /\ parse_ber SL (hx "30 03 82 01 07") = Ok ([], o2) /\ obj_eqb o2 (by_hand o2) = false
  /\ parse_ber SL (hx "30 03 22 01 07") = Ok ([], o3) /\ obj_eqb o3 (by_hand o3) = false
  /\ parse_ber_with_tag SL (hx "82 01 07") 2 = Ok ([], o4) /\ obj_eqb o4 (from_int_slice [7]) = false
  /\ number_of (COptional (Some (from_obj (CTagged Private 9 (from_obj CNull))))) 9.
Proof.
  do 4 eexists. split; [vm_compute; reflexivity|]. split; [vm_compute; intros E; discriminate|].
  split; [vm_compute; reflexivity|]. split; [vm_compute; reflexivity|].
  split; [vm_compute; reflexivity|]. split; [vm_compute; reflexivity|].
  split; [vm_compute; reflexivity|]. split; [vm_compute; reflexivity|].
  split; [vm_compute; reflexivity|]. split; [vm_compute; reflexivity|].
  unfold from_obj at 1. apply no_some, no_tagged.
Qed.
