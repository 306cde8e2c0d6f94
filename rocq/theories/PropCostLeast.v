(** * Properties C79 and C115: how many headers are read at least, and exactly. *)

From Coq Require Import String.
From Verif Require Import Base Asn1rs Ber Der Combinators Cost CostComb Conformance Spec SpecValue SpecComb SpecSize SpecSchema.
From Verif Require Import LemBase LemHeader LemSkip LemParse LemDer LemComb LemTree LemNode LemSer.
From Verif Require Import PropFraming PropTotal PropTyped PropSchema PropAccept PropCost PropCostComb.
Local Open Scope string_scope. Local Open Scope N_scope. Local Open Scope list_scope.

(** Every element of the tree had a definite length. *)
Definition definite_header (h : header) : bool :=
  match h_length h with Definite _ => true | Indefinite => false end.
Fixpoint definite (o : obj) : bool :=
  match o with Obj h c => definite_header h && definite_content c end
with definite_content (c : content) : bool :=
  match c with
  | CSequence l => forallb definite l
  | CSet l => forallb definite l
  | COptional (Some o) => definite o
  | CTagged _ _ o => definite o
  | _ => true
  end.

(** [n] headers for [m] elements: no fewer, and no more if there were only definite
    lengths. *)
Definition counts (n m : nat) (b : bool) : Prop := (m <= n)%nat /\ (b = true -> n = m).

Lemma skip_definite d i h n : h_length h = Definite n -> fst (t_skip d i h) = O.
Proof. intros H. destruct d; cbn [t_skip]; [reflexivity|]. rewrite H. now destruct (_ && _). Qed.

Lemma get_content_counts d i h : counts (fst (t_get_content i h d)) 0 (definite_header h).
Proof.
  split; [lia|]. intros H. unfold t_get_content. rewrite fst_cbind_pure by reflexivity.
  unfold definite_header in H. destruct (h_length h) eqn:E; [|discriminate]. eapply skip_definite; eassumption.
Qed.

Lemma any_counts i r a : any_from_ber i = Ok (r, a) ->
  counts (fst (t_any_from_ber i)) 1 (definite_header (a_header a)).
Proof.
  unfold any_from_ber, t_any_from_ber, t_header. intros H. bind_inv H. destruct a0 as [i1 h].
  unfold iresult in *. rewrite fst_cbind_ok. rewrite fst_cbind_pure by (intros []; reflexivity).
  bind_inv H. destruct a0 as [i2 data]. inv H. cbn [a_header].
  destruct (get_content_counts ASN1_MAX_RECURSION i1 h) as [_ Hg]. split; [lia|]. intros Hd. rewrite Hg by exact Hd. reflexivity.
Qed.

Lemma iter_counts conv conv' : (forall a, snd (conv a) = conv' a) ->
  (forall a o, conv' a = Ok o -> o_header o = a_header a
     /\ counts (fst (conv a)) (objects_content (o_content o)) (definite_content (o_content o))) ->
  forall fuel data l, iter_collect conv' fuel data = Ok l ->
    counts (fst (t_iter_collect conv fuel data)) (list_sum (map objects l)) (forallb definite l).
Proof.
  intros Hs Hc. induction fuel as [|fuel IH]; intros [|b data] l; cbn [iter_collect t_iter_collect]; intros H; try discriminate.
  - inv H. split; reflexivity.
  - inv H. split; reflexivity.
  - set (i := b :: data) in *. bind_inv H. destruct a as [r a].
    destruct (any_from_ber i) as [[r' a']| | |] eqn:Ea; inv E.
    pose proof (any_counts _ _ _ Ea) as Ha. pose proof (same_any i) as Es. rewrite Ea in Es.
    destruct (t_any_from_ber i) as [n1 v1]. cbn [fst snd] in *. subst v1. cbn [cmap_err map_err].
    rewrite fst_cbind_ok. bind_inv H. rename a0 into o. specialize (Hc _ _ E) as [Hh Hc]. specialize (Hs a). rewrite E in Hs.
    destruct (conv a) as [n2 v2]. cbn [fst snd] in *. subst v2. rewrite fst_cbind_ok.
    rewrite fst_cbind_pure by reflexivity. bind_inv H. inv H. specialize (IH _ _ E0).
    destruct o as [h k]. cbn [o_header o_content] in *. subst h.
    change (list_sum (map objects (Obj (a_header a) k :: a0)))
      with (objects (Obj (a_header a) k) + list_sum (map objects a0))%nat. cbn [objects forallb definite].
    destruct Ha as [Ha1 Ha2], Hc as [Hc1 Hc2], IH as [Hi1 Hi2]. split; [lia|].
    intros Hb. apply andb_true_iff in Hb as [Hb Hb3]. apply andb_true_iff in Hb as [Hb1 Hb2].
    rewrite (Ha2 Hb1), (Hc2 Hb2), (Hi2 Hb3). lia.
Qed.

Lemma flat_objects k : flat k -> objects_content k = O.
Proof. now destruct k. Qed.

Lemma conv_counts L d : forall a o, try_berobject_from_any L d a = Ok o ->
  o_header o = a_header a
  /\ counts (fst (t_berobject_from_any L d a)) (objects_content (o_content o)) (definite_content (o_content o)).
Proof.
  induction d as [|d IH]; intros a o H; [discriminate|]. split; [eapply conv_header; eassumption|].
  pose proof H as H0. apply conv_cases in H0 as [[Hf _]|(l & Hc & Hp & Hl & Ho)].
  - rewrite flat_objects by assumption. split; [lia|]. intros _. revert H. cbn [t_berobject_from_any try_berobject_from_any].
    destruct (negb _); [reflexivity|]. destruct (utag_of (h_tag (a_header a))); intros H; try reflexivity;
      (bind_inv H; bind_inv H; inv H; destruct Hf).
  - assert (Hi : iter_collect (try_berobject_from_any L d) (length (a_data a)) (a_data a) = Ok l) by now apply iter_iff.
    apply (iter_counts (t_berobject_from_any L d)) in Hi; [|apply same_conv|exact IH].
    cbn [t_berobject_from_any]. rewrite Hc. cbn [class_eqb negb].
    destruct Ho as [[Ht ->]|[Ht ->]]; rewrite Ht; unfold assert_constructed; rewrite Hp, fst_cbind_ok;
      rewrite fst_cbind_pure by reflexivity; exact Hi.
Qed.

(** [parse_ber_recursive] reads a header for every object it returns, and only those if
    all lengths are definite. *)
Theorem C79_least : forall L i d r o, parse_ber_recursive L i d = Ok (r, o) ->
  counts (fst (t_parse_ber_recursive L i d)) (objects o) (definite o).
Proof.
  intros L i d r o. unfold parse_ber_recursive, parse_ber_any_r, t_parse_ber_recursive.
  destruct (d =? 0)%nat; [discriminate|]. intros H. bind_inv H. destruct a as [r' a]. bind_inv H. inv H.
  pose proof (any_counts _ _ _ E) as Ha. pose proof (same_any i) as Es. rewrite E in Es.
  destruct (t_any_from_ber i) as [n1 v1]. cbn [fst snd] in *. subst v1. rewrite fst_cbind_ok.
  rewrite fst_cbind_pure by reflexivity.
  destruct (try_berobject_from_any L d a) as [o'| | |] eqn:Eo; inv E0. apply conv_counts in Eo as [Hh Hc].
  destruct (t_berobject_from_any L d a) as [n2 v2]. cbn [cmap_err fst] in *. destruct o as [h k]. cbn [o_header o_content] in *.
  subst h. cbn [objects definite]. destruct Ha as [Ha1 Ha2], Hc as [Hc1 Hc2]. split; [lia|].
  intros Hb. apply andb_true_iff in Hb as [Hb1 Hb2]. rewrite (Ha2 Hb1), (Hc2 Hb2). reflexivity.
Qed.
Print Assumptions C79_least.

Lemma content_as_counts L i t l c d r k : ber_read_element_content_as L i t l c d = Ok (r, k) ->
  counts (fst (t_content_as L i t l c d)) (objects_content k)
    (match l with Definite _ => true | Indefinite => false end && definite_content k).
Proof.
  unfold ber_read_element_content_as, try_read_berobjectcontent_as, t_content_as. cbv zeta.
  set (h := header_new Universal c t l). intros H.
  assert (K : forall x, (let* (r, data) := ber_get_object_content i h d in
      let* o := map_err nerr_of_err (try_berobject_from_any L d (mkAny h data)) in Ok (r, o_content o)) = Ok x ->
    counts (fst (cbind (t_get_content i h d) (fun rd => let (r, data) := rd in
      cbind (cmap_err nerr_of_err (t_berobject_from_any L d (mkAny h data))) (fun o =>
      (O, @Ok (nerr berror) (bytes * content) (r, o_content o)))))) (objects_content (snd x))
      (match l with Definite _ => true | Indefinite => false end && definite_content (snd x))).
  { intros x Hx. bind_inv Hx. destruct a as [r' data]. bind_inv Hx. inv Hx. cbn [snd].
    pose proof (get_content_counts d i h) as Hg. pose proof (same_get_content i h d) as Es. rewrite E in Es.
    destruct (t_get_content i h d) as [n1 v1]. cbn [fst snd] in *. subst v1. rewrite fst_cbind_ok.
    rewrite fst_cbind_pure by reflexivity.
    destruct (try_berobject_from_any L d (mkAny h data)) as [o| | |] eqn:Eo; inv E0. apply conv_counts in Eo as [_ Hc].
    destruct (t_berobject_from_any L d (mkAny h data)) as [n2 v2]. cbn [cmap_err fst] in *.
    destruct Hg as [_ Hg], Hc as [Hc1 Hc2]. split; [lia|].
    intros Hb. apply andb_true_iff in Hb as [Hb1 Hb2]. rewrite Hc2, Hg by assumption. reflexivity. }
  destruct l as [n|]; [|exact (K _ H)]. destruct (MAX_OBJECT_SIZE <? n); [discriminate|].
  destruct (nlen i <? n); [discriminate|]. exact (K _ H).
Qed.

Lemma der_bits_flat i l r k : der_read_content_bitstring i l = Ok (r, k) -> flat k.
Proof.
  unfold der_read_content_bitstring. intros H.
  repeat match type of H with
         | context[match ?x with _ => _ end] => destruct x; try discriminate
         | bind _ _ = Ok _ => bind_inv H
         end; inv H; exact I.
Qed.

Lemma der_content_as_counts L i t l c d r k : der_read_element_content_as L i t l c d = Ok (r, k) ->
  counts (fst (t_der_content_as L i t l c d)) (objects_content k) (definite_content k).
Proof.
  unfold der_read_element_content_as, t_der_content_as. intros H. bind_inv H. rename a into n. unfold iresult in *. rewrite fst_cbind_ok. cbn [Nat.add].
  destruct l as [n'|]; [|discriminate].
  destruct (nlen i <? n); [discriminate|]. cbv zeta in *.
  assert (K : forall r k, ber_read_element_content_as L i t (Definite n') c d = Ok (r, k) ->
    counts (fst (t_content_as L i t (Definite n') c d)) (objects_content k) (definite_content k)).
  { intros r' k' H'. exact (content_as_counts _ _ _ _ _ _ _ _ H'). }
  destruct (utag_of t); try exact (K _ _ H);
    repeat match type of H with
           | context[match ?x with _ => _ end] => destruct x; try discriminate; try exact (K _ _ H)
           end.
  apply der_bits_flat in H. rewrite flat_objects by assumption. split; [lia|reflexivity].
Qed.

Lemma der_content_as_errs L : no_unknown_tag L -> forall i t l c d,
  errs not_unknown_n (der_read_element_content_as L i t l c d).
Proof.
  intros HL i t l c d. unfold der_read_element_content_as.
  assert (K : errs not_unknown_n (ber_read_element_content_as L i t l c d)).
  { unfold ber_read_element_content_as, try_read_berobjectcontent_as. cbv zeta.
    assert (K : forall h, errs not_unknown_n (let* (r, data) := ber_get_object_content i h d in
      let* o := map_err nerr_of_err (try_berobject_from_any L d (mkAny h data)) in Ok (r, o_content o))).
    { intros h. apply errs_bind.
      { unfold ber_get_object_content. apply errs_bind; [apply skip_errs|]. intros [r e] _.
        destruct (h_length h); auto with errs. destruct (_ <? _)%nat; auto with errs. }
      intros [r data] _.
      apply errs_bind; [eapply errs_map_err; [apply conv_errs, HL|intros e He u; destruct e; try exact (He u); discriminate]|]. intros o _. apply errs_ok. }
    destruct l as [n|]; [|apply K]. destruct (_ <? n); [apply errs_err; nounk|].
    destruct (nlen i <? n); [apply errs_err; nounk|apply K]. }
  apply errs_bind; [destruct l; cbn; auto with errs; apply errs_err; nounk|]. intros n _.
  destruct (nlen i <? n); [apply errs_err; nounk|]. cbv zeta.
  destruct (utag_of t); try exact K;
    repeat match goal with
           | |- errs _ (match ?x with _ => _ end) => destruct x; try exact K; try (apply errs_err; nounk); auto with errs
           end.
  unfold der_read_content_bitstring.
  repeat match goal with
         | |- errs _ (bind _ _) => apply errs_bind; [|intros [? ?] _]
         | |- errs _ (match ?x with _ => _ end) => destruct x; try (apply errs_err; nounk); auto with errs
         end.
  - unfold be_u8. destruct i; [apply errs_err; nounk|auto with errs].
  - apply take_streaming_errs.
Qed.

(** The same of the readers of one tag, and of [parse_der_recursive]. *)
Theorem C79_least_others : forall L i t r o,
  (parse_ber_with_tag L i t = Ok (r, o) -> counts (fst (t_parse_ber_with_tag L i t)) (objects o) (definite o))
  /\ (parse_der_with_tag L i t = Ok (r, o) -> counts (fst (t_parse_der_with_tag L i t)) (objects o) (definite o))
  /\ forall d, no_unknown_tag L -> parse_der_recursive L i d = Ok (r, o) ->
     counts (fst (t_parse_der_recursive L i d)) (objects o) (definite o).
Proof.
  intros L i t r o. split; [|split].
  - unfold parse_ber_with_tag, t_parse_ber_with_tag, t_header, ber_read_element_header. intros H. bind_inv H. destruct a as [i1 h].
    bind_inv H. bind_inv H. destruct a0 as [i2 k]. inv H. unfold iresult in *. rewrite fst_cbind_ok. cbv beta iota. rewrite E0, fst_cbind_ok. cbv beta.
    rewrite fst_cbind_pure by (intros []; reflexivity). apply content_as_counts in E1 as [H1 H2].
    cbn [objects definite]. split; [lia|]. intros Hb. rewrite (H2 Hb). reflexivity.
  - unfold parse_der_with_tag, t_parse_der_with_tag, t_header_der, der_read_element_header. intros H. bind_inv H. destruct a as [i1 h].
    bind_inv H. bind_inv H. destruct a0 as [i2 k]. inv H. unfold iresult in *. rewrite fst_cbind_ok. cbv beta iota. rewrite E0, fst_cbind_ok. cbv beta.
    rewrite fst_cbind_pure by (intros []; reflexivity). apply der_content_as_counts in E1 as [H1 H2].
    cbn [objects definite]. split; [lia|]. intros Hb. apply andb_true_iff in Hb as [_ Hb]. rewrite (H2 Hb). reflexivity.
  - intros d HL. unfold parse_der_recursive, t_parse_der_recursive, t_header_der, der_read_element_header. intros H.
    bind_inv H. destruct a as [i1 h]. unfold iresult in *. rewrite fst_cbind_ok.
    assert (K : der_read_element_content_recursive L i1 h d = Ok (r, o) ->
      counts (1 + fst (t_der_content_recursive L i1 h d)) (objects o) (definite o)).
    { clear H. unfold der_read_element_content_recursive, t_der_content_recursive. cbv zeta. intros H.
      assert (U : forall x, (let* (r, data) := ber_get_object_content i1 h d in Ok (r, Obj h (CUnknown (mkAny h data)))) = Ok x ->
        counts (1 + fst (cbind (t_get_content i1 h d) (fun rd => let (r, data) := rd in
          (O, @Ok (nerr berror) (bytes * obj) (r, Obj h (CUnknown (mkAny h data))))))) (objects (snd x)) (definite (snd x))).
      { intros x Hx. bind_inv Hx. destruct a as [r' data]. inv Hx. cbn [snd objects objects_content definite].
        rewrite fst_cbind_pure by (intros []; reflexivity). destruct (get_content_counts d i1 h) as [_ Hg].
        split; [lia|]. intros Hb. apply andb_true_iff in Hb as [Hb _]. now rewrite Hg. }
      destruct (h_class h); try exact (U _ H).
      pose proof (same_der_content_as L i1 (h_tag h) (h_length h) (h_constructed h) d) as Es.
      destruct (der_read_element_content_as L i1 (h_tag h) (h_length h) (h_constructed h) d) as [[i2 k]|e| |] eqn:Ec.
      - inv H. apply der_content_as_counts in Ec as [H1 H2].
        destruct (t_der_content_as _ _ _ _ _ _) as [n v]. cbn [fst snd] in *. subst v. cbn [fst objects definite].
        split; [lia|]. intros Hb. apply andb_true_iff in Hb as [_ Hb]. now rewrite (H2 Hb).
      - exfalso. pose proof (der_content_as_errs L HL i1 (h_tag h) (h_length h) (h_constructed h) d) as He.
        rewrite Ec in He. destruct e as [|e|]; try discriminate. destruct e; try discriminate. exact (He _ eq_refl _ eq_refl).
      - discriminate.
      - discriminate. }
    destruct (h_length h) as [n|]; [destruct (MAX_OBJECT_SIZE <? n); [discriminate|]|]; exact (K H).
Qed.
Print Assumptions C79_least_others.

(** ** Composed parsers *)

(** Number of elements a program got back; an OPTIONAL component is the element
    that was there, or one that was looked for and not found. *)
Fixpoint elements (o : obj) : nat :=
  match o with Obj _ c => elements_content c end
with elements_content (c : content) : nat :=
  match c with
  | CSequence l => S (list_sum (map elements l))
  | CSet l => S (list_sum (map elements l))
  | COptional (Some o) => elements o
  | CTagged _ _ o => S (elements o)
  | _ => 1
  end.

Lemma elements_objects :
  (forall o, (elements o <= objects o)%nat) /\ (forall c, (elements_content c <= S (objects_content c))%nat).
Proof.
  assert (K : forall l, Forall (fun o => (elements o <= objects o)%nat) l ->
    (list_sum (map elements l) <= list_sum (map objects l))%nat).
  { intros l H. unfold list_sum. induction H; cbn [map fold_right] in *; lia. }
  apply obj_content_ind; cbn [elements objects elements_content objects_content]; intros; auto.
  - specialize (K _ H). lia.
  - specialize (K _ H). lia.
  - lia.
  - destruct c; try destruct H; cbn [elements_content]; try lia. destruct o; [destruct H|lia].
Qed.

Lemma cbind_ok {E A B} (x : nat * res E A) (k : A -> nat * res E B) b : snd (cbind x k) = Ok b ->
  exists a, snd x = Ok a /\ snd (k a) = Ok b /\ fst (cbind x k) = (fst x + fst (k a))%nat.
Proof.
  destruct x as [n [a| | |]]; cbn [cbind]; try discriminate. destruct (k a) as [m w] eqn:Ek. cbn [snd fst].
  intros ->. exists a. now rewrite Ek.
Qed.

Lemma cbind_le {E A B} (x : nat * res E A) (k : A -> nat * res E B) : (fst x <= fst (cbind x k))%nat.
Proof. destruct x as [n [a| | |]]; cbn [cbind]; try reflexivity. destruct (k a). cbn. lia. Qed.

Lemma container_least A der f i :
  (1 <= fst (@t_container A der f i))%nat
  /\ forall r v, snd (t_container der f i) = Ok (r, v) -> exists c h r',
       snd (f c h) = Ok (r', v) /\ (S (fst (f c h)) <= fst (t_container der f i))%nat.
Proof.
  destruct der; cbn [t_container]; [unfold t_der_container|unfold t_ber_container];
    (split; [eapply Nat.le_trans; [|apply cbind_le]; cbn; lia|]);
    intros r v H; apply cbind_ok in H as ([i1 h] & H1 & H & ->); apply cbind_ok in H as ([i2 data] & H2 & H & ->);
    apply cbind_ok in H as ([r' v'] & H3 & H & ->); inv H; exists data, h, r'; (split; [exact H3|cbn [fst]]).
  - change (fst (cmap_err (err_convert ber_ops) (t_header_der i))) with 1%nat. lia.
  - change (fst (cmap_err (err_convert ber_ops) (t_header i))) with 1%nat. lia.
Qed.

Lemma many0_least f : (forall i r o, snd (f i) = Ok (r, o) -> (elements o <= fst (f i))%nat) ->
  forall fuel acc i r l, snd (t_many0_loop (t_complete_cut f) fuel acc i) = Ok (r, l) ->
    (list_sum (map elements l)
     <= list_sum (map elements (rev acc)) + fst (t_many0_loop (t_complete_cut f) fuel acc i))%nat.
Proof.
  intros Hf. induction fuel as [|fuel IH]; intros acc i r l; cbn [t_many0_loop]; [discriminate|].
  unfold t_complete_cut at 1 3. specialize (Hf i). destruct (f i) as [n v]. cbn [cmap_err fst snd] in *.
  destruct v as [[i1 o]|[| |]| |]; cbn [map_err]; try discriminate.
  - specialize (Hf _ _ eq_refl). destruct (length i1 =? length i)%nat; [discriminate|].
    specialize (IH (o :: acc) i1 r l). destruct (t_many0_loop _ fuel (o :: acc) i1) as [m w]. cbn [fst snd] in *.
    intros H. specialize (IH H). cbn [rev] in IH. rewrite map_app, list_sum_app in IH. cbn [map list_sum fold_right] in IH. lia.
  - intros H. inv H. lia.
Qed.

Lemma reader_least L der :
  (forall e i, (1 <= fst (t_reader L der e i))%nat
     /\ forall r o, snd (t_reader L der e i) = Ok (r, o) -> (elements o <= fst (t_reader L der e i))%nat)
  /\ (forall fs i r os, snd (t_fields L der fs i) = Ok (r, os) ->
       (list_sum (map elements os) <= fst (t_fields L der fs i))%nat).
Proof.
  assert (Hdef : forall t (f : bytes -> nat * res (nerr berror) (bytes * list obj)) (g : list obj -> obj),
    (forall l, elements (g l) = S (list_sum (map elements l))) ->
    (forall i r os, snd (f i) = Ok (r, os) -> (list_sum (map elements os) <= fst (f i))%nat) ->
    forall i, (1 <= fst (t_map g (t_defined_g der t f) i))%nat
      /\ forall r o, snd (t_map g (t_defined_g der t f) i) = Ok (r, o) ->
           (elements o <= fst (t_map g (t_defined_g der t f) i))%nat).
  { intros t f g Hg Hf i. unfold t_map, t_defined_g.
    match goal with |- context[t_container der ?x i] => set (y := x) end.
    destruct (container_least _ der y i) as [H1 H2].
    split; [eapply Nat.le_trans; [exact H1|apply cbind_le]|]. intros r o H.
    apply cbind_ok in H as ([r1 os] & Hc & H & ->). inv H. apply H2 in Hc as (c & h & r' & Hy & Hle).
    subst y. cbv beta in *. apply cbind_ok in Hy as ([] & _ & Hy & E). rewrite E in Hle. apply Hf in Hy.
    rewrite Hg. cbn [fst] in *. lia. }
  assert (Hof : forall e, (forall i, (1 <= fst (t_reader L der e i))%nat
     /\ forall r o, snd (t_reader L der e i) = Ok (r, o) -> (elements o <= fst (t_reader L der e i))%nat) ->
    forall i r os, snd (t_of_subparser (t_reader L der e) i) = Ok (r, os) ->
      (list_sum (map elements os) <= fst (t_of_subparser (t_reader L der e) i))%nat).
  { intros e He i r os H. unfold t_of_subparser in *. apply cbind_ok in H as ([r1 l] & Hm & H & ->).
    destruct r1; inv H. apply many0_least in Hm; [|intros; eapply He; eassumption]. cbn [rev map list_sum fold_right fst] in *. lia. }
  apply ty_fields_ind.
  - intros t i. cbn [t_reader]. unfold t_with_tag. split.
    + destruct der; [unfold t_parse_der_with_tag|unfold t_parse_ber_with_tag]; (eapply Nat.le_trans; [|apply cbind_le]; cbn; lia).
    + intros r o H. eapply Nat.le_trans; [apply elements_objects|].
      destruct (C79_same L i O t) as (_ & H1 & _ & H2), (C79_least_others L i t r o) as (K1 & K2 & _).
      destruct der; [rewrite H2 in H; apply K2, H|rewrite H1 in H; apply K1, H].
  - intros fs IH. cbn [t_reader]. unfold t_defined. now apply Hdef.
  - intros e IH. cbn [t_reader]. unfold t_of. apply Hdef; [reflexivity|]. now apply Hof.
  - intros e IH. cbn [t_reader]. unfold t_of. apply Hdef; [reflexivity|]. now apply Hof.
  - intros fs IH. cbn [t_reader]. unfold t_defined. now apply Hdef.
  - intros cl t e IH i. cbn [t_reader]. unfold t_tagged_explicit.
    match goal with |- context[t_container der ?x i] => set (y := x) end.
    destruct (container_least _ der y i) as [H1 H2]. split; [exact H1|]. intros r o H.
    apply H2 in H as (c & h & r' & Hy & Hle). subst y. cbv beta in *.
    destruct (class_eqb (h_class h) Universal); [discriminate|].
    apply cbind_ok in Hy as ([] & _ & Hy & E1). apply cbind_ok in Hy as ([] & _ & Hy & E2).
    apply cbind_ok in Hy as ([r2 o2] & Ho & Hy & E3). inv Hy. apply IH in Ho.
    rewrite E1, E2, E3 in Hle. cbn [elements elements_content fst] in *. lia.
  - intros cl t u i. cbn [t_reader]. unfold t_tagged_implicit.
    match goal with |- context[t_container der ?x i] => set (y := x) end.
    destruct (container_least _ der y i) as [H1 H2]. split; [exact H1|]. intros r o H.
    apply H2 in H as (c & h & r' & Hy & Hle). subst y. cbv beta in *.
    apply cbind_ok in Hy as ([] & _ & Hy & E1). apply cbind_ok in Hy as ([r2 k] & Ho & Hy & E2). inv Hy.
    rewrite E1, E2 in Hle. cbn [elements fst] in *.
    pose proof (proj2 elements_objects k) as He. unfold t_content in *. destruct der.
    + rewrite same_der_content_as in Ho. apply der_content_as_counts in Ho as [Ho _]. lia.
    + rewrite same_content_as in Ho. apply content_as_counts in Ho as [Ho _]. lia.
  - intros cl t fs IH i. cbn [t_reader]. unfold t_tagged_implicit.
    match goal with |- context[t_container der ?x i] => set (y := x) end.
    destruct (container_least _ der y i) as [H1 H2]. split; [exact H1|]. intros r o H.
    apply H2 in H as (c & h & r' & Hy & Hle). subst y. cbv beta in *.
    apply cbind_ok in Hy as ([] & _ & Hy & E1). apply cbind_ok in Hy as ([r2 k] & Ho & Hy & E2). inv Hy.
    apply cbind_ok in Ho as ([r3 os] & Ho & Hk & E3). inv Hk. apply IH in Ho.
    rewrite E1, E2, E3 in Hle. cbn [elements elements_content fst] in *. lia.
  - intros e1 IH1 e2 IH2 i. cbn [t_reader t_alt]. destruct (IH1 i) as [H1 S1], (IH2 i) as [H2 S2].
    destruct (t_reader L der e1 i) as [n1 v1]. destruct (t_reader L der e2 i) as [n2 v2]. cbn [fst snd] in *.
    destruct v1 as [x|[| |]| |]; cbn [fst snd]; try (split; [lia|assumption]).
    destruct v2 as [x|[| |]| |]; cbn [fst snd]; (split; [lia|]); intros r o H; try discriminate.
    apply S2 in H. lia.
  - intros i r os H. inv H. cbn. lia.
  - intros optional e IH fs IHf i r os. cbn [t_fields]. intros H.
    apply cbind_ok in H as ([r1 o] & Ho & H & ->). apply cbind_ok in H as ([r2 os2] & Hos & H & ->). inv H.
    apply IHf in Hos. cbn [map list_sum fold_right fst] in *. destruct (IH i) as [H1 S1].
    enough (elements o <= fst (if optional then t_optional (t_reader L der e) i else t_reader L der e i))%nat
      by (unfold list_sum in *; lia).
    destruct optional; [|now apply S1 in Ho]. unfold t_optional in *.
    destruct (t_reader L der e i) as [n v]. cbn [fst snd] in *. destruct v as [[r3 o3]| | |]; inv Ho; cbn [fst].
    + apply (S1 _ _ eq_refl).
    + exact H1.
Qed.

(** A composed parser reads a header for every element it returns, one for every
    OPTIONAL component it does not find, and at least one whatever the input. *)
Theorem C115_least : forall L der e i,
  (1 <= fst (t_reader L der e i))%nat
  /\ forall r o, reader (kit_of L der) e i = Ok (r, o) -> (elements o <= fst (t_reader L der e i))%nat.
Proof.
  intros L der e i. destruct (proj1 (reader_least L der) e i) as [H1 H2]. split; [exact H1|].
  intros r o H. rewrite <- (proj1 (same_reader L der) e i) in H. exact (H2 _ _ H).
Qed.
Print Assumptions C115_least.

(** Definite lengths: as many headers as objects; one indefinite length: more; a SEQUENCE OF
    three NULLs: four elements, and one header looked for after the last; and a SEQUENCE with
    an absent OPTIONAL component: three, two of them found. *)
Example C79_least_ex :
  (exists o, parse_ber_recursive SL (hx "30 06 30 02 05 00 05 00 07") 5 = Ok ([7], o) /\ definite o = true
     /\ objects o = 4%nat /\ fst (t_parse_ber_recursive SL (hx "30 06 30 02 05 00 05 00 07") 5) = 4%nat)
  /\ (exists o, parse_ber_recursive SL (hx "30 08 30 80 05 00 00 00 05 00") 5 = Ok ([], o) /\ definite o = false
     /\ objects o = 4%nat /\ fst (t_parse_ber_recursive SL (hx "30 08 30 80 05 00 00 00 05 00") 5) = 6%nat)
  /\ (exists o, parse_der_recursive SL (hx "31 02 05 00") 5 = Ok ([], o) /\ definite o = true
     /\ fst (t_parse_der_recursive SL (hx "31 02 05 00") 5) = 2%nat).
Proof.
  split; [|split]; (eexists; split; [vm_compute; reflexivity|repeat split; vm_compute; reflexivity]).
Qed.
Example C115_least_ex :
  let l := TSequenceOf (TValue 5) in
  let e := TSequence (FCons true (TValue 2) (FCons false (TValue 5) FNil)) in
  (exists o, reader (ber_kit SL) l (hx "30 06 05 00 05 00 05 00") = Ok ([], o) /\ elements o = 4%nat
     /\ fst (t_reader SL false l (hx "30 06 05 00 05 00 05 00")) = 5%nat)
  /\ (exists o, reader (der_kit SL) e (hx "30 02 05 00") = Ok ([], o) /\ elements o = 3%nat
     /\ fst (t_reader SL true e (hx "30 02 05 00")) = 3%nat).
Proof. split; (eexists; split; [vm_compute; reflexivity|split; vm_compute; reflexivity]). Qed.
