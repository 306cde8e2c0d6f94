(** * Property C115: the work of composed parsers. *)

From Coq Require Import String.
From Verif Require Import Base Asn1rs Ber Der Combinators Cost CostComb Conformance Spec SpecValue SpecComb SpecSchema.
From Verif Require Import LemBase LemHeader LemSkip LemParse LemDer LemComb LemTree.
From Verif Require Import PropFraming PropTotal PropTyped PropSchema PropAccept PropCost.
Local Open Scope string_scope. Local Open Scope N_scope. Local Open Scope list_scope.

(** ** The parser of a type, counted

    [reader] and [read_fields] of PropSchema.v, from the counted combinators. *)
Fixpoint t_reader (L : leaves) (der : bool) (e : ty) : bytes -> nat * res (nerr berror) (bytes * obj) :=
  match e with
  | TValue t => t_with_tag der L t
  | TSequence fs => t_defined der T_Sequence (t_fields L der fs)
  | TSequenceOf e => t_of der T_Sequence (t_reader L der e)
  | TSetOf e => t_of der T_Set (t_reader L der e)
  | TSet fs => t_defined der T_Set (t_fields L der fs)
  | TExplicit _ t e => t_tagged_explicit der t (t_reader L der e)
  | TImplicit _ t u => t_tagged_implicit der t (t_content der L u)
  | TImplicitSequence _ t fs => t_tagged_implicit der t (fun c _ _ =>
      cbind (t_fields L der fs c) (fun ro => let (r, os) := ro in (O, Ok (r, CSequence os))))
  | TChoice e1 e2 => t_alt [t_reader L der e1; t_reader L der e2]
  end
with t_fields (L : leaves) (der : bool) (fs : fields) : bytes -> nat * res (nerr berror) (bytes * list obj) :=
  match fs with
  | FNil => fun i => (O, Ok (i, []))
  | FCons optional e fs => fun i =>
      cbind (if optional then t_optional (t_reader L der e) i else t_reader L der e i) (fun ro =>
      let (r, o) := ro in
      cbind (t_fields L der fs r) (fun ros => let (r', os) := ros in
      (O, Ok (r', o :: os))))
  end.

(** The number of parsers a program puts together for a type. *)
Fixpoint ty_size (e : ty) : nat :=
  match e with
  | TValue _ | TImplicit _ _ _ => 1
  | TSequence fs | TSet fs | TImplicitSequence _ _ fs => S (fields_size fs)
  | TSequenceOf e | TSetOf e | TExplicit _ _ e => S (ty_size e)
  | TChoice e1 e2 => ty_size e1 + ty_size e2
  end
with fields_size (fs : fields) : nat :=
  match fs with
  | FNil => 0
  | FCons _ e fs => ty_size e + fields_size fs
  end.

(** ** Counting does not change the result *)

Lemma convert_id {A} (x : iresult berror A) : map_err (err_convert ber_ops) x = x.
Proof. destruct x as [a|[| |]| |]; reflexivity. Qed.

Lemma same_container A der (f : bytes -> header -> nat * res (nerr berror) (bytes * A)) (g : bytes -> header -> iresult berror A) i : (forall c h, snd (f c h) = g c h) ->
  snd (t_container der f i) = (if der then parse_der_container ber_ops g i else parse_ber_container ber_ops g i).
Proof.
  intros H. destruct der; cbn [t_container].
  - unfold t_der_container, parse_der_container. rewrite snd_cbind, snd_cmap_err. apply bind_ext. intros [i1 h].
    rewrite snd_cbind. destruct (h_length h); [|reflexivity]. cbn [snd]. apply bind_ext. intros [i2 data].
    rewrite snd_cbind, H. apply bind_ext. intros [r v]. reflexivity.
  - unfold t_ber_container, parse_ber_container. rewrite snd_cbind, snd_cmap_err. apply bind_ext. intros [i1 h].
    rewrite snd_cbind.
    assert (E : forall A (x y : res (nerr berror) A) (B : Type) (k k' : A -> res (nerr berror) B), x = y ->
      (forall a, k a = k' a) -> bind x k = bind y k') by (intros; subst; now apply bind_ext).
    apply E; [destruct (h_length h); [reflexivity|now rewrite snd_cmap_err, same_get_content]|].
    intros [i2 data]. rewrite snd_cbind, H. apply bind_ext. intros [r v]. reflexivity.
Qed.

Lemma same_map {A B} (g : A -> B) (f : bytes -> nat * res (nerr berror) (bytes * A)) (f' : bytes -> iresult berror A) i : (forall i, snd (f i) = f' i) ->
  snd (t_map g f i) = nom_map g f' i.
Proof. intros H. unfold t_map, nom_map. rewrite snd_cbind, H. apply bind_ext. intros [r o]. reflexivity. Qed.

Lemma same_defined_g A der t (f : bytes -> nat * res (nerr berror) (bytes * A)) (f' : bytes -> iresult berror A) i : t = 16 \/ t = 17 -> (forall i, snd (f i) = f' i) ->
  snd (t_defined_g der t f i) =
    (if der then (if t =? 16 then parse_der_sequence_defined_g ber_ops else parse_der_set_defined_g ber_ops)
     else (if t =? 16 then parse_ber_sequence_defined_g ber_ops else parse_ber_set_defined_g ber_ops))
      (fun c _ => f' c) i.
Proof.
  intros Ht H. unfold t_defined_g.
  rewrite (same_container A der _ (fun c h => let* _ := map_err (err_into ber_ops) (assert_tag h t) in f' c)).
  - destruct Ht as [-> | ->]; destruct der; reflexivity.
  - intros c h. cbv beta. rewrite snd_cbind. cbn [snd]. apply bind_ext. auto.
Qed.

Lemma same_many0 A (f : bytes -> nat * res (nerr berror) (bytes * A)) (f' : bytes -> iresult berror A) : (forall i, snd (f i) = f' i) ->
  forall fuel acc i, snd (t_many0_loop f fuel acc i) = nom_many0_loop ber_ops f' fuel acc i.
Proof.
  intros H. induction fuel as [|fuel IH]; intros acc i; [reflexivity|]. cbn [t_many0_loop nom_many0_loop].
  rewrite <- H. destruct (f i) as [n [[i1 o]|[| |]| |]]; try reflexivity. cbn [snd].
  destruct (length i1 =? length i)%nat; [reflexivity|]. rewrite <- IH. destruct (t_many0_loop _ _ _ _). reflexivity.
Qed.

Lemma same_of_subparser A (f : bytes -> nat * res (nerr berror) (bytes * A)) (f' : bytes -> iresult berror A) i : (forall i, snd (f i) = f' i) ->
  snd (t_of_subparser f i) = of_subparser ber_ops f' i.
Proof.
  intros H. unfold t_of_subparser, of_subparser, nom_all_consuming, nom_many0. rewrite snd_cbind.
  rewrite (same_many0 A _ (nom_complete ber_ops (nom_cut f'))).
  - apply bind_ext. intros [r o]. reflexivity.
  - intros x. unfold t_complete_cut, nom_complete, nom_cut. now rewrite !snd_cmap_err, H.
Qed.

Lemma same_optional (f : bytes -> nat * res (nerr berror) (bytes * obj)) f' i : (forall i, snd (f i) = f' i) -> snd (t_optional f i) = parse_ber_optional f' i.
Proof.
  intros H. unfold t_optional, parse_ber_optional. rewrite <- H. destruct (f i) as [n [[r o]| | |]]; reflexivity.
Qed.

Lemma same_reader L der :
  (forall e i, snd (t_reader L der e i) = reader (kit_of L der) e i)
  /\ (forall fs i, snd (t_fields L der fs i) = read_fields (kit_of L der) fs i).
Proof.
  apply ty_fields_ind.
  - intros t i. cbn [t_reader reader]. unfold t_with_tag. destruct (C79_same L i O t) as (_ & H1 & _ & H2).
    destruct der; assumption.
  - intros fs IH i. cbn [t_reader reader]. unfold t_defined. cbn [N.eqb Pos.eqb T_Sequence].
    rewrite (same_map _ _ (fun i => snd (t_defined_g der T_Sequence (t_fields L der fs) i))) by reflexivity.
    unfold nom_map. rewrite (same_defined_g _ der T_Sequence _ _ i (or_introl eq_refl) IH). destruct der; reflexivity.
  - intros e IH i. cbn [t_reader reader]. unfold t_of. cbn [N.eqb Pos.eqb T_Sequence].
    rewrite (same_map _ _ (fun i => snd (t_defined_g der T_Sequence (t_of_subparser (t_reader L der e)) i))) by reflexivity.
    unfold nom_map. rewrite (same_defined_g _ der T_Sequence _ _ i (or_introl eq_refl) (fun c => same_of_subparser _ _ _ c IH)).
    destruct der; reflexivity.
  - intros e IH i. cbn [t_reader reader]. unfold t_of. cbn [N.eqb Pos.eqb T_Sequence T_Set].
    rewrite (same_map _ _ (fun i => snd (t_defined_g der T_Set (t_of_subparser (t_reader L der e)) i))) by reflexivity.
    unfold nom_map. rewrite (same_defined_g _ der T_Set _ _ i (or_intror eq_refl) (fun c => same_of_subparser _ _ _ c IH)).
    destruct der; reflexivity.
  - intros fs IH i. cbn [t_reader reader]. unfold t_defined. cbn [N.eqb Pos.eqb T_Sequence T_Set].
    rewrite (same_map _ _ (fun i => snd (t_defined_g der T_Set (t_fields L der fs) i))) by reflexivity.
    unfold nom_map. rewrite (same_defined_g _ der T_Set _ _ i (or_intror eq_refl) IH). destruct der; reflexivity.
  - intros cl t e IH i. cbn [t_reader reader]. unfold t_tagged_explicit.
    set (g := if der then fun c h =>
        if class_eqb (h_class h) Universal then Err (err_into ber_ops (UnexpectedClass None (h_class h)))
        else let* _ := map_err (err_into ber_ops) (assert_tag h t) in
             if negb (h_constructed h) then Err (err_into ber_ops ConstructExpected)
             else tagged_explicit_cb t (reader (kit_of L der) e) c h
      else fun c h =>
        if class_eqb (h_class h) Universal then Err (err_into ber_ops (UnexpectedClass None (h_class h)))
        else let* _ := map_err (err_into ber_ops) (assert_tag h t) in
             let* _ := map_err (err_into ber_ops) (assert_constructed h) in
             tagged_explicit_cb t (reader (kit_of L der) e) c h).
    rewrite (same_container _ der _ g); [subst g; destruct der; reflexivity|].
    intros c h. subst g.
    assert (E : snd (cbind (t_reader L der e c) (fun ro => let (r, o) := ro in
        (O, @Ok (nerr berror) (bytes * obj) (r, Obj h (CTagged (h_class h) t o)))))
      = tagged_explicit_cb t (reader (kit_of L der) e) c h).
    { unfold tagged_explicit_cb. rewrite snd_cbind, IH. apply bind_ext. intros []. reflexivity. }
    destruct der; (destruct (class_eqb (h_class h) Universal); [reflexivity|]); rewrite snd_cbind; cbn [snd];
      apply bind_ext; intros _; rewrite snd_cbind; cbn [snd].
    + destruct (negb (h_constructed h)); [reflexivity|exact E].
    + apply bind_ext. intros _. exact E.
  - intros cl t u i. cbn [t_reader reader]. unfold t_tagged_implicit.
    set (g := fun c h => let* _ := map_err (err_into ber_ops) (assert_tag h t) in
      tagged_implicit_cb (k_content (kit_of L der) u) c h MAX_RECURSION).
    rewrite (same_container _ der _ g); [subst g; destruct der; reflexivity|].
    intros c h. subst g. cbv beta. rewrite snd_cbind. cbn [snd]. apply bind_ext. intros _. unfold tagged_implicit_cb.
    rewrite snd_cbind.
    assert (E : snd (t_content der L u c h MAX_RECURSION) = k_content (kit_of L der) u c h MAX_RECURSION).
    { unfold t_content. destruct der; [apply same_der_content_as|apply same_content_as]. }
    rewrite E. apply bind_ext. intros []. reflexivity.
  - intros cl t fs IH i. cbn [t_reader reader]. unfold t_tagged_implicit.
    set (g := fun c h => let* _ := map_err (err_into ber_ops) (assert_tag h t) in
      tagged_implicit_cb (fun c _ _ => let* (r, os) := read_fields (kit_of L der) fs c in Ok (r, CSequence os)) c h MAX_RECURSION).
    rewrite (same_container _ der _ g); [subst g; destruct der; reflexivity|].
    intros c h. subst g. cbv beta. rewrite snd_cbind. cbn [snd]. apply bind_ext. intros _. unfold tagged_implicit_cb.
    rewrite snd_cbind, snd_cbind, IH.
    destruct (read_fields (kit_of L der) fs c) as [[r os]| | |]; reflexivity.
  - intros e1 IH1 e2 IH2 i. cbn [t_reader reader t_alt nom_alt]. rewrite <- IH1, <- IH2.
    destruct (t_reader L der e1 i) as [n1 [?|[| |]| |]]; try reflexivity. cbn [snd].
    destruct (t_reader L der e2 i) as [n2 [?|[| |]| |]]; reflexivity.
  - intros i. reflexivity.
  - intros optional e IH fs IHf i. cbn [t_fields read_fields]. rewrite snd_cbind.
    assert (E : snd (if optional then t_optional (t_reader L der e) i else t_reader L der e i)
      = (if optional then parse_ber_optional (reader (kit_of L der) e) i else reader (kit_of L der) e i)).
    { destruct optional; [now apply same_optional|apply IH]. }
    rewrite E. apply bind_ext. intros [r o]. rewrite snd_cbind, IHf. apply bind_ext. intros []. reflexivity.
Qed.

(** The counted parsers give the results of the parsers. *)
Theorem C115_same : forall L e i,
  snd (t_reader L false e i) = reader (ber_kit L) e i /\ snd (t_reader L true e i) = reader (der_kit L) e i.
Proof. intros L e i. exact (conj (proj1 (same_reader L false) e i) (proj1 (same_reader L true) e i)). Qed.
Print Assumptions C115_same.

(** ** The bound *)

(** The octets of the first element of the input, or all if there is none. *)
Definition extent (i : bytes) : nat :=
  match any_from_ber i with Ok (r, _) => length i - length r | _ => length i end.

Lemma extent_le i : (extent i <= length i)%nat.
Proof. unfold extent. destruct (any_from_ber i) as [[r a]| | |]; lia. Qed.

Lemma any_of_parts i i1 h r data : header_from_ber i = Ok (i1, h) ->
  ber_get_object_content i1 h MAX_RECURSION = Ok (r, data) -> any_from_ber i = Ok (r, mkAny h data).
Proof.
  intros Hh Hg. unfold any_from_ber. rewrite Hh. cbn [bind]. rewrite asn1_get_content_eq.
  change ASN1_MAX_RECURSION with MAX_RECURSION. now rewrite Hg.
Qed.

Lemma header_length i i1 h : header_from_ber i = Ok (i1, h) -> (length i1 + 2 <= length i)%nat.
Proof. intros E. apply header_from_ber_split in E as (raw & lb & -> & _ & H1 & H2). rewrite !app_length. lia. Qed.

Lemma no_parts i i1 h : header_from_ber i = Ok (i1, h) ->
  (forall r data, ber_get_object_content i1 h MAX_RECURSION <> Ok (r, data)) -> extent i = length i.
Proof.
  intros Hh Hg. unfold extent, any_from_ber. rewrite Hh. cbn [bind]. rewrite asn1_get_content_eq.
  change ASN1_MAX_RECURSION with MAX_RECURSION.
  destruct (ber_get_object_content i1 h MAX_RECURSION) as [[r data]| | |]; try reflexivity. now destruct (Hg r data).
Qed.

Lemma taken_definite i1 h n r data : h_length h = Definite n -> take_complete ber_ops n i1 = Ok (r, data) ->
  ber_get_object_content i1 h MAX_RECURSION = Ok (r, data).
Proof.
  intros Hl H. apply take_complete_ok in H as [-> Hn]. subst n.
  exact (LemDer.get_content_definite 49 data r h Hl).
Qed.

(** Either the contents are not reached, or the callback is called once, on contents that
    are at least two octets shorter than the element. *)
Lemma container_cost A der f i :
  ((2 * fst (@t_container A der f i) <= extent i + 2)%nat
   \/ exists c h k, fst (t_container der f i) = (k + fst (f c h))%nat /\ (2 * k <= extent i)%nat
        /\ (length c + 2 <= extent i)%nat)
  /\ forall r v, snd (t_container der f i) = Ok (r, v) -> exists a, any_from_ber i = Ok (r, a).
Proof.
  assert (K : forall i1 h n r data (g : nat * res (nerr berror) (bytes * A)),
    header_from_ber i = Ok (i1, h) -> ber_get_object_content i1 h MAX_RECURSION = Ok (r, data) ->
    (2 * n + length r <= length i1)%nat -> g = f data h ->
    let x := cbind (1%nat, Ok (i1, h)) (fun ih => let (i1, h) := ih in
      cbind (n, @Ok (nerr berror) (bytes * bytes) (r, data)) (fun id => let (i2, data) := id in
      cbind g (fun rv => let (_, v) := rv in (O, Ok (i2, v))))) in
    ((2 * fst x <= extent i + 2)%nat
     \/ exists c h k, fst x = (k + fst (f c h))%nat /\ (2 * k <= extent i)%nat
        /\ (length c + 2 <= extent i)%nat)
    /\ forall r' v, snd x = Ok (r', v) -> exists a, any_from_ber i = Ok (r', a)).
  { intros i1 h n r data g Hh Hg Hn -> x. pose proof (any_of_parts _ _ _ _ _ Hh Hg) as Ha.
    pose proof (any_data_length _ _ _ Ha) as Hd. cbn [a_data] in Hd. pose proof (header_length _ _ _ Hh) as Hh2.
    assert (He : extent i = (length i - length r)%nat) by (unfold extent; now rewrite Ha).
    subst x. split.
    - right. exists data, h, (1 + n)%nat. rewrite !fst_cbind_ok, fst_cbind_pure by (intros []; reflexivity). lia.
    - intros r' v. rewrite !snd_cbind. cbn [snd bind]. rewrite snd_cbind. cbn [bind snd]. rewrite snd_cbind.
      destruct (snd (f data h)) as [[x v']| | |]; cbn [bind snd]; intros E; inv E. eauto. }
  destruct der; cbn [t_container].
  - unfold t_der_container, t_header_der. cbn [cmap_err]. rewrite convert_id.
    destruct (header_from_der i) as [[i1 h]| | |] eqn:Hh; [|split; [left; cbn; lia|discriminate]..].
    apply header_from_der_ber in Hh as [Hh Hdef].
    destruct (h_length h) as [n|] eqn:Hl; [|split; [left; cbn; rewrite Hl; cbn; lia|cbn; rewrite Hl; discriminate]].
    destruct (take_complete ber_ops n i1) as [[r data]| | |] eqn:Ht.
    + pose proof (taken_definite _ _ _ _ _ Hl Ht) as Hg.
      assert (Hr : (2 * O + length r <= length i1)%nat).
      { apply take_complete_ok in Ht as [-> _]. rewrite app_length. lia. }
      specialize (K i1 h O r data _ Hh Hg Hr eq_refl). cbv zeta in K. cbn [cbind] in K |- *. rewrite Hl, Ht. exact K.
    + split; [left; cbn; rewrite Hl, Ht; cbn; lia|cbn; rewrite Hl, Ht; discriminate].
    + split; [left; cbn; rewrite Hl, Ht; cbn; lia|cbn; rewrite Hl, Ht; discriminate].
    + split; [left; cbn; rewrite Hl, Ht; cbn; lia|cbn; rewrite Hl, Ht; discriminate].
  - unfold t_ber_container, t_header. cbn [cmap_err]. rewrite convert_id.
    destruct (header_from_ber i) as [[i1 h]| | |] eqn:Hh; [|split; [left; cbn; lia|discriminate]..].
    destruct (h_length h) as [n|] eqn:Hl.
    + destruct (take_complete ber_ops n i1) as [[r data]| | |] eqn:Ht.
      * pose proof (taken_definite _ _ _ _ _ Hl Ht) as Hg.
        assert (Hr : (2 * O + length r <= length i1)%nat).
        { apply take_complete_ok in Ht as [-> _]. rewrite app_length. lia. }
        specialize (K i1 h O r data _ eq_refl Hg Hr eq_refl). cbv zeta in K. cbn [cbind] in K |- *. rewrite Hl, Ht. exact K.
      * split; [left; cbn; rewrite Hl, Ht; cbn; lia|cbn; rewrite Hl, Ht; discriminate].
      * split; [left; cbn; rewrite Hl, Ht; cbn; lia|cbn; rewrite Hl, Ht; discriminate].
      * split; [left; cbn; rewrite Hl, Ht; cbn; lia|cbn; rewrite Hl, Ht; discriminate].
    + pose proof (fits_get_content i1 h MAX_RECURSION) as Hf. pose proof (same_get_content i1 h MAX_RECURSION) as Es.
      destruct (t_get_content i1 h MAX_RECURSION) as [n v] eqn:Et. unfold fits in Hf. cbn [fst snd] in Hf, Es. subst v.
      destruct (ber_get_object_content i1 h MAX_RECURSION) as [[r data]| | |] eqn:Hg; cbn [fst] in Hf.
      * specialize (K i1 h n r data _ eq_refl Hg Hf eq_refl). cbv zeta in K. cbn [cbind] in K |- *.
        rewrite Hl, Et. cbn [cmap_err map_err]. exact K.
      * pose proof (header_length _ _ _ Hh). rewrite (no_parts i i1 h Hh) by congruence.
        split; [left|]; cbn [cbind]; rewrite Hl, Et; cbn [cmap_err map_err cbind fst snd]; [lia|discriminate].
      * pose proof (header_length _ _ _ Hh). rewrite (no_parts i i1 h Hh) by congruence.
        split; [left|]; cbn [cbind]; rewrite Hl, Et; cbn [cmap_err map_err cbind fst snd]; [lia|discriminate].
      * pose proof (header_length _ _ _ Hh). rewrite (no_parts i i1 h Hh) by congruence.
        split; [left|]; cbn [cbind]; rewrite Hl, Et; cbn [cmap_err map_err cbind fst snd]; [lia|discriminate].
Qed.

Lemma get_content_plain i h d :
  t_get_content i (header_new Universal (h_constructed h) (h_tag h) (h_length h)) d = t_get_content i h d.
Proof. destruct d; reflexivity. Qed.

Lemma get_plain i h d :
  ber_get_object_content i (header_new Universal (h_constructed h) (h_tag h) (h_length h)) d
  = ber_get_object_content i h d.
Proof. destruct d; reflexivity. Qed.

Lemma content_as_cost L i h d :
  match ber_get_object_content i h d with
  | Ok (r, _) => (2 * fst (t_content_as L i (h_tag h) (h_length h) (h_constructed h) d)
                  <= (d + 1) * (length i - length r) + 2)%nat
  | _ => (2 * fst (t_content_as L i (h_tag h) (h_length h) (h_constructed h) d) <= length i + 2)%nat
  end.
Proof.
  unfold t_content_as. cbv zeta. rewrite get_content_plain.
  pose proof (fits_get_content i h d) as Hf. pose proof (same_get_content i h d) as Es.
  destruct (t_get_content i h d) as [n v]. unfold fits in Hf. cbn [fst snd] in Hf, Es. subst v.
  set (h' := header_new Universal (h_constructed h) (h_tag h) (h_length h)).
  destruct (ber_get_object_content i h d) as [[r data]| | |] eqn:Hg; cbn [fst] in Hf.
  - assert (Hd : (length data + length r <= length i)%nat).
    { apply get_content_inv in Hg as (b & -> & -> & _ & _). rewrite app_length. unfold content_octets.
      destruct (h_length h); rewrite ?firstn_length; lia. }
    pose proof (fits_conv L d (mkAny h' data)) as Hc. unfold conv_fits in Hc. cbn [a_data] in Hc.
    assert (H : (2 * fst (cbind (n, @Ok (nerr berror) (bytes * bytes) (r, data)) (fun rd => let (r, data) := rd in
        cbind (cmap_err nerr_of_err (t_berobject_from_any L d (mkAny h' data))) (fun o =>
        (O, @Ok (nerr berror) (bytes * content) (r, o_content o))))) <= (d + 1) * (length i - length r) + 2)%nat).
    { rewrite fst_cbind_ok, fst_cbind_pure by reflexivity.
      destruct (t_berobject_from_any L d (mkAny h' data)) as [n2 v2]. cbn [cmap_err fst snd] in *.
      assert (H50 : (2 * n2 <= d * length data + 2)%nat) by (destruct v2; lia).
      clear Hc. nia. }
    destruct (h_length h) as [m|]; [|exact H]. destruct (MAX_OBJECT_SIZE <? m); [cbn [fst]; lia|].
    destruct (nlen i <? m); [cbn [fst]; lia|exact H].
  - destruct (h_length h) as [m|]; [|cbn [cbind fst]; lia]. destruct (MAX_OBJECT_SIZE <? m); [cbn [fst]; lia|].
    destruct (nlen i <? m); cbn [cbind fst]; lia.
  - destruct (h_length h) as [m|]; [|cbn [cbind fst]; lia]. destruct (MAX_OBJECT_SIZE <? m); [cbn [fst]; lia|].
    destruct (nlen i <? m); cbn [cbind fst]; lia.
  - destruct (h_length h) as [m|]; [|cbn [cbind fst]; lia]. destruct (MAX_OBJECT_SIZE <? m); [cbn [fst]; lia|].
    destruct (nlen i <? m); cbn [cbind fst]; lia.
Qed.

Lemma der_cost L i t l c d : (fst (t_der_content_as L i t l c d) <= fst (t_content_as L i t l c d))%nat.
Proof.
  unfold t_der_content_as. destruct (map_err nerr_of_err (length_definite l)) as [n| | |]; [|cbn; lia..].
  rewrite fst_cbind_ok. cbn [Nat.add].
  destruct (nlen i <? n); [cbn [fst]; lia|]. cbv zeta.
  destruct (utag_of t);
    repeat first [reflexivity | cbn [fst]; lia
                 | match goal with |- context[match ?x with _ => _ end] => destruct x end].
Qed.

(** A counted parser that looks at the first element only. *)
Definition local {A} (s : nat) (f : bytes -> nat * res (nerr berror) (bytes * A)) : Prop :=
  forall i, (fst (f i) <= 27 * s * Nat.max 1 (extent i))%nat
    /\ forall r v, snd (f i) = Ok (r, v) -> exists a, any_from_ber i = Ok (r, a).

Lemma with_tag_cost L der t i : (fst (t_with_tag der L t i) <= 27 * 1 * Nat.max 1 (extent i))%nat.
Proof.
    assert (H : forall i1 h, header_from_ber i = Ok (i1, h) ->
      (2 * (1 + fst (t_content_as L i1 (h_tag h) (h_length h) (h_constructed h) MAX_RECURSION)) <= 54 * Nat.max 1 (extent i))%nat).
    { intros i1 h Hh. pose proof (header_length _ _ _ Hh) as Hl. pose proof (content_as_cost L i1 h MAX_RECURSION) as Hc.
      change (MAX_RECURSION + 1)%nat with 51%nat in Hc.
      destruct (ber_get_object_content i1 h MAX_RECURSION) as [[r data]| | |] eqn:Hg.
      - pose proof (any_of_parts _ _ _ _ _ Hh Hg) as Ha. unfold extent. rewrite Ha. lia.
      - rewrite (no_parts i i1 h Hh) by congruence. lia.
      - rewrite (no_parts i i1 h Hh) by congruence. lia.
      - rewrite (no_parts i i1 h Hh) by congruence. lia. }
    destruct der; cbn [t_with_tag].
    + unfold t_parse_der_with_tag. assert (Eh : t_header_der i = (1%nat, header_from_der i)) by reflexivity.
      destruct (t_header_der i) as [n1 v1]. injection Eh as -> Hh. destruct v1 as [[i1 h]| | |]; [|cbn [cbind fst]; lia..].
      symmetry in Hh.
      apply header_from_der_ber in Hh as [Hh _]. specialize (H i1 h Hh). rewrite fst_cbind_ok.
      destruct (map_err nerr_of_err (assert_tag h t)); [|cbn [cbind fst]; lia..].
      rewrite fst_cbind_ok, fst_cbind_pure by (intros []; reflexivity).
      pose proof (der_cost L i1 (h_tag h) (h_length h) (h_constructed h) MAX_RECURSION). lia.
    + unfold t_parse_ber_with_tag. assert (Eh : t_header i = (1%nat, header_from_ber i)) by reflexivity.
      destruct (t_header i) as [n1 v1]. injection Eh as -> Hh. destruct v1 as [[i1 h]| | |]; [|cbn [cbind fst]; lia..].
      specialize (H i1 h (eq_sym Hh)). rewrite fst_cbind_ok.
      destruct (map_err nerr_of_err (assert_tag h t)); [|cbn [cbind fst]; lia..].
      rewrite fst_cbind_ok, fst_cbind_pure by (intros []; reflexivity). lia.
Qed.

Lemma with_tag_local L der t : local 1 (t_with_tag der L t).
Proof.
  intros i. split; [apply with_tag_cost|].
    intros r v. unfold t_with_tag. destruct (C79_same L i O t) as (_ & H1 & _ & H2).
    destruct der; [rewrite H2|rewrite H1]; intros H.
    + apply der_with_tag_iff in H as (h & c & k & Hh & Hl & _). apply header_from_der_ber in Hh as [Hh _].
      eexists. eapply any_of_parts; [exact Hh|]. exact (LemDer.get_content_definite 49 c r h Hl).
    + unfold parse_ber_with_tag, ber_read_element_header in H. bind_inv H. destruct a as [i1 h]. bind_inv H.
      bind_inv H. destruct a0 as [i2 k]. inv H.
      apply content_as_inv in E1 as (data & Hg & _). rewrite get_plain in Hg.
      eexists. eapply any_of_parts; eassumption.
Qed.

Lemma container_local A s der f :
  (forall c h, (fst (f c h) <= 27 * s * (length c + 1))%nat) -> local (S s) (@t_container A der f).
Proof.
  intros Hf i. destruct (container_cost A der f i) as [H Hs]. split; [|exact Hs].
  destruct H as [H | (c & h & k & -> & Hk & Hc)]; [nia|]. specialize (Hf c h). nia.
Qed.

Lemma any_shorter i r a : any_from_ber i = Ok (r, a) -> (length r + 2 <= length i)%nat /\ extent i = (length i - length r)%nat.
Proof. intros H. pose proof (any_data_length _ _ _ H). unfold extent. rewrite H. lia. Qed.

Lemma many0_cost A s f : local s f -> forall fuel acc i,
  (fst (@t_many0_loop A (t_complete_cut f) fuel acc i) <= 27 * s * (length i + 1))%nat.
Proof.
  intros Hf. induction fuel as [|fuel IH]; intros acc i; cbn [t_many0_loop]; [cbn [fst]; lia|].
  specialize (Hf i) as [Hc Hs]. pose proof (extent_le i) as Hx. unfold t_complete_cut.
  destruct (f i) as [n v]. cbn [cmap_err fst snd] in *.
  assert (Hm : (Nat.max 1 (extent i) <= length i + 1)%nat) by lia.
  assert (Hn : (n <= 27 * s * (length i + 1))%nat)
    by (eapply Nat.le_trans; [exact Hc|now apply Nat.mul_le_mono_l]).
  destruct v as [[i1 o]|[| |]| |]; cbn [map_err fst]; try exact Hn.
  destruct (Hs _ _ eq_refl) as (a & Ha). apply any_shorter in Ha as [Hl He].
  destruct (length i1 =? length i)%nat; [exact Hn|]. specialize (IH (o :: acc) i1). unfold t_complete_cut in IH.
  destruct (t_many0_loop _ fuel (o :: acc) i1) as [m w]. cbn [fst] in *.
  replace (Nat.max 1 (extent i)) with (length i - length i1)%nat in Hc by lia.
  assert (E : (length i + 1 = (length i - length i1) + (length i1 + 1))%nat) by lia.
  rewrite E, Nat.mul_add_distr_l. lia.
Qed.

Lemma reader_local L der :
  (forall e, local (ty_size e) (t_reader L der e))
  /\ (forall fs i, (fst (t_fields L der fs i) <= 27 * fields_size fs * Nat.max 1 (length i))%nat).
Proof.
  assert (Hdef : forall A B s t (g : A -> B) (f : bytes -> nat * res (nerr berror) (bytes * A)),
    (forall c, (fst (f c) <= 27 * s * (length c + 1))%nat) -> local (S s) (t_map g (t_defined_g der t f))).
  { intros A B s t g f Hf i. unfold t_map, t_defined_g.
    destruct (container_local A s der (fun c hdr =>
      cbind (O, map_err (err_into ber_ops) (assert_tag hdr t)) (fun _ => f c))) with (i := i) as [H1 H2].
    { intros c h. destruct (map_err (err_into ber_ops) (assert_tag h t)); [|cbn [cbind fst]; lia..].
      rewrite fst_cbind_ok. apply Hf. }
    split; [rewrite fst_cbind_pure by (intros []; reflexivity); exact H1|].
    intros r v. rewrite snd_cbind. intros H. bind_inv H. destruct a as [r' x]. inv H. eapply H2; eassumption. }
  assert (Hfs : forall fs, (forall i, (fst (t_fields L der fs i) <= 27 * fields_size fs * Nat.max 1 (length i))%nat) ->
    forall c, (fst (t_fields L der fs c) <= 27 * fields_size fs * (length c + 1))%nat).
  { intros fs H c. specialize (H c). nia. }
  assert (Hof : forall e, local (ty_size e) (t_reader L der e) ->
    forall c, (fst (t_of_subparser (t_reader L der e) c) <= 27 * ty_size e * (length c + 1))%nat).
  { intros e H c. unfold t_of_subparser. rewrite fst_cbind_pure by (intros []; reflexivity). now apply many0_cost. }
  apply ty_fields_ind.
  - intros t. apply with_tag_local.
  - intros fs IH. cbn [t_reader ty_size]. apply Hdef. auto.
  - intros e IH. cbn [t_reader ty_size]. apply Hdef. auto.
  - intros e IH. cbn [t_reader ty_size]. apply Hdef. auto.
  - intros fs IH. cbn [t_reader ty_size]. apply Hdef. auto.
  - intros cl t e IH. cbn [t_reader ty_size]. unfold t_tagged_explicit. apply container_local. intros c h.
    destruct (class_eqb (h_class h) Universal); [cbn [fst]; lia|].
    destruct (map_err (err_into ber_ops) (assert_tag h t)); [|cbn [cbind fst]; lia..]. rewrite fst_cbind_ok.
    match goal with |- (0 + fst (cbind (O, ?v) _) <= _)%nat => destruct v; [|cbn [cbind fst]; lia..] end.
    rewrite fst_cbind_ok, fst_cbind_pure by (intros []; reflexivity).
    destruct (IH c) as [H _]. pose proof (extent_le c).
    eapply Nat.le_trans; [exact H|]. apply Nat.mul_le_mono_l. lia.
  - intros cl t u i. cbn [t_reader ty_size]. unfold t_tagged_implicit.
    match goal with |- context[t_container der ?f] => set (g := f) end.
    destruct (container_cost _ der g i) as [H Hs]. split; [|exact Hs].
    destruct H as [H | (c & h & k & -> & Hk & Hc)]; [nia|]. subst g. cbv beta.
    enough (2 * fst (cbind (O, map_err (err_into ber_ops) (assert_tag h t)) (fun _ =>
      cbind (t_content der L u c h MAX_RECURSION) (fun rk => let (r, k) := rk in
        (O, @Ok (nerr berror) (bytes * obj) (r, Obj h k))))) <= 51 * length c + 2)%nat by lia.
    apply fst_cbind0. intros _ _. rewrite fst_cbind_pure by (intros []; reflexivity). unfold t_content.
    pose proof (fits_content_as L c u (h_length h) (h_constructed h) MAX_RECURSION).
    pose proof (fits_der_content_as L c u (h_length h) (h_constructed h) MAX_RECURSION).
    change (MAX_RECURSION + 1)%nat with 51%nat in *. destruct der; assumption.
  - intros cl t fs IH. cbn [t_reader ty_size]. unfold t_tagged_implicit. apply container_local. intros c h.
    destruct (map_err (err_into ber_ops) (assert_tag h t)); [|cbn [cbind fst]; lia..].
    rewrite fst_cbind_ok, fst_cbind_pure by (intros []; reflexivity).
    rewrite fst_cbind_pure by (intros []; reflexivity). exact (Hfs _ IH c).
  - intros e1 IH1 e2 IH2 i. cbn [t_reader t_alt ty_size]. destruct (IH1 i) as [H1 S1]. destruct (IH2 i) as [H2 S2].
    destruct (t_reader L der e1 i) as [n1 v1]. destruct (t_reader L der e2 i) as [n2 v2]. cbn [fst snd] in *.
    destruct v1 as [x|[| |]| |]; cbn [fst snd]; try (split; [nia|assumption]).
    destruct v2 as [x|[| |]| |]; cbn [fst snd]; (split; [nia|try assumption]). discriminate.
  - intros i. cbn. lia.
  - intros optional e IH fs IHf i. cbn [t_fields fields_size].
    destruct (IH i) as [H1 S1]. pose proof (extent_le i) as Hx.
    assert (Hr : exists n v, (if optional then t_optional (t_reader L der e) i else t_reader L der e i) = (n, v)
      /\ n = fst (t_reader L der e i) /\ forall r o, v = Ok (r, o) -> (length r <= length i)%nat).
    { destruct (t_reader L der e i) as [n v] eqn:E. cbn [fst snd] in *. destruct optional.
      - unfold t_optional. rewrite E. destruct v as [[r o]| | |]; (eexists; eexists; split; [reflexivity|split; [reflexivity|]]); intros r' o' Ho; inv Ho; auto.
        destruct (S1 _ _ eq_refl) as (a & Ha). apply any_shorter in Ha. lia.
      - exists n, v. split; [reflexivity|]. split; [reflexivity|]. intros r o ->.
        destruct (S1 _ _ eq_refl) as (a & Ha). apply any_shorter in Ha. lia. }
    destruct Hr as (n & v & -> & -> & Hv). destruct v as [[r o]| | |]; [|cbn [cbind fst]; nia..].
    rewrite fst_cbind_ok, fst_cbind_pure by (intros []; reflexivity). specialize (IHf r). specialize (Hv _ _ eq_refl). nia.
Qed.

(** The number of headers read is at most 27 for every parser in the composed one and
    every octet, whatever is optional or tried first; and if the input is accepted, only the
    octets of the element count. *)
Theorem C115_bound : forall L der e i,
  (fst (t_reader L der e i) <= 27 * ty_size e * Nat.max 1 (length i))%nat
  /\ forall r o, reader (kit_of L der) e i = Ok (r, o) ->
       (length r + 2 <= length i)%nat
       /\ (fst (t_reader L der e i) <= 27 * ty_size e * (length i - length r))%nat.
Proof.
  intros L der e i. destruct (proj1 (reader_local L der) e i) as [H Hs]. pose proof (extent_le i). split; [nia|].
  intros r o E. rewrite <- (proj1 (same_reader L der) e i) in E. destruct (Hs _ _ E) as (a & Ha).
  apply any_shorter in Ha as [Hl He]. split; [exact Hl|]. rewrite He in H. nia.
Qed.
Print Assumptions C115_bound.

(** [n + 1] alternatives of which none accepts a NULL. *)
Fixpoint no_null (n : nat) : ty :=
  match n with
  | O => TValue 2
  | S n => TChoice (TValue 2) (no_null n)
  end.

(** The octets alone give no bound: for two octets, any number of headers is read. *)
Theorem C115_types : forall L der n,
  ty_size (no_null n) = S n /\ fst (t_reader L der (no_null n) [5; 0]) = S n
  /\ exists x, snd (t_reader L der (no_null n) [5; 0]) = Err (Error x).
Proof.
  intros L der n. induction n as [|n (IH1 & IH2 & x & IH3)].
  - split; [reflexivity|]. destruct der; (split; [reflexivity|]); eexists; reflexivity.
  - split; [cbn [no_null ty_size]; rewrite IH1; reflexivity|].
    assert (E : exists y, t_reader L der (TValue 2) [5; 0] = (1%nat, Err (Error y))) by (destruct der; eexists; reflexivity).
    destruct E as [y E]. cbn [no_null t_reader t_alt] in *. rewrite E.
    destruct (t_reader L der (no_null n) [5; 0]) as [m v]. cbn [fst snd] in *. subst. cbn [fst snd].
    split; [lia|eexists; reflexivity].
Qed.
Print Assumptions C115_types.

(** An OPTIONAL component that fails at its end and is read again as the next one (7
    headers for 4 elements); SEQUENCE OF with a CHOICE whose first alternative fails
    inside; the same with indefinite lengths, where the end of each element is looked for first. *)
Definition int_bool : ty := TSequence (FCons false (TValue 2) (FCons false (TValue 1) FNil)).
Definition int_null : ty := TSequence (FCons false (TValue 2) (FCons false (TValue 5) FNil)).
Example C115_ex :
  let e := TSequence (FCons true int_bool (FCons false int_null FNil)) in
  let l := TSequenceOf (TChoice int_bool int_null) in
  ty_size e = 7%nat /\ ty_size l = 7%nat
  /\ fst (t_reader SL true e (hx "30 07 30 05 02 01 05 05 00")) = 7%nat
  /\ fst (t_reader SL false e (hx "30 80 30 80 02 01 05 05 00 00 00 00 00")) = 18%nat
  /\ (exists o, reader (der_kit SL) e (hx "30 07 30 05 02 01 05 05 00") = Ok ([], o))
  /\ (exists o, reader (ber_kit SL) e (hx "30 80 30 80 02 01 05 05 00 00 00 00 00") = Ok ([], o))
  /\ (exists o, reader (ber_kit SL) l (hx "30 0F 30 06 02 01 05 01 01 FF 30 05 02 01 05 05 00 09") = Ok ([9], o))
  /\ fst (t_reader SL false l (hx "30 0F 30 06 02 01 05 01 01 FF 30 05 02 01 05 05 00 09")) = 11%nat.
Proof. repeat split; vm_compute; try reflexivity; eexists; reflexivity. Qed.
