(** * C124: comparing a decoded object identifier with an [oid!] constant *)

From Coq Require Import String.
From Verif Require Import Base Asn1rs Ber Der OidMacro OidConst Equal Typed Conformance Spec SpecValue SpecComb SpecTyped SpecOid.
From Verif Require Import LemBase LemComb LemOid LemUnique PropFraming PropDer PropTyped PropOid PropEqual.
From Verif Require SpecAbstract.
Local Open Scope string_scope.
Local Open Scope N_scope.
Local Open Scope list_scope.

(** [o] was read from the front of [i] by one of the readers that can give an object
    identifier. *)
Definition decoded (L : leaves) (i r : bytes) (o : obj) : Prop :=
  parse_ber L i = Ok (r, o)
  \/ (no_unknown_tag L /\ parse_der L i = Ok (r, o))
  \/ parse_ber_oid L i = Ok (r, o) \/ parse_der_oid L i = Ok (r, o)
  \/ parse_ber_relative_oid L i = Ok (r, o) \/ parse_der_relative_oid L i = Ok (r, o).

Lemma value_oid L d h c k x : value L d h c k -> as_oid k = Ok x ->
  (h_tag h = 6 /\ x = mkOid false c) \/ (h_tag h = 13 /\ x = mkOid true c).
Proof. intros Hv Hx. inversion Hv; subst; cbn [as_oid] in Hx; try discriminate; inversion Hx; subst; auto.
Qed.

Lemma decoded_oid L i r o x : bytes_ok i -> decoded L i r o -> obj_as_oid o = Ok x ->
  exists bs c, i = bs ++ r /\ element 50 (o_header o) c bs
    /\ ((h_tag (o_header o) = 6 /\ x = mkOid false c) \/ (h_tag (o_header o) = 13 /\ x = mkOid true c)).
Proof.
  intros Hok H Hx.
  assert (Ht : forall h c k d, value L d (as_universal h) c k -> as_oid k = Ok x ->
    (h_tag h = 6 /\ x = mkOid false c) \/ (h_tag h = 13 /\ x = mkOid true c)).
  { intros h c k d Hv Hk. exact (value_oid _ _ _ _ _ _ Hv Hk). }
  destruct H as [H|[[HL H]|[H|[H|[H|H]]]]].
  - apply C55_parse_ber_exact in H as (bs & c & -> & He & Hv); [|exact Hok]. exists bs, c. eauto using value_oid.
  - apply C56_parse_der_exact in H as (bs & c & -> & He & _ & _ & Hv); [|exact HL|exact Hok|unfold MAX_RECURSION; lia].
    exists bs, c. split; [reflexivity|]. split; [now apply definite_is_element|].
    pose proof (value_oid _ _ _ _ _ _ Hv Hx) as Hr. unfold der_view in Hr. destruct (h_class (o_header o)); exact Hr.
  - apply with_tag_exact in H as (bs & c & -> & He & _ & _ & Hv); [|exact Hok]. exists bs, c. eauto.
  - apply der_with_tag_exact in H as (bs & c & -> & He & _ & _ & _ & _ & Hv); [|exact Hok].
    exists bs, c. split; [reflexivity|]. split; [now apply definite_is_element|eauto].
  - apply with_tag_exact in H as (bs & c & -> & He & _ & _ & Hv); [|exact Hok]. exists bs, c. eauto.
  - apply der_with_tag_exact in H as (bs & c & -> & He & _ & _ & _ & _ & Hv); [|exact Hok].
    exists bs, c. split; [reflexivity|]. split; [now apply definite_is_element|eauto].
Qed.

Lemma const_octets comps text b : dotted comps text -> oid_components comps -> encode_oid text = Ok b -> oid_contents comps b.
Proof.
  intros Hd Hc He. destruct (C61_dotted _ _ Hd) as [E _]. rewrite E in He.
  destruct comps as [|a [|b0 rest]]; try contradiction. destruct (N.ltb_spec b0 40).
  - destruct (C52_absolute_partial a b0 rest Hc) as (bs & E1 & H1); [assumption|]. rewrite He in E1. now injection E1 as ->.
  - assert (P : encode_components (a :: b0 :: rest) false = Panic) by (apply C52_panics; lia). congruence.
Qed.

Lemma rel_octets comps text b : dotted comps text -> encode_oid ([114; 101; 108; 32] ++ text) = Ok b ->
  relative_oid_contents comps b.
Proof.
  intros Hd He. destruct (C61_dotted _ _ Hd) as [_ E]. change (hx "72 65 6c 20") with [114; 101; 108; 32] in E.
  rewrite E in He. destruct (C52_relative comps) as (bs & E1 & H1). rewrite He in E1. now injection E1 as ->.
Qed.

Lemma oid_octets comps c c' : oid_contents comps c -> oid_contents comps c' -> c = c'.
Proof. destruct comps as [|a [|b rest]]; try contradiction. apply relative_octets. Qed.

(** The decoded identifier equals the constant for the components [comps] exactly if
    the element carries the tag of the same kind of identifier and its contents octets
    are an encoding of these components. *)
Theorem C124_equal : forall L i r o x comps text k, bytes_ok i -> decoded L i r o -> obj_as_oid o = Ok x ->
  dotted comps text ->
  exists bs c, i = bs ++ r /\ element 50 (o_header o) c bs
    /\ (oid_components comps -> oid_const text = Ok k ->
        (oid_eqb x k = true <-> h_tag (o_header o) = 6 /\ oid_contents comps c))
    /\ (oid_rel_const text = Ok k ->
        (oid_eqb x k = true <-> h_tag (o_header o) = 13 /\ relative_oid_contents comps c)).
Proof.
  intros L i r o x comps text k Hok Hd Hx Ht. destruct (decoded_oid _ _ _ _ _ Hok Hd Hx) as (bs & c & E & He & Hk).
  exists bs, c. split; [exact E|]. split; [exact He|]. split.
  - intros Hc H. unfold oid_const in H. bind_inv H. injection H as <-. rename a into b.
    pose proof (const_octets _ _ _ Ht Hc E0) as Hb. rewrite oid_eqb_eq. split.
    + intros ->. destruct Hk as [[H6 Hk]|[_ Hk]]; [|discriminate]. injection Hk as ->. auto.
    + intros [H6 Ho]. destruct Hk as [[_ ->]|[H13 _]]; [|lia]. f_equal. exact (oid_octets _ _ _ Ho Hb).
  - intros H. unfold oid_rel_const in H. bind_inv H. injection H as <-. rename a into b.
    pose proof (rel_octets _ _ _ Ht E0) as Hb. rewrite oid_eqb_eq. split.
    + intros ->. destruct Hk as [[_ Hk]|[H13 Hk]]; [discriminate|]. injection Hk as ->. auto.
    + intros [H13 Ho]. destruct Hk as [[H6 _]|[_ ->]]; [lia|]. f_equal. exact (relative_octets _ _ _ Ho Hb).
Qed.
Print Assumptions C124_equal.

(** So of two identifiers, one decoded and one written in the program, equality of the
    components is what is decided. *)
Theorem C124_components : forall ru o x comps comps' text k, obj_as_oid o = Ok x -> dotted comps text ->
  (SpecAbstract.denotes ru o (SpecAbstract.AOid comps') -> oid_components comps -> oid_const text = Ok k ->
     (oid_eqb x k = true <-> comps' = comps))
  /\ (SpecAbstract.denotes ru o (SpecAbstract.ARelativeOid comps') -> oid_rel_const text = Ok k ->
     (oid_eqb x k = true <-> comps' = comps))
  /\ (SpecAbstract.denotes ru o (SpecAbstract.AOid comps') -> oid_rel_const text = Ok k -> oid_eqb x k = false)
  /\ (SpecAbstract.denotes ru o (SpecAbstract.ARelativeOid comps') -> oid_const text = Ok k -> oid_eqb x k = false).
Proof.
  intros ru o x comps comps' text k Hx Ht. repeat split.
  - intros Hq. inversion H; subst; try discriminate. cbn in Hx. injection Hx as <-. apply oid_eqb_eq in Hq. subst k.
    unfold oid_const in H1. bind_inv H1. injection H1 as <-. eapply oid_unique; eauto using const_octets.
  - intros ->. inversion H; subst; try discriminate. cbn in Hx. injection Hx as <-.
    unfold oid_const in H1. bind_inv H1. injection H1 as <-. apply oid_eqb_eq. f_equal. eauto using oid_octets, const_octets.
  - intros Hq. inversion H; subst; try discriminate. cbn in Hx. injection Hx as <-. apply oid_eqb_eq in Hq. subst k.
    unfold oid_rel_const in H0. bind_inv H0. injection H0 as <-. eauto using relative_unique, rel_octets.
  - intros ->. inversion H; subst; try discriminate. cbn in Hx. injection Hx as <-.
    unfold oid_rel_const in H0. bind_inv H0. injection H0 as <-. apply oid_eqb_eq. f_equal. eauto using relative_octets, rel_octets.
  - intros H H0. inversion H; subst; try discriminate. cbn in Hx. injection Hx as <-.
    unfold oid_rel_const in H0. bind_inv H0. injection H0 as <-. unfold oid_eqb. cbn. apply andb_false_r.
  - intros H H0. inversion H; subst; try discriminate. cbn in Hx. injection Hx as <-.
    unfold oid_const in H0. bind_inv H0. injection H0 as <-. unfold oid_eqb. cbn. apply andb_false_r.
Qed.
Print Assumptions C124_components.

(** The comparison of octets that /repo/UPGRADING.md:113-119 offers for [match] decides
    the same, but of the contents octets alone: the tag does not count. *)
Theorem C124_raw : forall L i r o x comps text k, bytes_ok i -> decoded L i r o -> obj_as_oid o = Ok x ->
  dotted comps text -> oid_components comps -> oid_raw_const text = Ok k ->
  exists bs c, i = bs ++ r /\ element 50 (o_header o) c bs /\ (oid_bytes x = k <-> oid_contents comps c).
Proof.
  intros L i r o x comps text k Hok Hd Hx Ht Hc Hr. destruct (decoded_oid _ _ _ _ _ Hok Hd Hx) as (bs & c & E & He & Hk).
  exists bs, c. split; [exact E|]. split; [exact He|]. pose proof (const_octets _ _ _ Ht Hc Hr) as Hb.
  assert (Hxc : oid_bytes x = c) by (destruct Hk as [[_ ->]|[_ ->]]; reflexivity). rewrite Hxc. split.
  - now intros ->.
  - intros Ho. exact (oid_octets _ _ _ Ho Hb).
Qed.
Print Assumptions C124_raw.

(** "The octets match, so the decoded identifier is the constant" is false: a relative
    identifier may have the same octets. *)
Theorem C124_raw_refuted : exists i o x text k kr, bytes_ok i /\ decoded SL i [] o /\ obj_as_oid o = Ok x
  /\ oid_const text = Ok k /\ oid_raw_const text = Ok kr /\ oid_bytes x = kr /\ oid_eqb x k = false.
Proof.
  exists (hx "0d 02 2a 03"). do 2 eexists. exists (hx "31 2e 32 2e 33"). do 2 eexists.
  split; [vm_compute; repeat constructor|]. split; [left; vm_compute; reflexivity|]. vm_compute. auto.
Qed.
Print Assumptions C124_raw_refuted.

(** Every identifier that exists has a constant, unless its second component is above
    39, which no constant has (C52). *)
Theorem C124_constants : forall comps text, dotted comps text ->
  (oid_components comps -> ((exists k, oid_const text = Ok k) <-> nth 1 comps 0 < 40))
  /\ (exists k, oid_rel_const text = Ok k).
Proof.
  intros comps text Ht. destruct (C61_dotted _ _ Ht) as [E E']. change (hx "72 65 6c 20") with [114; 101; 108; 32] in E'. split.
  - intros Hc. unfold oid_const. rewrite E. destruct comps as [|a [|b rest]]; try contradiction. cbn [nth]. split.
    + intros (k & Hk). destruct (N.ltb_spec b 40); [assumption|].
      assert (P : encode_components (a :: b :: rest) false = Panic) by (apply C52_panics; lia). rewrite P in Hk. discriminate.
    + intros Hb. destruct (C52_absolute_partial a b rest Hc Hb) as (bs & -> & _). cbn [bind]. eauto.
  - unfold oid_rel_const. rewrite E'. destruct (C52_relative comps) as (bs & -> & _). cbn [bind]. eauto.
Qed.
Print Assumptions C124_constants.

(** The document's [1.2.456], written with blanks; next to a decoded [1.2.457] and a
    relative identifier with the same octets. *)
Definition one_two_456 : bytes := hx "31 2e 20 32 20 2e 34 35 36".
Lemma one_two_456_dotted : dotted [1; 2; 456] one_two_456.
Proof.
  assert (Hd : forall n d ds, d = map (N.add 48) ds -> ds <> [] -> forallb (fun d => d <? 10) ds = true ->
    digits_value 10 ds = n -> decimal n d).
  { intros n d ds -> H1 H2 H3. exists ds. split; [reflexivity|]. split; [assumption|]. split; [|assumption].
    apply Forall_forall. intros x Hx. rewrite forallb_forall in H2. specialize (H2 x Hx). lia. }
  change one_two_456 with (([] ++ [49] ++ []) ++ 46 :: (([32] ++ [50] ++ [32]) ++ 46 :: ([] ++ [52; 53; 54] ++ []))).
  apply dotted_more; [constructor|apply (Hd 1 _ [1]); try reflexivity; discriminate|constructor|].
  apply dotted_more; [constructor; [now left|constructor]|apply (Hd 2 _ [2]); try reflexivity; discriminate|
    constructor; [now left|constructor]|].
  apply dotted_one; [constructor|apply (Hd 456 _ [4; 5; 6]); try reflexivity; discriminate|constructor].
Qed.
Example C124_ex : exists k, dotted [1; 2; 456] one_two_456 /\ oid_const one_two_456 = Ok k
  /\ (exists h, parse_der SL (hx "06 03 2a 83 48 00") = Ok ([0], Obj h (COID k)))
  /\ (exists h x, parse_ber SL (hx "06 03 2a 83 49") = Ok ([], Obj h (COID x)) /\ oid_eqb x k = false)
  /\ (exists h x, parse_ber SL (hx "0d 03 2a 83 48") = Ok ([], Obj h (CRelativeOID x)) /\ oid_eqb x k = false)
  /\ oid_rel_const one_two_456 = Ok (mkOid true [1; 2; 131; 72]).
Proof.
  eexists. split; [exact one_two_456_dotted|]. split; [vm_compute; reflexivity|]. vm_compute. repeat split; repeat eexists.
Qed.
