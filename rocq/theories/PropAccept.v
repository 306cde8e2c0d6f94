(** * C98, C99: exactly what parsers composed from the combinators accept and return *)

From Coq Require Import String.
From Verif Require Import Base Asn1rs Ber Der Combinators Typed Conformance Spec SpecValue SpecComb SpecTyped SpecOid SpecAbstract SpecSchema.
From Verif Require Import LemBase LemHeader LemSkip LemParse LemDer LemComb LemTree LemNode.
From Verif Require Import PropTotal PropComb PropTyped PropContent PropSchema.
From Verif Require Import SpecAccept.
Local Open Scope string_scope. Local Open Scope N_scope. Local Open Scope list_scope.

Scheme ty_mind := Induction for ty Sort Prop with fields_mind := Induction for fields Sort Prop.
Combined Scheme ty_fields_ind from ty_mind, fields_mind.

(** ** What is left is an end of the input *)

Lemma get_content_suffix i h d r c : ber_get_object_content i h d = Ok (r, c) -> exists p, i = p ++ r.
Proof.
  unfold ber_get_object_content. intros H. bind_inv H. destruct a as [r' b].
  eexists. symmetry. destruct (h_length h).
  - inv H. apply firstn_skipn.
  - destruct (length _ <? 2)%nat; [discriminate|]. inv H. apply firstn_skipn.
Qed.

Lemma ber_container_suffix {E A} (ops : err_ops E) (f : bytes -> header -> iresult E A) i r v :
  parse_ber_container ops f i = Ok (r, v) -> exists p, i = p ++ r.
Proof.
  unfold parse_ber_container, ber_read_element_header. intros H. bind_inv H. destruct a as [i1 h].
  apply map_err_ok in E0. apply header_from_ber_consumes in E0 as (hb & -> & _).
  bind_inv H. destruct a as [i2 data]. bind_inv H. destruct a. inv H.
  assert (exists p, i1 = p ++ r) as (p & ->).
  { destruct (h_length h); [apply take_complete_ok in E0 as [-> _]; eauto|].
    apply map_err_ok in E0. eapply get_content_suffix, E0. }
  exists (hb ++ p). now rewrite app_assoc.
Qed.

Lemma der_container_suffix {E A} (ops : err_ops E) (f : bytes -> header -> iresult E A) i r v :
  parse_der_container ops f i = Ok (r, v) -> exists p, i = p ++ r.
Proof.
  unfold parse_der_container, der_read_element_header. intros H. bind_inv H. destruct a as [i1 h].
  apply map_err_ok in E0. apply header_from_der_ber in E0 as [E0 _]. apply header_from_ber_consumes in E0 as (hb & -> & _).
  bind_inv H. destruct a as [i2 data]. bind_inv H. destruct a. inv H.
  destruct (h_length h); [|discriminate]. apply take_complete_ok in E0 as [-> _].
  exists (hb ++ data). now rewrite app_assoc.
Qed.

Lemma with_tag_suffix L i t r o : parse_ber_with_tag L i t = Ok (r, o) -> exists p, i = p ++ r.
Proof.
  unfold parse_ber_with_tag, ber_read_element_header. intros H. bind_inv H. destruct a as [i1 h].
  apply header_from_ber_consumes in E as (hb & -> & _). bind_inv H. bind_inv H. destruct a0 as [i2 k]. inv H.
  assert (exists p, i1 = p ++ r) as (p & ->).
  { unfold ber_read_element_content_as, try_read_berobjectcontent_as in E0. destruct (h_length h).
    - destruct (MAX_OBJECT_SIZE <? n); [discriminate|]. destruct (nlen i1 <? n); [discriminate|].
      bind_inv E0. destruct a0 as [r' x]. bind_inv E0. inv E0. eapply get_content_suffix; eassumption.
    - bind_inv E0. destruct a0 as [r' x]. bind_inv E0. inv E0. eapply get_content_suffix; eassumption. }
  exists (hb ++ p). now rewrite app_assoc.
Qed.

Lemma der_with_tag_suffix L i t r o : parse_der_with_tag L i t = Ok (r, o) -> exists p, i = p ++ r.
Proof.
  intros H. apply der_with_tag_iff in H as (h & c & k & Hh & _). apply header_from_der_ber in Hh as [Hh _].
  apply header_from_ber_consumes in Hh as (hb & -> & _). exists (hb ++ c). now rewrite app_assoc.
Qed.

Lemma reader_suffix L der : (forall e, nom_parser (reader (kit_of L der) e)) /\ (forall fs, nom_parser (read_fields (kit_of L der) fs)).
Proof.
  assert (Hm : forall (A B E : Type) (g : A -> B) (f : bytes -> iresult E A) i r v,
    nom_map g f i = Ok (r, v) -> exists u, f i = Ok (r, u)).
  { intros A B E g f i r v H. apply nom_map_ok in H as (u & H & _). eauto. }
  apply ty_fields_ind; intros; intros i r v Hr; cbn [reader read_fields] in Hr.
  9: { cbn [nom_alt] in Hr. destruct (reader (kit_of L der) e1 i) as [[m o]|[]| |] eqn:E1; try discriminate;
         [inv Hr; eauto|]. destruct (reader (kit_of L der) e2 i) as [[m o]|[]| |] eqn:E2; try discriminate. inv Hr. eauto. }
  1-8: destruct der; cbn in Hr;
    first [eapply der_with_tag_suffix, Hr|eapply with_tag_suffix, Hr
          |apply Hm in Hr as (u & Hr); first [eapply der_container_suffix, Hr|eapply ber_container_suffix, Hr]
          |first [eapply der_container_suffix, Hr|eapply ber_container_suffix, Hr]].
  - inv Hr. now exists [].
  - bind_inv Hr. destruct a as [m o]. bind_inv Hr. destruct a as [r' os]. inv Hr.
    apply H0 in E0 as (p' & ->).
    assert (exists p, i = p ++ (p' ++ r)) as (p & ->).
    { destruct optional; [|exact (H _ _ _ E)]. unfold parse_ber_optional in E.
      destruct (reader (kit_of L der) e i) as [[m' x]| | |] eqn:Ex; inv E; [exact (H _ _ _ Ex)|now exists []]. }
    exists (p ++ p'). now rewrite app_assoc.
Qed.

Lemma reader_empty L der e : exists n, reader (kit_of L der) e [] = Err (Incomplete n).
Proof.
  induction e as [| | | | | | | |e1 (n & IH) e2 _]; try (destruct der; eexists; reflexivity).
  exists n. cbn [reader nom_alt]. now rewrite IH.
Qed.

(** ** No composed parser panics or runs forever *)

Lemma reader_total L der : (forall e i, returns (reader (kit_of L der) e i)) /\ (forall fs i, returns (read_fields (kit_of L der) fs i)).
Proof.
  set (f0 := fun _ : bytes => Err (Error BerTypeError) : iresult berror obj).
  set (g0 := fun _ : bytes => Err (Error BerTypeError) : iresult berror (list obj)).
  set (k0 := fun (_ : bytes) (_ : header) (_ : nat) => Err (Error BerTypeError) : iresult berror content).
  assert (Hf0 : forall c, returns (f0 c)) by (intros; right; eexists; reflexivity).
  assert (Hn0 : nom_parser f0) by (intros i r v; discriminate).
  assert (Hg0 : forall c, returns (g0 c)) by (intros; right; eexists; reflexivity).
  assert (Hk0 : forall c h d, returns (k0 c h d)) by (intros; right; eexists; reflexivity).
  apply ty_fields_ind.
  - intros t i. destruct der; apply C01_entry_points.
  - intros fs H i. destruct (C01_objects f0 _ k0 i 0 Hf0 Hn0 H Hk0) as (_ & _ & _ & _ & R1 & R2 & _). destruct der; assumption.
  - intros e H i. destruct (C01_objects _ g0 k0 i 0 H (proj1 (reader_suffix L der) e) Hg0 Hk0) as (R1 & R2 & _). destruct der; assumption.
  - intros e H i. destruct (C01_objects _ g0 k0 i 0 H (proj1 (reader_suffix L der) e) Hg0 Hk0) as (_ & _ & R1 & R2 & _). destruct der; assumption.
  - intros fs H i. destruct (C01_objects f0 _ k0 i 0 Hf0 Hn0 H Hk0) as (_ & _ & _ & _ & _ & _ & R1 & R2 & _). destruct der; assumption.
  - intros cl t e H i. destruct (C01_objects _ g0 k0 i t H (proj1 (reader_suffix L der) e) Hg0 Hk0) as (_ & _ & _ & _ & _ & _ & _ & _ & R1 & R2 & _).
    destruct der; assumption.
  - intros cl t u i.
    assert (Hk : forall c h d, returns (k_content (kit_of L der) u c h d)).
    { intros c h d. destruct (C01_readers L c u Indefinite true d h) as (_ & _ & _ & _ & _ & _ & _ & R1 & R2). destruct der; assumption. }
    destruct (C01_objects f0 g0 _ i t Hf0 Hn0 Hg0 Hk) as (_ & _ & _ & _ & _ & _ & _ & _ & _ & _ & R1 & R2 & _). destruct der; assumption.
  - intros cl t fs H i.
    set (k := fun (c : bytes) (_ : header) (_ : nat) => let* (r, os) := read_fields (kit_of L der) fs c in Ok (r, CSequence os)).
    assert (Hk : forall c h d, returns (k c h d)).
    { intros c h d. unfold k. destruct (H c) as [([r os] & ->)|(x & ->)]; [left|right]; eexists; reflexivity. }
    destruct (C01_objects f0 g0 _ i t Hf0 Hn0 Hg0 Hk) as (_ & _ & _ & _ & _ & _ & _ & _ & _ & _ & R1 & R2 & _). destruct der; assumption.
  - intros e1 H1 e2 H2 i. cbn [reader nom_alt].
    destruct (H1 i) as [([r o] & ->)|([] & ->)]; [left|right|idtac|right]; try (eexists; reflexivity).
    destruct (H2 i) as [([r o] & ->)|([] & ->)]; [left|right..]; eexists; reflexivity.
  - intros i. left. eexists. reflexivity.
  - intros optional e H fs H0 i. cbn [read_fields].
    assert (Hr : returns (if optional then parse_ber_optional (reader (kit_of L der) e) i else reader (kit_of L der) e i)).
    { destruct optional; [|apply H]. unfold parse_ber_optional.
      destruct (H i) as [([r o] & ->)|(x & ->)]; left; eexists; reflexivity. }
    destruct Hr as [([r o] & ->)|(x & ->)]; cbn [bind]; [|right; eexists; reflexivity].
    destruct (H0 r) as [([r' os] & ->)|(x & ->)]; cbn [bind]; [left|right]; eexists; reflexivity.
Qed.

(** Whatever the type and the input. *)
Theorem C98_returns : forall L e i, returns (reader (ber_kit L) e i) /\ returns (reader (der_kit L) e i).
Proof. intros L e i. split; [exact (proj1 (reader_total L false) e i)|exact (proj1 (reader_total L true) e i)]. Qed.
Print Assumptions C98_returns.

(** ** Exactness *)

Lemma an_element_ok der h c bs r : an_element der h c bs -> bytes_ok (bs ++ r) -> bytes_ok c /\ element 50 h c bs.
Proof.
  intros He Hok. apply bytes_ok_app in Hok as [Hok _].
  assert (H : element 50 h c bs) by (destruct der; [now apply definite_is_element|exact He]).
  split; [|exact H]. eapply subslice_ok; [eapply element_content_sub, H|exact Hok].
Qed.

Lemma splits_pieces (f : bytes -> iresult berror obj) P c os : nom_parser f ->
  (forall i r o, bytes_ok i -> f i = Ok (r, o) <-> P i r o) -> bytes_ok c ->
  (splits f c os <-> pieces P c os).
Proof.
  intros Hn HP Hok. split; intros H.
  - induction H as [|p rest v vs Hp Hf Hs IH]; [constructor|].
    econstructor; [apply HP; [exact Hok|exact Hf]| |apply IH; now apply bytes_ok_app in Hok].
    rewrite app_length. destruct p; [congruence|cbn [length]; lia].
  - induction H as [|c rest o os Hc Hl Hs IH]; [constructor|].
    apply HP in Hc; [|exact Hok]. destruct (Hn _ _ _ Hc) as (p & ->).
    apply splits_cons; [|exact Hc|apply IH; now apply bytes_ok_app in Hok].
    intros ->. cbn in Hl. lia.
Qed.

Lemma made_header_eq t : made_header t = universal_header t. Proof. reflexivity. Qed.

Lemma defined_iff L der fs t (k : list obj -> content) i r o :
  (t = 16 /\ k = CSequence \/ t = 17 /\ k = CSet) -> bytes_ok i ->
  ((if t =? 16 then k_sequence (kit_of L der) else k_set (kit_of L der)) (read_fields (kit_of L der) fs) i = Ok (r, o)
   <-> exists bs h c rest os, i = bs ++ r /\ an_element der h c bs /\ h_tag h = t
         /\ read_fields (kit_of L der) fs c = Ok (rest, os) /\ o = Obj (made_header t) (k os)).
Proof.
  intros Ht Hok.
  assert (Ha : forall h t', (exists u, map_err (err_into ber_ops) (assert_tag h t') = Ok u) <-> h_tag h = t').
  { intros h t'. unfold assert_tag. destruct (h_tag h =? t') eqn:E; cbn [map_err]; split; intros H;
      [lia|eauto|destruct H; discriminate|lia]. }
  destruct Ht as [(-> & ->)|(-> & ->)]; destruct der; cbn;
    unfold parse_ber_sequence_defined, parse_ber_set_defined, parse_der_sequence_defined, parse_der_set_defined;
    rewrite nom_map_ok;
    unfold parse_ber_sequence_defined_g, parse_ber_set_defined_g, parse_der_sequence_defined_g, parse_der_set_defined_g.
  all: split; [intros (os & H & ->); first [apply der_container_iff in H; [|exact Hok]|apply ber_container_iff in H; [|exact Hok]];
      destruct H as (h & c & bs & u & -> & He & H); bind_inv H; exists bs, h, c, u, os; repeat split; auto;
      apply Ha; eauto
    |intros (bs & h & c & rest & os & -> & He & Hh & Hf & ->); exists os; split; [|reflexivity];
     first [apply der_container_iff; [exact Hok|]|apply ber_container_iff; [exact Hok|]];
     exists h, c, bs, rest; repeat split; auto; unfold assert_tag; rewrite Hh; exact Hf].
Qed.

Lemma element_definite h c bs n : element 50 h c bs -> h_length h = Definite n -> n = N.of_nat (length c).
Proof.
  intros (hb & b & -> & _ & Hb & ->) Hl. unfold content_octets. rewrite Hl.
  inversion Hb; congruence.
Qed.

Lemma contents_exact L der u h c bs k : bytes_ok c -> an_element der h c bs ->
  ((exists x, k_content (kit_of L der) u c h 50%nat = Ok (x, k)) <-> implicit_contents L der u h c k).
Proof.
  intros Hok He. unfold implicit_contents, contents_as, taken_as. destruct der; cbn in He |- *.
  - destruct He as (hb & _ & _ & Hl). rewrite Hl. split.
    + intros (x & H). split; [discriminate|].
      apply C70_der_content in H as (c' & E & Hl' & Hn & Hc & Hb & Hv); [|exact Hok|lia].
      rewrite Hl in Hl', Hv. injection Hl' as Hl'.
      assert (x = []) as ->.
      { apply length_zero_iff_nil. apply (f_equal (@length N)) in E. rewrite app_length in E. lia. }
      rewrite app_nil_r in E. subst c'. auto.
    + intros (_ & (Hn & Hc & Hb) & Hv). exists []. apply C70_der_content; [exact Hok|lia|]. exists c.
      rewrite app_nil_r, Hl. auto 6.
  - pose proof (element_definite h c bs) as Hd. specialize (fun n => Hd n He). split.
    + intros (x & H). apply C70_ber_content in H as (b & -> & Hb & Hn & Hv); [|exact Hok].
      destruct (h_length h) as [n|] eqn:El.
      * specialize (Hd n eq_refl). inversion Hb as [d0 h0 m b0 Hm Em|d0 h0 b0 Hm Hc]; [|discriminate].
        cbn in Hm. injection Hm as Hm.
        assert (x = []) as -> by (apply length_zero_iff_nil; rewrite app_length in Hd; lia).
        rewrite app_nil_r. split; [discriminate|auto].
      * exfalso. destruct He as (hb & b1 & _ & _ & Hb1 & E). unfold content_octets in E. rewrite El in E.
        inversion Hb1 as [d0 h0 m b0 Hm Em|d0 h0 b0 Hm Hc Hu1]; [congruence|].
        inversion Hb as [d2 h2 m2 b2 Hm2 Em2|d2 h2 b2 Hm2 Hc2 Hu2]; [discriminate|]. subst d0 h0 b0 d2 h2 b2.
        exact (stripped_has_no_end _ _ _ _ Hu1 Hu2 (eq_sym E)).
    + intros H. destruct (h_length h) as [n|] eqn:El.
      * exists []. apply C70_ber_content; [exact Hok|]. exists c. rewrite app_nil_r, El. destruct H as (_ & Hn & Hv).
        split; [reflexivity|]. split; [|split; assumption]. eapply body_definite; [reflexivity|]. symmetry. now apply Hd.
      * now destruct H.
Qed.

Lemma value_exact L der t i r o : bytes_ok i ->
  (reader (kit_of L der) (TValue t) i = Ok (r, o) <-> accepted L der (TValue t) i r o).
Proof.
  intros Hok. cbn [reader accepted]. unfold contents_as.
  assert (Hu : forall h, h_tag h = t -> as_universal h = taken_as t h) by (intros h <-; reflexivity).
  destruct der; cbn.
  - rewrite der_with_tag_exact by exact Hok. split.
    + intros (bs & c & -> & He & Ht & Hn & Hc & Hb & Hv). destruct o as [h k]. exists bs, h, c, k.
      cbn in *. rewrite <- (Hu _ Ht). auto 9.
    + intros (bs & h & c & k & -> & He & Ht & ((Hn & Hc & Hb) & Hv) & ->). exists bs, c. cbn.
      rewrite (Hu _ Ht). auto 9.
  - rewrite with_tag_exact by exact Hok. split.
    + intros (bs & c & -> & He & Ht & Hn & Hv). destruct o as [h k]. exists bs, h, c, k.
      cbn in *. rewrite <- (Hu _ Ht). auto 9.
    + intros (bs & h & c & k & -> & He & Ht & (Hn & Hv) & ->). exists bs, c. cbn.
      rewrite (Hu _ Ht). auto 9.
Qed.

(** What is accepted starts with an element of one of the type's tag numbers. *)
Lemma accepted_starts L der e i r o : accepted L der e i r o ->
  exists bs h c, i = bs ++ r /\ an_element der h c bs /\ In (h_tag h) (ty_tags e).
Proof.
  unfold ty_tags. induction e; cbn [alternatives map ty_tag].
  9: { intros [H|H]; [apply IHe1 in H|apply IHe2 in H]; destruct H as (bs & h & c & E & He & Ht); exists bs, h, c;
       rewrite map_app, in_app_iff; auto. }
  all: intros (bs & h & c & H);
    repeat match goal with H : exists _, _ |- _ => destruct H | H : _ /\ _ |- _ => destruct H end;
    exists bs, h, c; repeat split; auto; left; auto.
Qed.

Lemma reader_exact L der :
  (forall e i r o, distinct e -> bytes_ok i -> reader (kit_of L der) e i = Ok (r, o) <-> accepted L der e i r o)
  /\ (forall fs i r os, distinct_fields fs -> bytes_ok i -> read_fields (kit_of L der) fs i = Ok (r, os) <-> accepted_fields L der fs i r os).
Proof.
  apply ty_fields_ind.
  - intros t i r o _. apply value_exact.
  - intros fs IH i r o Hdi Hok. cbn [distinct] in Hdi. cbn [reader accepted].
    rewrite (defined_iff L der fs 16 CSequence i r o (or_introl (conj eq_refl eq_refl)) Hok).
    split; intros (bs & h & c & rest & os & -> & He & Ht & Hf & ->); exists bs, h, c, rest, os;
      destruct (an_element_ok _ _ _ _ _ He Hok) as [Hc _]; apply IH in Hf; auto 7.
  - intros e IH i r o Hdi Hok. cbn [distinct] in Hdi. cbn [reader accepted].
    destruct (C32_objects_partial _ i r o Hok (proj1 (reader_suffix L der) e)) as (H1 & _ & H2 & _).
    assert (H : k_sequence_of (kit_of L der) (reader (kit_of L der) e) i = Ok (r, o)
      <-> exists h c bs l, i = bs ++ r /\ an_element der h c bs /\ h_tag h = 16 /\ splits (reader (kit_of L der) e) c l
         /\ o = Obj (made_header 16) (CSequence l)).
    { pose proof (reader_empty L der e). destruct der; [refine (iff_trans H2 _)|refine (iff_trans H1 _)]; tauto. }
    rewrite H. split.
    + intros (h & c & bs & l & -> & He & Ht & Hs & ->). exists bs, h, c, l.
      apply (splits_pieces _ (accepted L der e)) in Hs; [auto 6|apply reader_suffix|auto|now apply (an_element_ok _ _ _ _ _ He) in Hok].
    + intros (bs & h & c & l & -> & He & Ht & Hs & ->). exists h, c, bs, l.
      apply (splits_pieces (reader (kit_of L der) e)) in Hs; [auto 6|apply reader_suffix|auto|now apply (an_element_ok _ _ _ _ _ He) in Hok].
  - intros e IH i r o Hdi Hok. cbn [distinct] in Hdi. cbn [reader accepted].
    destruct (C32_objects_partial _ i r o Hok (proj1 (reader_suffix L der) e)) as (_ & H1 & _ & H2).
    assert (H : k_set_of (kit_of L der) (reader (kit_of L der) e) i = Ok (r, o)
      <-> exists h c bs l, i = bs ++ r /\ an_element der h c bs /\ h_tag h = 17 /\ splits (reader (kit_of L der) e) c l
         /\ o = Obj (made_header 17) (CSet l)).
    { pose proof (reader_empty L der e). destruct der; [refine (iff_trans H2 _)|refine (iff_trans H1 _)]; tauto. }
    rewrite H. split.
    + intros (h & c & bs & l & -> & He & Ht & Hs & ->). exists bs, h, c, l.
      apply (splits_pieces _ (accepted L der e)) in Hs; [auto 6|apply reader_suffix|auto|now apply (an_element_ok _ _ _ _ _ He) in Hok].
    + intros (bs & h & c & l & -> & He & Ht & Hs & ->). exists h, c, bs, l.
      apply (splits_pieces (reader (kit_of L der) e)) in Hs; [auto 6|apply reader_suffix|auto|now apply (an_element_ok _ _ _ _ _ He) in Hok].
  - intros fs IH i r o Hdi Hok. cbn [distinct] in Hdi. cbn [reader accepted].
    rewrite (defined_iff L der fs 17 CSet i r o (or_intror (conj eq_refl eq_refl)) Hok).
    split; intros (bs & h & c & rest & os & -> & He & Ht & Hf & ->); exists bs, h, c, rest, os;
      destruct (an_element_ok _ _ _ _ _ He Hok) as [Hc _]; apply IH in Hf; auto 7.
  - intros cl t e IH i r o Hdi Hok. cbn [distinct] in Hdi. cbn [reader accepted].
    assert (H : k_explicit (kit_of L der) t (reader (kit_of L der) e) i = Ok (r, o)
      <-> exists h c bs u inner, i = bs ++ r /\ an_element der h c bs
         /\ h_class h <> Universal /\ h_tag h = t /\ h_constructed h = true
         /\ reader (kit_of L der) e c = Ok (u, inner) /\ o = Obj h (CTagged (h_class h) t inner)).
    { destruct (C30_objects t (reader (kit_of L der) e) i r o Hok) as [H1 H2]. destruct der; assumption. }
    rewrite H. split.
    + intros (h & c & bs & u & x & -> & He & Hcl & Ht & Hcs & Hf & ->). exists bs, h, c, u, x.
      destruct (an_element_ok _ _ _ _ _ He Hok) as [Hc _]; apply IH in Hf; auto 8.
    + intros (bs & h & c & u & x & -> & He & Hcl & Ht & Hcs & Hf & ->). exists h, c, bs, u, x.
      destruct (an_element_ok _ _ _ _ _ He Hok) as [Hc _]; apply IH in Hf; auto 8.
  - intros cl t u i r o _ Hok. cbn [reader accepted].
    assert (H : k_implicit (kit_of L der) t (k_content (kit_of L der) u) i = Ok (r, o)
      <-> exists h c bs x k, i = bs ++ r /\ an_element der h c bs /\ h_tag h = t
         /\ k_content (kit_of L der) u c h 50%nat = Ok (x, k) /\ o = Obj h k).
    { destruct (C31_objects t (k_content (kit_of L der) u) i r o Hok) as (H1 & H2 & _). destruct der; assumption. }
    rewrite H. split.
    + intros (h & c & bs & x & k & -> & He & Ht & Hf & ->). exists bs, h, c, k.
      destruct (an_element_ok _ _ _ _ _ He Hok) as [Hc _].
      refine (conj eq_refl (conj He (conj Ht (conj _ eq_refl)))).
      apply (contents_exact L der u h c bs k Hc He). eauto.
    + intros (bs & h & c & k & -> & He & Ht & Hf & ->).
      destruct (an_element_ok _ _ _ _ _ He Hok) as [Hc _].
      apply (contents_exact L der u h c bs k Hc He) in Hf as (x & Hf). exists h, c, bs, x, k. auto 6.
  - intros cl t fs IH i r o Hdi Hok. cbn [distinct] in Hdi. cbn [reader accepted].
    set (f := fun (c : bytes) (_ : header) (_ : nat) => _).
    assert (H : k_implicit (kit_of L der) t f i = Ok (r, o)
      <-> exists h c bs x k, i = bs ++ r /\ an_element der h c bs /\ h_tag h = t
         /\ f c h 50%nat = Ok (x, k) /\ o = Obj h k).
    { destruct (C31_objects t f i r o Hok) as (H1 & H2 & _). destruct der; assumption. }
    rewrite H. subst f. cbv beta. split.
    + intros (h & c & bs & x & k & -> & He & Ht & Hf & ->). bind_inv Hf. destruct a as [rest os].
      injection Hf as <- <-. destruct (an_element_ok _ _ _ _ _ He Hok) as [Hc _].
      exists bs, h, c, rest, os. repeat split; auto. apply IH; auto.
    + intros (bs & h & c & rest & os & -> & He & Ht & Hf & ->).
      destruct (an_element_ok _ _ _ _ _ He Hok) as [Hc _]. apply IH in Hf; [|exact Hdi|exact Hc].
      exists h, c, bs, rest, (CSequence os). rewrite Hf. auto 6.
  - intros e1 IH1 e2 IH2 i r o (Hd1 & Hd2 & Hap) Hok. cbn [reader accepted nom_alt].
    rewrite <- (IH1 _ _ _ Hd1 Hok). rewrite <- (IH2 _ _ _ Hd2 Hok). split.
    + destruct (reader (kit_of L der) e1 i) as [[m x]|[]| |]; try discriminate; auto.
      destruct (reader (kit_of L der) e2 i) as [[m x]|[]| |]; try discriminate; auto.
    + intros [->|E2]; [reflexivity|].
      pose proof E2 as Ha. apply IH2 in Ha; [|exact Hd2|exact Hok].
      apply accepted_starts in Ha as (bs & h & c & -> & He & Ht).
      destruct (reader_other L der e1 h c bs r He) as (x & ->); [intros H1; exact (Hap _ H1 Ht)|].
      now rewrite E2.
  - intros i r os _ Hok. cbn. split; [intros H; inv H; auto|intros [-> ->]; reflexivity].
  - intros optional e IHe fs IHf i r os (Hde & Hdf) Hok.
    assert (Hrest : forall m o, reader (kit_of L der) e i = Ok (m, o) -> bytes_ok m).
    { intros m o H. apply (proj1 (reader_suffix L der) e) in H as (p & ->). now apply bytes_ok_app in Hok. }
    cbn [read_fields accepted_fields]. destruct optional.
    + unfold parse_ber_optional. pose proof (proj1 (reader_total L der) e i) as Ht. split.
      * intros H. destruct (reader (kit_of L der) e i) as [[m o]|x| |] eqn:E;
          [| |destruct Ht as [(? & ?)|(? & ?)]; discriminate..]; cbn [bind] in H.
        -- left. bind_inv H. destruct a as [r' os']. injection H as <- <-. exists m, o, os'.
           split; [apply IHe; auto|]. split; [apply IHf; eauto|reflexivity].
        -- right. split.
           ++ intros m o Ha. apply IHe in Ha; [congruence|exact Hde|exact Hok].
           ++ bind_inv H. destruct a as [r' os']. injection H as <- <-. exists os'. split; [apply IHf; auto|reflexivity].
      * intros [(m & o & os' & Ha & Hf & ->)|(Ha & os' & Hf & ->)].
        -- apply IHe in Ha; [|exact Hde|exact Hok]. rewrite Ha. cbn [bind]. apply IHf in Hf; [|exact Hdf|eauto]. rewrite Hf. reflexivity.
        -- destruct (reader (kit_of L der) e i) as [[m o]|x| |] eqn:E;
          [apply IHe in E; [now apply Ha in E|exact Hde|exact Hok]| |destruct Ht as [(? & ?)|(? & ?)]; discriminate..].
          cbn [bind]. apply IHf in Hf; [|exact Hdf|exact Hok]. rewrite Hf. reflexivity.
    + split.
      * intros H. bind_inv H. destruct a as [m o]. bind_inv H. destruct a as [r' os']. injection H as <- <-.
        exists m, o, os'. split; [apply IHe; auto|]. split; [apply IHf; eauto|reflexivity].
      * intros (m & o & os' & Ha & Hf & ->). apply IHe in Ha; [|exact Hde|exact Hok]. rewrite Ha. cbn [bind].
        apply IHf in Hf; [|exact Hdf|eauto]. rewrite Hf. reflexivity.
Qed.

(** A composed parser accepts an input with a remainder and a result if and only
    if these are in the relation of SpecAccept.  The alternatives of a CHOICE have to
    have distinct tag numbers (see C100). *)
Theorem C98_exact : forall L e i r o, distinct e -> bytes_ok i ->
  (reader (ber_kit L) e i = Ok (r, o) <-> accepted L false e i r o)
  /\ (reader (der_kit L) e i = Ok (r, o) <-> accepted L true e i r o).
Proof. intros L e i r o Hd H. split; [exact (proj1 (reader_exact L false) e i r o Hd H)|exact (proj1 (reader_exact L true) e i r o Hd H)]. Qed.
Print Assumptions C98_exact.

(** ** Shape *)

Lemma value_variant L d h c k : h_class h = Universal -> value L d h c k -> variant (h_tag h) k.
Proof.
  intros Hc H. inversion H; try congruence; subst;
    try match goal with Ht : h_tag h = _ |- _ => rewrite Ht end; try (cbn; eauto; fail).
  - assert (Hx : exists a, CUnknown (mkAny h c) = CUnknown a /\ h_tag (a_header a) = h_tag h) by (eexists; split; reflexivity).
    match goal with Hn : ~ In _ _ |- _ => revert Hn Hx end. generalize (h_tag h). clear. intros t Hn Hx.
    unfold mapped_tags in Hn. cbn [In] in Hn.
    unfold variant. repeat match goal with |- context [match ?x with _ => _ end] => destruct x; try assumption end; exfalso; apply Hn; auto 30.
  - destruct k0; cbn; eauto.
Qed.

Lemma contents_variant L der u h c k : implicit_contents L der u h c k -> variant u k.
Proof.
  intros (_ & _ & H). exact (value_variant _ _ (taken_as u h) _ _ eq_refl H).
Qed.

Lemma pieces_forall (P : bytes -> bytes -> obj -> Prop) (Q : obj -> Prop) c os : (forall i r o, P i r o -> Q o) -> pieces P c os -> Forall Q os.
Proof. intros H. induction 1; constructor; eauto. Qed.

Lemma accepted_shaped L der :
  (forall e i r o, accepted L der e i r o -> shaped e o)
  /\ (forall fs i r os, accepted_fields L der fs i r os -> shaped_fields fs os).
Proof.
  apply ty_fields_ind.
  - intros t i r o (bs & h & c & k & -> & He & Ht & (_ & Hv) & ->). split; [exact Ht|].
    exact (value_variant _ _ (taken_as t h) _ _ eq_refl Hv).
  - intros fs IH i r o (bs & h & c & rest & os & -> & He & Ht & Hf & ->). exists os. split; [reflexivity|eauto].
  - intros e IH i r o (bs & h & c & os & -> & He & Ht & Hf & ->). exists os. split; [reflexivity|].
    eapply pieces_forall; eauto.
  - intros e IH i r o (bs & h & c & os & -> & He & Ht & Hf & ->). exists os. split; [reflexivity|].
    eapply pieces_forall; eauto.
  - intros fs IH i r o (bs & h & c & rest & os & -> & He & Ht & Hf & ->). exists os. split; [reflexivity|eauto].
  - intros cl t e IH i r o (bs & h & c & rest & x & -> & He & Hcl & Ht & Hc & Hf & ->).
    exists (h_class h), x. cbn. eauto 8.
  - intros cl t u i r o (bs & h & c & k & -> & He & Ht & Hk & ->). split; [exact Ht|].
    exact (contents_variant _ _ _ _ _ _ Hk).
  - intros cl t fs IH i r o (bs & h & c & rest & os & -> & He & Ht & Hf & ->). split; [exact Ht|].
    exists os. split; [reflexivity|eauto].
  - intros e1 IH1 e2 IH2 i r o [H|H]; [left|right]; eauto.
  - intros i r os [_ ->]. exact I.
  - intros [] e IHe fs IHf i r os; cbn [accepted_fields].
    + intros [(m & o & os' & Ha & Hf & ->)|(_ & os' & Hf & ->)]; (split; [|eauto]).
      * exists (Some o). split; [reflexivity|eauto].
      * exists None. split; [reflexivity|exact I].
    + intros (m & o & os' & Ha & Hf & ->). split; eauto.
Qed.

(** Whatever bytes are given, a result has the shape of its type: the number of
    components, the variant of each, the tag numbers. *)
Theorem C98_shape : forall L e i r o, distinct e -> bytes_ok i ->
  reader (ber_kit L) e i = Ok (r, o) \/ reader (der_kit L) e i = Ok (r, o) -> shaped e o.
Proof.
  intros L e i r o Hd Hok [H|H]; apply C98_exact in H; try exact Hok; try exact Hd; eapply accepted_shaped; exact H.
Qed.
Print Assumptions C98_shape.

(** ** The DER parser of a type and the BER parser of the same type *)

Lemma accepted_suffix L der :
  (forall e i r o, accepted L der e i r o -> exists p, i = p ++ r)
  /\ (forall fs i r os, accepted_fields L der fs i r os -> exists p, i = p ++ r).
Proof.
  apply ty_fields_ind.
  - intros t i r o (bs & h & c & k & -> & _). eauto.
  - intros fs IH i r o (bs & h & c & rest & os & -> & _). eauto.
  - intros e IH i r o (bs & h & c & os & -> & _). eauto.
  - intros e IH i r o (bs & h & c & os & -> & _). eauto.
  - intros fs IH i r o (bs & h & c & rest & os & -> & _). eauto.
  - intros cl t e IH i r o (bs & h & c & rest & x & -> & _). eauto.
  - intros cl t u i r o (bs & h & c & k & -> & _). eauto.
  - intros cl t fs IH i r o (bs & h & c & rest & os & -> & _). eauto.
  - intros e1 IH1 e2 IH2 i r o [H|H]; eauto.
  - intros i r os [-> _]. exists []. reflexivity.
  - intros [] e IHe fs IHf i r os; cbn [accepted_fields].
    + intros [(m & o & os' & Ha & Hf & ->)|(_ & os' & Hf & ->)]; [|eauto].
      apply IHe in Ha as (p & ->). apply IHf in Hf as (q & ->). exists (p ++ q)%list. now rewrite app_assoc.
    + intros (m & o & os' & Ha & Hf & ->).
      apply IHe in Ha as (p & ->). apply IHf in Hf as (q & ->). exists (p ++ q)%list. now rewrite app_assoc.
Qed.

Definition short (i : bytes) : Prop := N.of_nat (length i) <= 4294967295.

Lemma short_app a b : short (a ++ b) -> short a /\ short b.
Proof. unfold short. rewrite app_length. lia. Qed.

Lemma short_content h c bs r : definite_element h c bs -> short (bs ++ r) -> short c /\ element 50 h c bs.
Proof.
  intros He Hs. split; [|now apply definite_is_element].
  destruct He as (hb & -> & _). rewrite <- app_assoc in Hs. now apply short_app in Hs as [_ Hs%short_app].
Qed.

Lemma pieces_impl (P Q : bytes -> bytes -> obj -> Prop) c os : short c ->
  (forall i r o, short i -> P i r o -> Q i r o) -> pieces P c os -> pieces Q c os.
Proof.
  intros Hs H. induction 1 as [|c rest o os Hp Hl _ IH]; [constructor|].
  econstructor; [apply H; eassumption|exact Hl|]. apply IH. unfold short in *. lia.
Qed.

Lemma contents_der_ber L u h c k : short c -> h_length h = Definite (N.of_nat (length c)) ->
  contents_as L true u h c k -> contents_as L false u h c k.
Proof.
  intros Hs Hl (_ & Hv). split; [|exact Hv]. intros n Hn. rewrite Hl in Hn. injection Hn as <-. exact Hs.
Qed.

Lemma accepted_der_ber L :
  (forall e i r o, mandatory e -> short i -> accepted L true e i r o -> accepted L false e i r o)
  /\ (forall fs i r os, mandatory_fields fs -> short i -> accepted_fields L true fs i r os -> accepted_fields L false fs i r os).
Proof.
  apply ty_fields_ind.
  - intros t i r o _ Hs (bs & h & c & k & -> & He & Ht & Hk & ->).
    destruct (short_content _ _ _ _ He Hs) as [Hs' He']. exists bs, h, c, k.
    refine (conj eq_refl (conj He' (conj Ht (conj _ eq_refl)))).
    destruct He as (_ & _ & _ & Hl). now apply contents_der_ber.
  - intros fs IH i r o Hm Hs (bs & h & c & rest & os & -> & He & Ht & Hf & ->).
    destruct (short_content _ _ _ _ He Hs) as [Hs' He']. exists bs, h, c, rest, os. auto 8.
  - intros e IH i r o Hm Hs (bs & h & c & os & -> & He & Ht & Hf & ->).
    destruct (short_content _ _ _ _ He Hs) as [Hs' He']. exists bs, h, c, os. repeat split; auto.
    eapply pieces_impl; [exact Hs'| |exact Hf]. intros; apply IH; auto.
  - intros e IH i r o Hm Hs (bs & h & c & os & -> & He & Ht & Hf & ->).
    destruct (short_content _ _ _ _ He Hs) as [Hs' He']. exists bs, h, c, os. repeat split; auto.
    eapply pieces_impl; [exact Hs'| |exact Hf]. intros; apply IH; auto.
  - intros fs IH i r o Hm Hs (bs & h & c & rest & os & -> & He & Ht & Hf & ->).
    destruct (short_content _ _ _ _ He Hs) as [Hs' He']. exists bs, h, c, rest, os. auto 8.
  - intros cl t e IH i r o Hm Hs (bs & h & c & rest & x & -> & He & Hcl & Ht & Hc & Hf & ->).
    destruct (short_content _ _ _ _ He Hs) as [Hs' He']. exists bs, h, c, rest, x. auto 8.
  - intros cl t u i r o _ Hs (bs & h & c & k & -> & He & Ht & Hk & ->).
    destruct (short_content _ _ _ _ He Hs) as [Hs' He']. exists bs, h, c, k.
    refine (conj eq_refl (conj He' (conj Ht (conj _ eq_refl)))).
    destruct He as (_ & _ & _ & Hl). destruct Hk as [Hn Hk]. split; [exact Hn|]. now apply contents_der_ber.
  - intros cl t fs IH i r o Hm Hs (bs & h & c & rest & os & -> & He & Ht & Hf & ->).
    destruct (short_content _ _ _ _ He Hs) as [Hs' He']. exists bs, h, c, rest, os. auto 8.
  - intros e1 IH1 e2 IH2 i r o (Hm1 & Hm2) Hs [H|H]; [left|right]; auto.
  - auto.
  - intros optional e IHe fs IHf i r os (-> & Hm & Hms) Hs (m & o & os' & Ha & Hf & ->).
    exists m, o, os'. split; [auto|]. split; [|reflexivity]. apply IHf; [exact Hms| |exact Hf].
    apply accepted_suffix in Ha as (p & ->). now apply short_app in Hs.
Qed.

(** Types without OPTIONAL components: what the DER parser accepts the BER parser
    accepts, with the same result and remainder.  Missing: OPTIONAL components
    (see C99_refuted, and C99_optional in PropOptional.v) and inputs of 2^32 octets and
    more (see C49). *)
Theorem C99_partial : forall L e i r o, bytes_ok i -> distinct e -> mandatory e -> N.of_nat (length i) <= 4294967295 ->
  reader (der_kit L) e i = Ok (r, o) -> reader (ber_kit L) e i = Ok (r, o).
Proof.
  intros L e i r o Hok Hd Hm Hs H. apply C98_exact in H; [|exact Hd|exact Hok]. apply C98_exact; [exact Hd|exact Hok|].
  now apply accepted_der_ber.
Qed.
Print Assumptions C99_partial.

(** False in general: SEQUENCE { a BOOLEAN OPTIONAL } with the content octet 05.
    The DER parser takes the component as absent, the BER parser as TRUE. *)
Theorem C99_refuted : forall L, exists e i r o o', proper e /\ bytes_ok i
  /\ reader (der_kit L) e i = Ok (r, o) /\ reader (ber_kit L) e i = Ok (r, o') /\ o <> o'.
Proof.
  intros L. exists (TSequence (FCons true (TValue 1) FNil)), [48; 3; 1; 1; 5].
  do 3 eexists. split; [is_proper|]. split; [repeat constructor; lia|].
  split; [vm_compute; reflexivity|]. split; [vm_compute; reflexivity|]. discriminate.
Qed.
Print Assumptions C99_refuted.

(** SEQUENCE { a BOOLEAN OPTIONAL, b SEQUENCE OF INTEGER, c [0] EXPLICIT OCTET STRING }.
    The parsers accept an encoding in which [a] is absent, [c] has the application
    class, is followed by an octet FF inside its tag and by another inside the
    SEQUENCE; not one in which an element of [b] is cut off. *)
Example C98_ex :
  let e := TSequence (FCons true (TValue 1) (FCons false (TSequenceOf (TValue 2))
             (FCons false (TExplicit ContextSpecific 0 (TValue 4)) FNil))) in
  let i := [48; 15; 48; 6; 2; 1; 5; 2; 1; 7; 96; 4; 4; 1; 9; 255; 255; 170] in
  (exists o, accepted SL false e i [170] o /\ accepted SL true e i [170] o /\ shaped e o)
  /\ (forall r o, ~ accepted SL false e [48; 7; 48; 3; 2; 2; 5; 128; 0] r o)
  /\ returns (reader (ber_kit SL) e i).
Proof.
  cbv zeta. split; [|split].
  - assert (Hb : bytes_ok [48; 15; 48; 6; 2; 1; 5; 2; 1; 7; 96; 4; 4; 1; 9; 255; 255; 170]) by (repeat constructor; lia).
    eexists. split; [apply C98_exact; [cbn; tauto|exact Hb|vm_compute; reflexivity]|].
    split; [apply C98_exact; [cbn; tauto|exact Hb|vm_compute; reflexivity]|].
    eapply (C98_shape SL _ _ [170]); [cbn; tauto|exact Hb|left; vm_compute; reflexivity].
  - intros r o H. apply C98_exact in H; [|cbn; tauto|repeat constructor; lia]. vm_compute in H. discriminate.
  - exact (proj1 (C98_returns _ _ _)).
Qed.

(** SET OF [1] IMPLICIT BOOLEAN with an element that is TRUE: both parsers. *)
Example C99_ex : exists o, reader (der_kit SL) (TSetOf (TImplicit ContextSpecific 1 1)) [49; 3; 129; 1; 255; 7] = Ok ([7], o)
  /\ mandatory (TSetOf (TImplicit ContextSpecific 1 1))
  /\ reader (ber_kit SL) (TSetOf (TImplicit ContextSpecific 1 1)) [49; 3; 129; 1; 255; 7] = Ok ([7], o).
Proof.
  eexists. split; [vm_compute; reflexivity|]. split; [exact I|].
  apply C99_partial; [repeat constructor; lia|exact I|exact I|cbn; lia|vm_compute; reflexivity].
Qed.
