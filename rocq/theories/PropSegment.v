(** * C113: what becomes of strings split into segments *)

From Coq Require Import String.
From Verif Require Import Base Asn1rs Ber Der Conformance Spec SpecValue SpecComb SpecOid SpecAbstract SpecSegment SpecError.
From Verif Require Import LemBase LemHeader LemSkip LemParse LemDer LemText LemTree LemNode LemComb LemFrame LemVariant LemAbstract.
From Verif Require Import LemInt PropFraming PropDer PropInt PropAbstract PropError.
Local Open Scope string_scope. Local Open Scope N_scope. Local Open Scope list_scope.

Scheme seen_mind := Induction for seen Sort Prop
with seen_all_mind := Induction for seen_all Sort Prop.
Combined Scheme seen_all_ind2 from seen_mind, seen_all_mind.
Scheme split_mind := Induction for split_text Sort Prop
with splits_mind := Induction for split_texts Sort Prop.
Combined Scheme split_all_ind from split_mind, splits_mind.
Scheme whole_mind := Induction for whole Sort Prop
with whole_all_mind := Induction for whole_all Sort Prop.
Combined Scheme whole_all_ind2 from whole_mind, whole_all_mind.

(** ** The cases of the specification *)

Lemma joins_supported v parts : joins v parts -> Forall supported parts.
Proof.
  intros H; inv H; apply Forall_forall; intros x Hx; apply in_map_iff in Hx as (y & <- & _); now apply sup_other.
Qed.

Lemma joins_tag v parts : joins v parts -> 0 < value_tag v < 31.
Proof. intros H; inv H; cbn; try lia. destruct k; cbn; lia. Qed.

(** Every basic encoding is an element. *)
Lemma encodes_shape :
  (forall n v bs, encodes SpecAbstract.Ber n v bs -> supported v ->
     bytes_ok bs /\ exists h c, element (S n) h c bs /\ ~ ends_contents h)
  /\ (forall n l c, encode_all SpecAbstract.Ber n l c -> Forall supported l ->
     bytes_ok c /\ until_eoc (S n) (c ++ [0; 0])).
Proof.
  apply encodes_all_ind.
  - intros n v c lb Hc [Hl _] _. pose proof (contents_not_explicit _ _ _ Hc) as Hne.
    pose proof (value_tag_lt v Hne) as Ht. pose proof (contents_ok _ _ _ Hc) as Hok. split.
    { constructor; [apply leading_ok; lia|]. apply bytes_ok_app. split; [eapply length_ok; eauto|exact Hok]. }
    set (ib := [leading_octet Universal false (value_tag v)]).
    exists (mkHeader Universal false (value_tag v) (Definite (N.of_nat (length c))) (Some ib)), c.
    split; [|intros [E _]; cbn in E; lia].
    exists (ib ++ lb), c. split; [reflexivity|]. split; [|split; [|reflexivity]].
    + exists ib, lb. cbn. repeat split; auto; try discriminate. apply ident_low. lia.
    + eapply body_definite; reflexivity.
  - intros n l c bs Hl IH Hw Hs.
    assert (Hsl : Forall supported l) by (inv Hs; [assumption|contradiction]).
    destruct (IH Hsl) as [Hok Hu].
    destruct (wrapped_element _ n _ _ _ _ Hw ltac:(lia) Hok Hu) as (h & He & Hb & H1 & H2 & H3 & _ & _).
    split; [exact Hb|]. exists h, c. split; [exact He|]. intros [E _]; lia.
  - intros n l c bs Hl IH Hw Hs.
    assert (Hsl : Forall supported l) by (inv Hs; [assumption|contradiction]).
    destruct (IH Hsl) as [Hok Hu].
    destruct (wrapped_element _ n _ _ _ _ Hw ltac:(lia) Hok Hu) as (h & He & Hb & H1 & H2 & H3 & _ & _).
    split; [exact Hb|]. exists h, c. split; [exact He|]. intros [E _]; lia.
  - intros n cl t v c bs Hcl Hv IH Hw Hs.
    assert (Hsv : t < 2 ^ 32 /\ supported v) by (inv Hs; [auto|contradiction]). destruct Hsv as [Ht Hsv].
    destruct (IH Hsv) as (Hok & h' & c' & He' & Hne').
    assert (Hu : until_eoc (S n) (c ++ [0; 0])).
    { destruct He' as (hb & b & -> & Hh & Hb & _). rewrite <- app_assoc. eapply eoc_later; eauto.
      eapply (proj2 body_mono_mut); [apply eoc_octets|lia]. }
    destruct (wrapped_element _ n _ _ _ _ Hw Ht Hok Hu) as (h & He & Hb & H1 & H2 & H3 & H4 & _).
    split; [exact Hb|]. exists h, c. split; [exact He|].
    intros [_ E]. pose proof (encodes_len _ _ _ _ Hv). destruct H4 as [H4|H4]; rewrite H4 in E; [|discriminate].
    injection E as E. lia.
  - intros n v parts c bs _ Hj Hl IH Hw _. destruct (IH (joins_supported _ _ Hj)) as [Hok Hu].
    pose proof (joins_tag _ _ Hj) as Ht.
    destruct (wrapped_element _ n _ _ _ _ Hw ltac:(lia) Hok Hu) as (h & He & Hb & H1 & H2 & H3 & _ & _).
    split; [exact Hb|]. exists h, c. split; [exact He|]. intros [E _]; lia.
  - intros n _. split; [constructor|]. eapply (proj2 body_mono_mut); [apply eoc_octets|lia].
  - intros n v bs l rest Hv IHv Hl IHl Hs. inv Hs.
    destruct IHv as (Hok & h & c & He & Hne); auto. destruct IHl as (Hokr & Hu); auto.
    split; [apply bytes_ok_app; auto|].
    destruct He as (hb & b & -> & Hh & Hb & _). rewrite <- !app_assoc. eapply eoc_later; eauto.
Qed.

(** One way or the other. *)
Lemma seen_or_split :
  (forall n v bs, encodes SpecAbstract.Ber n v bs -> (exists v', seen n v bs v') \/ split_text n v bs)
  /\ (forall n l c, encode_all SpecAbstract.Ber n l c -> (exists l', seen_all n l c l') \/ split_texts n l c).
Proof.
  apply encodes_all_ind.
  - intros n v c lb Hc Hl. left. eexists. now apply seen_primitive.
  - intros n l c bs Hl [[l' H]|H] Hw; [left; eexists; eapply seen_sequence; eauto|right; eapply sp_sequence; eauto].
  - intros n l c bs Hl [[l' H]|H] Hw; [left; eexists; eapply seen_set; eauto|right; eapply sp_set; eauto].
  - intros n cl t v c bs Hcl Hv _ Hw. left. eexists. eapply seen_explicit; eauto.
  - intros n v parts c bs _ Hj Hl _ Hw. destruct Hj as [ss|ls l Hls|k chars ss Hk].
    + left. eexists. eapply seen_segments; eauto.
    + right. eapply sp_bits; eauto.
    + right. eapply sp_text; eauto.
  - intros n. left. eexists. apply sa_nil.
  - intros n v bs l rest Hv [[v' H]|H] Hl IHl; [|right; now apply st_here].
    destruct IHl as [[l' Hl']|Hl']; [left; eexists; eapply sa_cons; eauto|right; eapply st_later; eauto].
Qed.

Lemma seen_encodes :
  (forall n v bs v', seen n v bs v' -> encodes SpecAbstract.Ber n v bs)
  /\ (forall n l c l', seen_all n l c l' -> encode_all SpecAbstract.Ber n l c).
Proof.
  apply seen_all_ind2; intros.
  - now apply e_primitive.
  - eapply e_sequence; eauto.
  - eapply e_set; eauto.
  - eapply e_explicit; eauto.
  - eapply e_segmented; eauto. constructor.
  - constructor.
  - constructor; auto.
Qed.

Lemma split_encodes :
  (forall n v bs, split_text n v bs -> encodes SpecAbstract.Ber n v bs)
  /\ (forall n l c, split_texts n l c -> encode_all SpecAbstract.Ber n l c).
Proof.
  apply split_all_ind; intros.
  - eapply e_segmented; eauto. now constructor.
  - eapply e_segmented; eauto. now constructor.
  - eapply e_sequence; eauto.
  - eapply e_set; eauto.
  - constructor; auto.
  - constructor; auto. eapply (proj1 seen_encodes); eauto.
Qed.

Lemma whole_seen :
  (forall n v bs, whole n v bs -> seen n v bs v)
  /\ (forall n l c, whole_all n l c -> seen_all n l c l).
Proof.
  apply whole_all_ind2; intros.
  - now apply seen_primitive.
  - eapply seen_sequence; eauto.
  - eapply seen_set; eauto.
  - eapply seen_explicit; eauto.
  - apply (seen_segments n [] []); [constructor|assumption].
  - constructor.
  - constructor; auto.
Qed.

(** Segments take more room than what they carry. *)
Lemma wrapped_len ru cl t c bs : wrapped ru cl t c bs -> (length c + 2 <= length bs)%nat.
Proof.
  intros (ib & Hib & Hw).
  assert (Hi : (1 <= length ib)%nat) by (destruct Hib as [(_ & ->)|(_ & d & ds & _ & _ & _ & ->)]; cbn [length]; lia).
  destruct Hw as [(lb & (Hlb & _) & ->)|(_ & ->)]; rewrite !app_length; cbn [length].
  - assert (1 <= length lb)%nat by (inv Hlb; cbn [length]; lia). lia.
  - rewrite app_length. cbn [length]. lia.
Qed.

Lemma octets_longer :
  (forall n v bs, encodes SpecAbstract.Ber n v bs -> forall s, v = AOctetString s -> (length s + 2 <= length bs)%nat)
  /\ (forall n l c, encode_all SpecAbstract.Ber n l c -> forall ss, l = map AOctetString ss ->
        (length (concat ss) + 2 * length ss <= length c)%nat).
Proof.
  apply encodes_all_ind; try discriminate.
  - intros n v c lb Hc [Hl _] s ->. inv Hc. cbn [length]. rewrite app_length.
    assert (1 <= length lb)%nat by (inv Hl; cbn [length]; lia). lia.
  - intros n v parts c bs _ Hj Hl IH Hw s ->. inv Hj. specialize (IH _ eq_refl). apply wrapped_len in Hw. lia.
  - intros n ss Hs. destruct ss; [|discriminate]. cbn. lia.
  - intros n v bs l rest Hv IHv Hl IHl ss Hs. destruct ss as [|s ss]; [discriminate|]. cbn [map] in Hs. injection Hs as -> ->.
    specialize (IHv _ eq_refl). specialize (IHl _ eq_refl). cbn [concat length]. rewrite !app_length. lia.
Qed.

(** ** Reading *)

Lemma seen_value L : accepts_oids L ->
  (forall n v bs v', seen n v bs v' -> (n <= 49)%nat -> supported v ->
     bytes_ok bs /\ exists h c k, element (S n) h c bs /\ ~ ends_contents h /\ value L n h c k
       /\ denotes SpecAbstract.Ber (Obj h k) v' /\ (denotes SpecAbstract.Ber (Obj h k) v -> whole n v bs))
  /\ (forall n l c l', seen_all n l c l' -> (n <= 49)%nat -> Forall supported l ->
     bytes_ok c /\ until_eoc (S n) (c ++ [0; 0])
     /\ exists os, series L n c os /\ denote_all SpecAbstract.Ber os l'
          /\ (denote_all SpecAbstract.Ber os l -> whole_all n l c)).
Proof.
  intros HL. apply seen_all_ind2.
  - intros n v c lb Hc [Hl Hm] Hn Hs. pose proof (contents_not_explicit _ _ _ Hc) as Hne.
    pose proof (value_tag_lt v Hne) as Ht. pose proof (contents_ok _ _ _ Hc) as Hok. split.
    { constructor; [apply leading_ok; lia|]. apply bytes_ok_app. split; [eapply length_ok; eauto|exact Hok]. }
    set (ib := [leading_octet Universal false (value_tag v)]).
    set (h := mkHeader Universal false (value_tag v) (Definite (N.of_nat (length c))) (Some ib)).
    destruct (contents_value SpecAbstract.Ber L n h v c HL Hs Hc) as (k & Hv & Hd); try reflexivity.
    exists h, c, k. split; [|split; [|split; [exact Hv|split; [exact Hd|]]]].
    + exists (ib ++ lb), c. split; [reflexivity|]. split; [|split; [|reflexivity]].
      * exists ib, lb. cbn. repeat split; auto; try discriminate. apply ident_low. lia.
      * eapply body_definite; reflexivity.
    + intros [E _]. cbn in E. lia.
    + intros _. apply wh_primitive; [exact Hc|split; auto].
  - intros n l c l' bs Hl IH Hw Hn Hs.
    assert (Hsl : Forall supported l) by (inv Hs; [assumption|contradiction]).
    destruct IH as (Hok & Hu & os & Hse & Hd & Hwh); [lia|exact Hsl|].
    destruct (wrapped_element _ n _ _ _ _ Hw ltac:(lia) Hok Hu) as (h & He & Hb & H1 & H2 & H3 & _ & Hdef).
    split; [exact Hb|]. exists h, c, (CSequence os). split; [exact He|]. split; [intros [E _]; lia|].
    split; [now apply v_sequence|]. split; [now constructor|]. intros Hdd. inversion Hdd; subst.
    eapply wh_sequence; eauto.
  - intros n l c l' bs Hl IH Hw Hn Hs.
    assert (Hsl : Forall supported l) by (inv Hs; [assumption|contradiction]).
    destruct IH as (Hok & Hu & os & Hse & Hd & Hwh); [lia|exact Hsl|].
    destruct (wrapped_element _ n _ _ _ _ Hw ltac:(lia) Hok Hu) as (h & He & Hb & H1 & H2 & H3 & _ & Hdef).
    split; [exact Hb|]. exists h, c, (CSet os). split; [exact He|]. split; [intros [E _]; lia|].
    split; [now apply v_set|]. split; [now constructor|]. intros Hdd. inversion Hdd; subst.
    eapply wh_set; eauto.
  - intros n cl t v c bs Hcl Hv Hw Hn Hs.
    assert (Hsv : t < 2 ^ 32 /\ supported v) by (inv Hs; [auto|contradiction]). destruct Hsv as [Ht Hsv].
    destruct (proj1 encodes_shape _ _ _ Hv Hsv) as (Hok & h' & c' & He' & Hne').
    assert (Hu : until_eoc (S n) (c ++ [0; 0])).
    { destruct He' as (hb & b & -> & Hh & Hb & _). rewrite <- app_assoc. eapply eoc_later; eauto.
      eapply (proj2 body_mono_mut); [apply eoc_octets|lia]. }
    destruct (wrapped_element _ n _ _ _ _ Hw Ht Hok Hu) as (h & He & Hb & H1 & H2 & H3 & H4 & Hdef).
    split; [exact Hb|]. exists h, c, (CUnknown (mkAny h c)). split; [exact He|]. split.
    { intros [_ E]. pose proof (encodes_len _ _ _ _ Hv). destruct H4 as [H4|H4]; rewrite H4 in E; [|discriminate].
      injection E as E. lia. }
    split; [apply v_other_class; congruence|]. split; [|intros _; eapply wh_explicit; eauto].
    rewrite <- H1, <- H2. econstructor; [congruence|reflexivity|reflexivity|exact Hv].
  - intros n ss c bs Hss Hw Hn _.
    destruct (proj2 encodes_shape _ _ _ Hss (joins_supported _ _ (joins_octets ss))) as [Hok Hu].
    destruct (wrapped_element _ n _ _ _ _ Hw ltac:(lia) Hok Hu) as (h & He & Hb & H1 & H2 & H3 & _ & _).
    split; [exact Hb|]. exists h, c, (COctetString c). split; [exact He|]. split; [intros [E _]; lia|].
    split; [now apply v_octet_string|]. split; [constructor|]. intros Hd.
    pose proof (proj2 octets_longer _ _ _ Hss ss eq_refl) as Hlen.
    assert (Ec : c = concat ss).
    { inversion Hd; subst; reflexivity. }
    rewrite <- Ec in Hlen. destruct ss as [|s ss]; [|cbn [length] in Hlen; lia]. cbn [concat] in *. subst c.
    now apply wh_no_segments.
  - intros n _ _. split; [constructor|]. split; [eapply (proj2 body_mono_mut); [apply eoc_octets|lia]|].
    exists []. repeat split; constructor.
  - intros n v bs v' l rest l' Hv IHv Hl IHl Hn Hs. inv Hs.
    destruct IHv as (Hok & h & c & k & He & Hne & Hval & Hd & Hwv); auto.
    destruct IHl as (Hokr & Hu & os & Hse & Hds & Hwl); auto.
    split; [apply bytes_ok_app; auto|]. split.
    + destruct He as (hb & b & -> & Hh & Hb & _). rewrite <- !app_assoc. eapply eoc_later; eauto.
    + exists (Obj h k :: os). split; [|split; [now constructor|]].
      * econstructor; eauto. eapply element_mono; [|exact He]. lia.
      * intros Hdd. inv Hdd. constructor; auto.
Qed.

Lemma split_fault L : accepts_oids L ->
  (forall n v bs, split_text n v bs -> (n <= 49)%nat -> supported v ->
     exists h c, element (S n) h c bs /\ value_fault L n h c (Error Unsupported))
  /\ (forall n l c, split_texts n l c -> (n <= 49)%nat -> Forall supported l ->
     series_fault L n c (Error Unsupported)).
Proof.
  intros HL. apply split_all_ind.
  - intros n ls l c bs Hls Hc Hw Hn _.
    destruct (proj2 encodes_shape _ _ _ Hc (joins_supported _ _ (joins_bits ls l Hls))) as [Hok Hu].
    destruct (wrapped_element _ n _ _ _ _ Hw ltac:(lia) Hok Hu) as (h & He & _ & H1 & H2 & H3 & _ & _).
    exists h, c. split; [exact He|]. apply vf_content; [exact H1|].
    destruct c as [|u c]; [|now apply cf_bit_string]. exfalso.
    rewrite map_app in Hc. cbn [map] in Hc. inversion Hc as [n' E1 E2|n' v bs' l' rest Hv Hl E1 E2 E3].
    + destruct (map ABitString ls); discriminate.
    + apply encodes_len in Hv. destruct bs'; [cbn [length] in Hv; lia|discriminate].
  - intros n k chars ss c bs Hk Hc Hw Hn _.
    destruct (proj2 encodes_shape _ _ _ Hc (joins_supported _ _ (joins_text k chars ss Hk))) as [Hok Hu].
    destruct (wrapped_element _ n _ _ _ _ Hw ltac:(destruct k; cbn; lia) Hok Hu) as (h & He & _ & H1 & H2 & H3 & _ & _).
    exists h, c. split; [exact He|]. apply vf_content; [exact H1|]. apply cf_string_constructed; [|exact H3].
    rewrite H2. destruct k; cbn; tauto.
  - intros n l c bs Hl IH Hw Hn Hs.
    assert (Hsl : Forall supported l) by (inv Hs; [assumption|contradiction]).
    destruct (proj2 encodes_shape _ _ _ (proj2 split_encodes _ _ _ Hl) Hsl) as [Hok Hu].
    destruct (wrapped_element _ n _ _ _ _ Hw ltac:(lia) Hok Hu) as (h & He & _ & H1 & H2 & H3 & _ & _).
    exists h, c. split; [exact He|]. apply vf_inside; auto. apply IH; [lia|exact Hsl].
  - intros n l c bs Hl IH Hw Hn Hs.
    assert (Hsl : Forall supported l) by (inv Hs; [assumption|contradiction]).
    destruct (proj2 encodes_shape _ _ _ (proj2 split_encodes _ _ _ Hl) Hsl) as [Hok Hu].
    destruct (wrapped_element _ n _ _ _ _ Hw ltac:(lia) Hok Hu) as (h & He & _ & H1 & H2 & H3 & _ & _).
    exists h, c. split; [exact He|]. apply vf_inside; auto. apply IH; [lia|exact Hsl].
  - intros n v bs l rest Hv IH Hl Hn Hs. inv Hs. destruct IH as (h & c & He & Hf); auto.
    eapply sf_value; [eapply element_mono; [|exact He]; lia|exact Hf].
  - intros n v bs v' l rest Hv Hl IH Hn Hs. inv Hs.
    destruct (proj1 (seen_value L HL) _ _ _ _ Hv) as (_ & h & c & k & He & _ & Hval & _); auto.
    eapply sf_later; [eapply element_mono; [|exact He]; lia|exact Hval|]. apply IH; auto.
Qed.

Lemma element_50 n h c bs : (n <= 49)%nat -> element (S n) h c bs -> element MAX_RECURSION h c bs.
Proof. intros Hn. apply element_mono. change MAX_RECURSION with 50%nat. lia. Qed.

Lemma value_fault_mono L :
  (forall d h c e, value_fault L d h c e -> e = Error Unsupported -> forall d', (d <= d')%nat -> value_fault L d' h c e)
  /\ (forall d c e, series_fault L d c e -> e = Error Unsupported -> forall d', (d <= d')%nat -> series_fault L d' c e).
Proof.
  apply value_series_fault_ind.
  - discriminate.
  - intros d h c e H1 H2 He d' Hd. destruct d' as [|d']; [lia|]. now apply vf_content.
  - discriminate.
  - intros d h c e H1 H2 H3 H4 IH He d' Hd. destruct d' as [|d']; [lia|]. apply vf_inside; auto. apply IH; [exact He|lia].
  - intros. now apply sf_element.
  - intros d h c bs rest e He Hv IH Hu d' Hd. eapply sf_value; eauto.
  - intros d h c bs k rest e He Hv Hs IH Hu d' Hd. eapply sf_later; eauto. eapply (proj1 (value_mono_mut L)); eauto.
Qed.

(** ** Theorems *)

(** Every basic encoding of a value is either read, as what it looks like without putting
    segments together, or refused with [Unsupported], by the strings it has. *)
Theorem C113_outcome : forall L n v bs r, accepts_oids L -> supported v -> (n <= 49)%nat -> bytes_ok r ->
  encodes SpecAbstract.Ber n v bs ->
  (exists v' o, seen n v bs v' /\ parse_ber L (bs ++ r) = Ok (r, o) /\ denotes SpecAbstract.Ber o v')
  \/ (split_text n v bs /\ parse_ber L (bs ++ r) = Err (Error Unsupported)).
Proof.
  intros L n v bs r HL Hs Hn Hr H. pose proof (proj1 (proj1 encodes_shape _ _ _ H Hs)) as Hok.
  assert (Hi : bytes_ok (bs ++ r)) by (apply bytes_ok_app; auto).
  destruct (proj1 seen_or_split _ _ _ H) as [[v' Hv]|Hv].
  - left. destruct (proj1 (seen_value L HL) _ _ _ _ Hv Hn Hs) as (_ & h & c & k & He & _ & Hval & Hd & _).
    exists v', (Obj h k). split; [exact Hv|]. split; [|exact Hd]. apply C55_parse_ber_exact; [exact Hi|].
    exists bs, c. cbn [o_header o_content]. split; [reflexivity|]. split; [eapply element_50; eauto|].
    eapply (proj1 (value_mono_mut L)); [exact Hval|]. change MAX_RECURSION with 50%nat. lia.
  - right. split; [exact Hv|]. destruct (proj1 (split_fault L HL) _ _ _ Hv Hn Hs) as (h & c & He & Hf).
    apply C102_parse_ber; [exact Hi|]. change MAX_RECURSION with 50%nat.
    apply (rf_value L 49 h c); [eapply element_50; eauto|].
    eapply (proj1 (value_fault_mono L)); [exact Hf|reflexivity|lia].
Qed.
Print Assumptions C113_outcome.

Theorem C113_seen : forall L n v bs v' r, accepts_oids L -> supported v -> (n <= 49)%nat -> bytes_ok r ->
  (seen n v bs v' -> exists o, parse_ber L (bs ++ r) = Ok (r, o) /\ denotes SpecAbstract.Ber o v')
  /\ (split_text n v bs -> parse_ber L (bs ++ r) = Err (Error Unsupported)).
Proof.
  intros L n v bs v' r HL Hs Hn Hr. split; intros Hv.
  - destruct (proj1 (seen_value L HL) _ _ _ _ Hv Hn Hs) as (Hok & h & c & k & He & _ & Hval & Hd & _).
    exists (Obj h k). split; [|exact Hd]. apply C55_parse_ber_exact; [apply bytes_ok_app; auto|].
    exists bs, c. cbn [o_header o_content]. split; [reflexivity|]. split; [eapply element_50; eauto|].
    eapply (proj1 (value_mono_mut L)); [exact Hval|]. change MAX_RECURSION with 50%nat. lia.
  - pose proof (proj1 (proj1 encodes_shape _ _ _ (proj1 split_encodes _ _ _ Hv) Hs)) as Hok.
    destruct (proj1 (split_fault L HL) _ _ _ Hv Hn Hs) as (h & c & He & Hf).
    apply C102_parse_ber; [apply bytes_ok_app; auto|]. change MAX_RECURSION with 50%nat.
    apply (rf_value L 49 h c); [eapply element_50; eauto|].
    eapply (proj1 (value_fault_mono L)); [exact Hf|reflexivity|lia].
Qed.
Print Assumptions C113_seen.

(** The value itself comes out exactly if no string is split (outside explicit tags). *)
Theorem C113_exact : forall L n v bs r, accepts_oids L -> supported v -> (n <= 49)%nat -> bytes_ok r ->
  encodes SpecAbstract.Ber n v bs ->
  ((exists o, parse_ber L (bs ++ r) = Ok (r, o) /\ denotes SpecAbstract.Ber o v) <-> whole n v bs).
Proof.
  intros L n v bs r HL Hs Hn Hr H. split.
  - intros (o & Ho & Hd). destruct (proj1 seen_or_split _ _ _ H) as [[v' Hv]|Hv].
    + destruct (proj1 (seen_value L HL) _ _ _ _ Hv Hn Hs) as (Hok & h & c & k & He & _ & Hval & _ & Hw).
      assert (E : parse_ber L (bs ++ r) = Ok (r, Obj h k)).
      { apply C55_parse_ber_exact; [apply bytes_ok_app; auto|].
        exists bs, c. cbn [o_header o_content]. split; [reflexivity|]. split; [eapply element_50; eauto|].
        eapply (proj1 (value_mono_mut L)); [exact Hval|]. change MAX_RECURSION with 50%nat. lia. }
      rewrite Ho in E. injection E as ->. auto.
    + rewrite (proj2 (C113_seen L n v bs v r HL Hs Hn Hr) Hv) in Ho. discriminate.
  - intros Hw. apply (C113_seen L n v bs v r HL Hs Hn Hr). now apply whole_seen.
Qed.
Print Assumptions C113_exact.

(** Nothing is lost: the segments of an OCTET STRING can be read from the octets that were
    returned. *)
Definition octets_of (o : obj) : bytes := match o_content o with COctetString s => s | _ => [] end.

Theorem C113_recover : forall L n ss c, accepts_oids L -> (n <= 49)%nat ->
  encode_all Whole n (map AOctetString ss) c ->
  exists os, splits (parse_ber L) c os /\ map octets_of os = ss.
Proof.
  intros L n ss c HL Hn. revert c. induction ss as [|s ss IH]; intros c H; cbn [map] in H; inv H.
  - exists []. split; [constructor|reflexivity].
  - match goal with H1 : encodes _ _ _ ?b, H2 : encode_all _ _ _ ?r |- _ => rename b into bs, r into rest, H1 into Hv, H2 into Hl end.
    destruct (IH _ Hl) as (os & Hos & Em).
    assert (Hr : bytes_ok rest).
    { apply (proj2 (encodes_value Whole L ltac:(discriminate) HL) _ _ _ Hl Hn).
      apply Forall_forall. intros x Hx. apply in_map_iff in Hx as (y & <- & _). now apply sup_other. }
    destruct (C82_partial L n (AOctetString s) bs rest HL ltac:(now apply sup_other) Hn Hr Hv) as (o & Ho & Hd).
    exists (o :: os). split.
    + apply splits_cons; auto. apply encodes_len in Hv. destruct bs; [cbn [length] in Hv; lia|discriminate].
    + cbn [map]. rewrite Em. f_equal. inv Hd. reflexivity.
Qed.
Print Assumptions C113_recover.

(** SEQUENCE { 24 06 04 01 61 04 01 62, BOOLEAN TRUE } is read as one with the OCTET STRING
    04 01 61 04 01 62; behind a [0] tag the segments stay as they are; a UTF8String in one
    segment is refused. *)
Lemma ex_segment x : x < 128 -> encodes SpecAbstract.Ber 1 (AOctetString [x]) [4; 1; x].
Proof.
  intros Hx. refine (e_primitive SpecAbstract.Ber 0 (AOctetString [x]) [x] [1] _ _).
  - apply c_octet_string. constructor; [lia|constructor].
  - split; [apply (length_short 1); reflexivity|discriminate].
Qed.

Lemma ex_wrapped c t x n inner : t < 31 -> x = leading_octet c true t -> n < 128 -> n = N.of_nat (length inner) ->
  wrapped SpecAbstract.Ber c t inner (x :: n :: inner).
Proof.
  intros Ht -> Hn E. exists [leading_octet c true t]. split; [left; auto|]. left. exists [n]. split; [|reflexivity].
  rewrite <- E. split; [now apply length_short|discriminate].
Qed.

Lemma ex_segments : encode_all SpecAbstract.Ber 1 (map AOctetString [[97]; [98]]) [4; 1; 97; 4; 1; 98].
Proof.
  apply (ea_cons _ 1 _ [4; 1; 97] _ [4; 1; 98]); [apply ex_segment; lia|].
  apply (ea_cons _ 1 _ [4; 1; 98] _ []); [apply ex_segment; lia|constructor].
Qed.

Example C113_ex :
  (let v := ASequence [AOctetString [97; 98]; ABoolean true] in
   let v' := ASequence [AOctetString [4; 1; 97; 4; 1; 98]; ABoolean true] in
   let bs := [48; 11; 36; 6; 4; 1; 97; 4; 1; 98; 1; 1; 255] in
   encodes SpecAbstract.Ber 3 v bs /\ seen 3 v bs v' /\ ~ whole 3 v bs
   /\ exists h1 h2 h3, parse_ber SL bs
        = Ok ([], Obj h1 (CSequence [Obj h2 (COctetString [4; 1; 97; 4; 1; 98]); Obj h3 (CBoolean true)])))
  /\ whole 3 (AExplicit ContextSpecific 0 (AOctetString [97; 98])) [160; 8; 36; 6; 4; 1; 97; 4; 1; 98]
  /\ (split_text 2 (AText TUtf8 [97; 98]) [44; 6; 4; 1; 97; 4; 1; 98]
      /\ parse_ber SL [44; 6; 4; 1; 97; 4; 1; 98] = Err (Error Unsupported)).
Proof.
  assert (H1 : seen 3 (ASequence [AOctetString [97; 98]; ABoolean true]) [48; 11; 36; 6; 4; 1; 97; 4; 1; 98; 1; 1; 255]
                 (ASequence [AOctetString [4; 1; 97; 4; 1; 98]; ABoolean true])).
  { apply (seen_sequence 2 _ [36; 6; 4; 1; 97; 4; 1; 98; 1; 1; 255]); [|apply ex_wrapped; reflexivity].
    apply (sa_cons 2 _ [36; 6; 4; 1; 97; 4; 1; 98] _ _ [1; 1; 255]).
    - apply (seen_segments 1 [[97]; [98]] [4; 1; 97; 4; 1; 98]); [exact ex_segments|apply ex_wrapped; reflexivity].
    - apply (sa_cons 2 _ [1; 1; 255] _ _ []); [|constructor].
      refine (seen_primitive 1 (ABoolean true) [255] [1] _ _).
      + apply c_boolean; [lia|split; discriminate|right; reflexivity].
      + split; [apply (length_short 1); reflexivity|discriminate]. }
  split; [|split; [|split]].
  - split; [eapply (proj1 seen_encodes); exact H1|]. split; [exact H1|]. split.
    + intros Hw. assert (Hs : supported (ASequence [AOctetString [97; 98]; ABoolean true])).
      { apply sup_sequence. repeat constructor. }
      destruct (proj2 (C113_exact SL 3 _ _ [] SL_accepts_oids Hs ltac:(lia) (Forall_nil _) (proj1 seen_encodes _ _ _ _ H1)) Hw)
        as (o & Ho & Hd).
      vm_compute in Ho. injection Ho as <-. inv Hd.
      match goal with H : denote_all _ _ _ |- _ => inv H end.
      match goal with H : denotes _ _ (AOctetString _) |- _ => inv H end.
    + eexists. eexists. eexists. vm_compute. reflexivity.
  - apply (wh_explicit 2 ContextSpecific 0 _ [36; 6; 4; 1; 97; 4; 1; 98]); [discriminate| |apply ex_wrapped; reflexivity].
    eapply (e_segmented SpecAbstract.Ber 1 (AOctetString (concat [[97]; [98]]))); [reflexivity|constructor|exact ex_segments|].
    apply ex_wrapped; reflexivity.
  - apply (sp_text 1 TUtf8 [97; 98] [[97]; [98]] [4; 1; 97; 4; 1; 98]); [reflexivity|exact ex_segments|apply ex_wrapped; reflexivity].
  - vm_compute. reflexivity.
Qed.
