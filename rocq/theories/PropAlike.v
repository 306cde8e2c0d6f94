(** * Property C116: which inputs give equal objects. *)

From Coq Require Import String.
From Verif Require Import Base Asn1rs Ber Der Serialize Equal Spec SpecValue SpecComb SpecSer SpecEqual SpecAlike
  LemBase LemHeader LemSkip LemParse LemTree LemNode LemSer Conformance PropFraming PropDer PropSer PropEqual.
Local Open Scope string_scope.
Local Open Scope N_scope.
Local Open Scope list_scope.

Scheme alike_mind := Induction for alike Sort Prop
with alike_contents_mind := Induction for alike_contents Sort Prop
with alike_series_mind := Induction for alike_series Sort Prop.
Combined Scheme alike_ind3 from alike_mind, alike_contents_mind, alike_series_mind.

(** The identifier octets say class, form and tag number. *)
Lemma same_identifier h c bs h' c' bs' :
  element 50 h c bs -> element 50 h' c' bs' -> h_raw_tag h = h_raw_tag h' -> erase_h h = erase_h h'.
Proof.
  intros (hb & b & _ & (ib & lb & _ & Hi & _ & Er & _) & _) (hb' & b' & _ & (ib' & lb' & _ & Hi' & _ & Er' & _) & _) E.
  rewrite Er, Er' in E. injection E as <-.
  pose proof (parse_identifier_complete _ _ _ _ [] Hi) as P. rewrite (parse_identifier_complete _ _ _ _ [] Hi') in P.
  unfold erase_h. injection P as -> -> ->. reflexivity.
Qed.

Definition like_content (k k' : content) : Prop :=
  erase_content k = erase_content k' /\ raw_tags_content k = raw_tags_content k'.

Lemma app_eq_split {A} (a : list A) : forall b a' b', a ++ b = a' ++ b' -> length a = length a' -> a = a' /\ b = b'.
Proof.
  induction a as [|x a IH]; intros b [|x' a'] b' E Hl; try discriminate; [auto|].
  cbn in E. injection E as <- E. destruct (IH _ _ _ E ltac:(now injection Hl)) as [<- <-]. auto.
Qed.

Lemma str_tag_plain k : ~ In (str_tag k) [16; 17; 23; 24].
Proof. destruct k; cbn; intuition discriminate. Qed.

(** ** Equal objects come from inputs that are alike *)

(** What the contents of an element were, as far as the value says it. *)
Lemma value_shape L d h c k : value L d h c k ->
  match k with
  | CUnknown a => a_header a = h /\ a_data a = c
  | CBoolean v => exists b, c = [b] /\ v = negb (b =? 0)
  | CInteger s | COctetString s | CStr _ s | CBmpString s | CUniversalString s => s = c
  | CBitString u s => c = u :: s
  | COID x | CRelativeOID x => oid_bytes x = c
  | CEnum n => n = unsigned c
  | CSequence l | CSet l => exists d', series L d' c l
  | CUTCTime t => lf_utctime L (h_constructed h) (h_length h) c = inr t
  | CGeneralizedTime t => lf_gentime L (h_constructed h) (h_length h) c = inr t
  | CEndOfContent | CNull => True
  | COptional _ | CTagged _ _ _ => False
  end.
Proof. intros H. destruct H; cbn; eauto. Qed.

Lemma equal_alike L :
  (forall d h c k, value L d h c k -> forall d' h' c' k', value L d' h' c' k' ->
     erase_h h = erase_h h' -> like_content k k' -> alike_contents L h c h' c')
  /\ (forall d c l, series L d c l -> forall d' c' l', series L d' c' l' ->
     map erase l = map erase l' -> concat (map raw_tags l) = concat (map raw_tags l') -> alike_series L c c').
Proof.
  assert (Hin : forall t, ~ In t mapped_tags -> ~ In t [16; 17; 23; 24]).
  { intros t Ht Hi. apply Ht. cbn in *. intuition. }
  assert (Hother : forall h t, h_tag h = t -> ~ In t [16; 17; 23; 24] -> h_class h <> Universal \/ ~ In (h_tag h) [16; 17; 23; 24]).
  { intros h t -> Ht. auto. }
  apply value_series_ind.
  19: { intros d d' c' l' Hs E _. destruct l'; [|discriminate]. inversion Hs; subst. constructor. }
  19: { intros d bs h c k rest l He Hv IHv Hs IHs d' c' l' Hs' E Er.
        destruct l' as [|[h' k'] l']; [discriminate|]. cbn [map erase] in E. injection E as E1 E2 E3 Ek El.
        inversion Hs' as [|d2 bs' h2 c2 k2 rest' l2 He' Hv' Hs2]; subst. cbn [map concat raw_tags app] in Er.
        injection Er as Ert Er. apply app_eq_split in Er as [Er1 Er2].
        2: { now rewrite <- (proj2 raw_tags_erase k), <- (proj2 raw_tags_erase k'), Ek. }
        constructor; [|eauto]. pose proof (same_identifier _ _ _ _ _ _ He He' Ert) as Eh. apply (al_element L h c bs h' c2 bs'); auto.
        eapply IHv; eauto. split; auto. }
  all: intros; match goal with H : like_content _ ?k' |- _ =>
    destruct H as [Ec Er]; destruct k'; try discriminate Ec end;
    match goal with H : value _ _ _ _ _ |- _ => apply value_shape in H end; cbn beta iota in *;
    repeat match goal with H : exists _, _ |- _ => destruct H | H : _ /\ _ |- _ => destruct H end; subst;
    cbn [erase_content a_header a_data] in *; try (injection Ec; intros); subst;
    try (apply ac_same; first [left; assumption | right; now apply Hin
      | eapply Hother; [eassumption|try apply str_tag_plain; cbn; intuition discriminate]]);
    try (apply ac_ignored; auto; fail); try contradiction.
  - destruct (N.eqb_spec b 0) as [->|Hb], (N.eqb_spec x 0) as [->|Hx]; try discriminate.
    + apply ac_same. eapply Hother; [eassumption|cbn; intuition discriminate].
    + now apply ac_true.
  - now apply ac_enumerated.
  - apply ac_elements; auto. cbn [raw_tags_content] in Er. eauto.
  - apply ac_elements; auto. cbn [raw_tags_content] in Er. eauto.
  - eapply ac_utc_time; eauto.
  - eapply ac_generalized_time; eauto.
Qed.

(** ** Inputs that are alike give equal objects *)

Lemma utag_special t :
  match utag_of t with
  | USequence => t = 16 | USet => t = 17 | UUtcTime => t = 23 | UGeneralizedTime => t = 24
  | UEndOfContent => t = 0 | UNull => t = 5 | UBoolean => t = 1 | UEnumerated => t = 10
  | _ => True
  end.
Proof.
  destruct (in_dec N.eq_dec t mapped_tags) as [H|H].
  - cbn [mapped_tags In] in H. repeat (destruct H as [<-|H]; [vm_compute; exact I || reflexivity|]). destruct H.
  - apply utag_other in H. now rewrite H.
Qed.

Lemma same_contents L d h c k d' h' k' : value L d h c k -> value L d' h' c k' ->
  erase_h h = erase_h h' -> h_raw_tag h = h_raw_tag h' ->
  h_class h <> Universal \/ ~ In (h_tag h) [16; 17; 23; 24] -> like_content k k'.
Proof.
  intros Hv Hv' Eh Er Hn. apply value_conv in Hv. apply value_conv in Hv'.
  destruct d as [|d]; [discriminate|]. destruct d' as [|d']; [discriminate|].
  assert (Ec : h_class h' = h_class h) by (unfold erase_h in Eh; congruence).
  assert (Et : h_tag h' = h_tag h) by (unfold erase_h in Eh; congruence).
  assert (Ep : h_constructed h' = h_constructed h) by (unfold erase_h in Eh; congruence).
  assert (Hu : like_content (CUnknown (mkAny h c)) (CUnknown (mkAny h' c))).
  { split; cbn; congruence. }
  cbn [try_berobject_from_any a_header a_data] in Hv, Hv'. rewrite Ec, Et, Ep in Hv'.
  destruct (class_eqb (h_class h) Universal) eqn:Eu; cbn [negb] in *; [|injection Hv as <-; injection Hv' as <-; exact Hu].
  assert (Hn' : ~ In (h_tag h) [16; 17; 23; 24]).
  { destruct Hn as [Hn|Hn]; [|exact Hn]. apply class_eqb_eq in Eu. contradiction. }
  pose proof (utag_special (h_tag h)) as Hs. destruct (utag_of (h_tag h)).
  all: try (exfalso; apply Hn'; rewrite Hs; cbn; tauto).
  all: try (injection Hv as <-; injection Hv' as <-; split; reflexivity || exact Hu).
  - destruct c, (h_constructed h); try discriminate. injection Hv as <-. injection Hv' as <-. now split.
  - destruct (h_constructed h), (Nat.even (length c)), (utf16_valid (be_u16_units c)); try discriminate.
    injection Hv as <-. injection Hv' as <-. now split.
  - unfold any_bool in Hv, Hv'. cbn [a_header a_data] in Hv, Hv'.
    destruct (h_length h) as [[|[]]|], (h_length h') as [[|[]]|], c; try discriminate.
    injection Hv as <-. injection Hv' as <-. now split.
  - unfold any_enumerated, assert_primitive in Hv, Hv'. cbn [a_header a_data] in Hv, Hv'. rewrite ?Ep in Hv'.
    destruct (h_constructed h), (bytes_to_u64 c) as [v|]; try discriminate. cbn [bind] in Hv, Hv'.
    destruct (4294967295 <? v); try discriminate. injection Hv as <-. injection Hv' as <-. now split.
  - destruct (lf_oid_check L _ (h_length h) c), (lf_oid_check L _ (h_length h') c); try discriminate.
    injection Hv as <-. injection Hv' as <-. now split.
  - destruct (lf_reloid_check L _ (h_length h) c), (lf_reloid_check L _ (h_length h') c); try discriminate.
    injection Hv as <-. injection Hv' as <-. now split.
  - destruct (h_constructed h); try discriminate. injection Hv as <-. injection Hv' as <-. now split.
  - unfold from_obj_string in Hv, Hv'. rewrite ?Ep in Hv'.
    destruct (h_constructed h), (test_valid_charset L k0 c), (utf8_valid c); try discriminate.
    injection Hv as <-. injection Hv' as <-. now split.
  - injection Hv as <-. injection Hv' as <-. exact Hu.
Qed.

(** An element of a universal type with a tag number known. *)
Lemma value_univ L d h c k t : value L d h c k -> h_class h = Universal -> h_tag h = t ->
  match utag_of t with
  | UEndOfContent => k = CEndOfContent
  | UNull => k = CNull
  | UBoolean => exists b, c = [b] /\ k = CBoolean (negb (b =? 0))
  | UEnumerated => k = CEnum (unsigned c)
  | UUtcTime => exists x, lf_utctime L (h_constructed h) (h_length h) c = inr x /\ k = CUTCTime x
  | UGeneralizedTime => exists x, lf_gentime L (h_constructed h) (h_length h) c = inr x /\ k = CGeneralizedTime x
  | USequence => exists d' l, series L d' c l /\ k = CSequence l
  | USet => exists d' l, series L d' c l /\ k = CSet l
  | _ => True
  end.
Proof.
  intros Hv Hc <-. destruct Hv; try contradiction.
  all: try (match goal with H : h_tag _ = _ |- _ => rewrite H end; cbn; eauto; fail).
  - match goal with H : ~ In _ _ |- _ => apply utag_other in H; rewrite H end. exact I.
  - match goal with H : h_tag _ = _ |- _ => rewrite H end. rewrite utag_str. exact I.
Qed.

Lemma alike_equal L :
  (forall bs bs', alike L bs bs' -> forall h c h' c', element 50 h c bs -> element 50 h' c' bs' ->
     forall d k d' k', value L d h c k -> value L d' h' c' k' ->
     erase_h h = erase_h h' /\ h_raw_tag h = h_raw_tag h' /\ like_content k k')
  /\ (forall h c h' c', alike_contents L h c h' c' -> erase_h h = erase_h h' -> h_raw_tag h = h_raw_tag h' ->
     forall d k d' k', value L d h c k -> value L d' h' c' k' -> like_content k k')
  /\ (forall c c', alike_series L c c' -> forall d l d' l', series L d c l -> series L d' c' l' ->
     map erase l = map erase l' /\ concat (map raw_tags l) = concat (map raw_tags l')).
Proof.
  apply alike_ind3.
  - intros h0 c0 bs h0' c0' bs' He0 He0' Er Hc IH h c h' c' He He' d k d' k' Hv Hv'.
    destruct (element_first _ _ _ _ _ _ [] [] He0 He eq_refl) as (-> & -> & _ & _).
    destruct (element_first _ _ _ _ _ _ [] [] He0' He' eq_refl) as (-> & -> & _ & _).
    pose proof (same_identifier _ _ _ _ _ _ He He' Er) as Eh. split; [exact Eh|]. split; [exact Er|].
    eapply IH; eauto.
  - intros h h' c Hn Eh Er d k d' k' Hv Hv'. eapply same_contents; eauto.
  - intros h c h' c' Hc Ht Eh Er d k d' k' Hv Hv'.
    assert (Hc' : h_class h' = Universal) by (unfold erase_h in Eh; congruence).
    assert (Et : h_tag h' = h_tag h) by (unfold erase_h in Eh; congruence).
    destruct Ht as [Ht|Ht]; rewrite Ht in Et;
      pose proof (value_univ _ _ _ _ _ _ Hv Hc Ht) as V; pose proof (value_univ _ _ _ _ _ _ Hv' Hc' Et) as V';
      cbn in V, V'; subst; now split.
  - intros h b h' b' Hc Ht Hb Hb' Eh Er d k d' k' Hv Hv'.
    assert (Hc' : h_class h' = Universal) by (unfold erase_h in Eh; congruence).
    assert (Et : h_tag h' = h_tag h) by (unfold erase_h in Eh; congruence). rewrite Ht in Et.
    pose proof (value_univ _ _ _ _ _ _ Hv Hc Ht) as V; pose proof (value_univ _ _ _ _ _ _ Hv' Hc' Et) as V'.
    cbn in V, V'. destruct V as (x & E & ->), V' as (x' & E' & ->). injection E as <-. injection E' as <-.
    apply N.eqb_neq in Hb. apply N.eqb_neq in Hb'. rewrite Hb, Hb'. now split.
  - intros h c h' c' Hc Ht Hu Eh Er d k d' k' Hv Hv'.
    assert (Hc' : h_class h' = Universal) by (unfold erase_h in Eh; congruence).
    assert (Et : h_tag h' = h_tag h) by (unfold erase_h in Eh; congruence). rewrite Ht in Et.
    pose proof (value_univ _ _ _ _ _ _ Hv Hc Ht) as V; pose proof (value_univ _ _ _ _ _ _ Hv' Hc' Et) as V'.
    cbn in V, V'. rewrite V, V', Hu. now split.
  - intros h c h' c' t Hc Ht Hx Hx' Eh Er d k d' k' Hv Hv'.
    assert (Hc' : h_class h' = Universal) by (unfold erase_h in Eh; congruence).
    assert (Et : h_tag h' = h_tag h) by (unfold erase_h in Eh; congruence). rewrite Ht in Et.
    pose proof (value_univ _ _ _ _ _ _ Hv Hc Ht) as V; pose proof (value_univ _ _ _ _ _ _ Hv' Hc' Et) as V'.
    cbn in V, V'. destruct V as (x & E & ->), V' as (x' & E' & ->). rewrite Hx in E. rewrite Hx' in E'.
    injection E as <-. injection E' as <-. now split.
  - intros h c h' c' t Hc Ht Hx Hx' Eh Er d k d' k' Hv Hv'.
    assert (Hc' : h_class h' = Universal) by (unfold erase_h in Eh; congruence).
    assert (Et : h_tag h' = h_tag h) by (unfold erase_h in Eh; congruence). rewrite Ht in Et.
    pose proof (value_univ _ _ _ _ _ _ Hv Hc Ht) as V; pose proof (value_univ _ _ _ _ _ _ Hv' Hc' Et) as V'.
    cbn in V, V'. destruct V as (x & E & ->), V' as (x' & E' & ->). rewrite Hx in E. rewrite Hx' in E'.
    injection E as <-. injection E' as <-. now split.
  - intros h c h' c' Hc Ht Hs IH Eh Er d k d' k' Hv Hv'.
    assert (Hc' : h_class h' = Universal) by (unfold erase_h in Eh; congruence).
    assert (Et : h_tag h' = h_tag h) by (unfold erase_h in Eh; congruence).
    destruct Ht as [Ht|Ht]; rewrite Ht in Et;
      pose proof (value_univ _ _ _ _ _ _ Hv Hc Ht) as V; pose proof (value_univ _ _ _ _ _ _ Hv' Hc' Et) as V';
      cbn in V, V'; destruct V as (n & l & Hl & ->), V' as (n' & l' & Hl' & ->);
      destruct (IH _ _ _ _ Hl Hl') as [E1 E2]; split; cbn [erase_content raw_tags_content]; congruence.
  - intros d l d' l' Hs Hs'. inversion Hs; subst.
    + inversion Hs'; subst; [now split|]. exfalso.
      match goal with H : element _ _ _ ?b, E : ?b ++ _ = [] |- _ => apply element_nonempty in H; now destruct b end.
    + exfalso.
      match goal with H : element _ _ _ ?b, E : ?b ++ _ = [] |- _ => apply element_nonempty in H; now destruct b end.
  - intros bs rest bs' rest' Ha IHa Hr IHr d l d' l' Hs Hs'.
    inversion Ha as [h0 c0 b0 h0' c0' b0' He0 He0' _ _]; subst.
    inversion Hs as [? E|d1 bs1 h1 c1 k1 rest1 l1 He1 Hv1 Hs1 E]; subst.
    { exfalso. apply element_nonempty in He0. destruct bs; [contradiction|discriminate]. }
    destruct (element_first _ _ _ _ _ _ _ _ He1 He0 ltac:(eassumption)) as (-> & -> & -> & ->).
    inversion Hs' as [? E'|d2 bs2 h2 c2 k2 rest2 l2 He2 Hv2 Hs2 E']; subst.
    { exfalso. apply element_nonempty in He0'. destruct bs'; [contradiction|discriminate]. }
    destruct (element_first _ _ _ _ _ _ _ _ He2 He0' ltac:(eassumption)) as (-> & -> & -> & ->).
    destruct (IHa _ _ _ _ He0 He0' _ _ _ _ Hv1 Hv2) as (Eh & Er & Ek1 & Ek2).
    destruct (IHr _ _ _ _ Hs1 Hs2) as [El1 El2].
    cbn [map erase concat raw_tags]. split; congruence.
Qed.

(** The objects decoded from two inputs are equal exactly if the octets read are alike,
    whatever follows them and whatever the limits are. *)
Theorem C116_ber : forall L bs r d o bs' r' d' o', bytes_ok (bs ++ r) -> bytes_ok (bs' ++ r') ->
  parse_ber_recursive L (bs ++ r) d = Ok (r, o) -> parse_ber_recursive L (bs' ++ r') d' = Ok (r', o') ->
  (obj_eqb o o' = true <-> alike L bs bs').
Proof.
  intros L bs r d [h k] bs' r' d' [h' k'] Hok Hok' H H'.
  rewrite (C76_decoded _ _ _ _ _ _ _ _ _ Hok Hok' H H').
  apply parse_ber_iff in H as (b & c & E & He & Hv); [|exact Hok]. apply app_inv_tail in E. subst b.
  apply parse_ber_iff in H' as (b & c' & E & He' & Hv'); [|exact Hok']. apply app_inv_tail in E. subst b.
  cbn [o_header o_content] in *. cbn [erase raw_tags]. split.
  - intros [E Er]. injection Er as Er Er'. pose proof (same_identifier _ _ _ _ _ _ He He' Er) as Eh.
    apply (al_element L h c bs h' c' bs'); auto. eapply (proj1 (equal_alike L)); eauto.
    split; [congruence|exact Er'].
  - intros Ha. destruct (proj1 (alike_equal L) _ _ Ha _ _ _ _ He He' _ _ _ _ Hv Hv') as (Eh & Er & Ek & Ekr).
    split; congruence.
Qed.
Print Assumptions C116_ber.

Lemma unknown_header L i d r h a : bytes_ok i ->
  parse_ber_recursive L i d = Ok (r, Obj h (CUnknown a)) -> a = mkAny h (a_data a).
Proof.
  intros Hok H. apply parse_ber_iff in H as (bs & c & _ & _ & Hv); [|exact Hok].
  apply value_shape in Hv as [Ha Hb]. cbn [o_header] in *. destruct a; cbn in *; congruence.
Qed.

(** The same for the DER reader. *)
Theorem C116_der : forall L bs r d o bs' r' d' o', no_unknown_tag L -> (1 <= d)%nat -> (1 <= d')%nat ->
  bytes_ok (bs ++ r) -> bytes_ok (bs' ++ r') ->
  parse_der_recursive L (bs ++ r) d = Ok (r, o) -> parse_der_recursive L (bs' ++ r') d' = Ok (r', o') ->
  (obj_eqb o o' = true <-> alike L bs bs').
Proof.
  intros L bs r d o bs' r' d' o' HL Hd Hd' Hok Hok' H H'.
  pose proof (C76_der_ber _ _ _ _ _ HL Hok Hd H) as (p & Hp & Eo).
  pose proof (C76_der_ber _ _ _ _ _ HL Hok' Hd' H') as (p' & Hp' & Eo').
  rewrite <- (C116_ber _ _ _ _ _ _ _ _ _ Hok Hok' Hp Hp').
  pose proof (parsed_raw_tags _ _ _ _ _ Hok Hp) as Hn. pose proof (parsed_raw_tags _ _ _ _ _ Hok' Hp') as Hn'.
  split.
  - intros E. apply C76_exact in E as [E F]. apply C76_exact in Eo as [Ep _]. apply C76_exact in Eo' as [Ep' _].
    assert (Ee : erase p = erase p') by congruence.
    apply (C76_decoded _ _ _ _ _ _ _ _ _ Hok Hok' Hp Hp'). split; [exact Ee|].
    apply C28_der_in_ber in H as (k & Hk & Sk); auto. rewrite Hp in Hk. injection Hk as ->.
    apply C28_der_in_ber in H' as (k' & Hk' & Sk'); auto. rewrite Hp' in Hk'. injection Hk' as ->.
    destruct o as [h k0], o' as [h' k0']. cbn [o_header o_content] in *.
    assert (Hh : h_raw_tag h = h_raw_tag h').
    { cbn [raw_tags] in F, Hn, Hn'. inversion F as [|x y l l' Hc _]; subst. cbn [In] in Hn, Hn'.
      unfold compatible in Hc. intuition congruence. }
    assert (Hunk : (exists a, k = CUnknown a) \/ (exists a, k' = CUnknown a) ->
      raw_tags (Obj h k) = raw_tags (Obj h' k')).
    { intros Hu. assert (Hb : exists a a', k = CUnknown a /\ k' = CUnknown a').
      { cbn [erase] in Ee. injection Ee as _ _ _ Ec.
        destruct Hu as [(a & ->)|(a & ->)]; [destruct k'|destruct k]; try discriminate Ec;
          try (match goal with x : option obj |- _ => destruct x; discriminate Ec end); eauto. }
      destruct Hb as (a & a' & -> & ->).
      rewrite (unknown_header _ _ _ _ _ _ Hok Hp), (unknown_header _ _ _ _ _ _ Hok' Hp'). cbn. congruence. }
    destruct Sk as [<-|(h1 & h2 & c & -> & -> & _)]; [|eauto].
    destruct Sk' as [<-|(h1 & h2 & c & -> & -> & _)]; [|eauto].
    apply (C76_decoded _ _ _ _ _ _ _ _ _ Hok Hok' Hp Hp'). apply C76_exact. auto.
  - intros E. eapply (C78_partial _ p); [exact Hn|exact Eo|].
    eapply (C78_partial _ p'); [exact Hn'|exact E|]. now rewrite C76_symmetric.
Qed.
Print Assumptions C116_der.

(** BER: a long length, an indefinite length with a NULL of one octet and TRUE as 01,
    against the shortest encoding.  DER: a NULL of one octet inside a SEQUENCE. *)
Example C116_ex :
  alike SL (hx "30 80 05 01 aa 01 81 01 01 00 00") (hx "30 05 05 00 01 01 ff")
  /\ ~ alike SL (hx "30 03 01 01 00") (hx "30 03 01 01 ff")
  /\ alike SL (hx "30 03 05 01 07") (hx "30 02 05 00")
  /\ exists o o', parse_der SL (hx "30 03 05 01 07") = Ok ([], o) /\ parse_der SL (hx "30 02 05 00") = Ok ([], o')
     /\ obj_eqb o o' = true.
Proof.
  assert (HP : forall a b o o', bytes_ok a -> bytes_ok b -> parse_ber SL a = Ok ([], o) -> parse_ber SL b = Ok ([], o') ->
    (obj_eqb o o' = true <-> alike SL a b)).
  { intros a b o o' Ha Hb H H'. apply (C116_ber SL a [] 50 o b [] 50 o'); rewrite ?app_nil_r; auto. }
  split; [|split; [|split]].
  - eapply HP; [bok|bok|vm_compute; reflexivity|vm_compute; reflexivity|vm_compute; reflexivity].
  - intros H. eapply HP in H; [|bok|bok|vm_compute; reflexivity|vm_compute; reflexivity]. vm_compute in H. discriminate.
  - eapply HP; [bok|bok|vm_compute; reflexivity|vm_compute; reflexivity|vm_compute; reflexivity].
  - do 2 eexists. split; [vm_compute; reflexivity|]. split; vm_compute; reflexivity.
Qed.
