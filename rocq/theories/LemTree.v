(** * The decoded tree. *)

From Verif Require Import Base Asn1rs Ber Der Spec SpecValue LemBase LemHeader LemSkip LemParse LemDer LemText.

(** ** Soundness and completeness of the conversion *)

Lemma subslice_refl s : subslice s s.
Proof. exists [], []. now rewrite app_nil_r. Qed.
Lemma subslice_trans a b c : subslice a b -> subslice b c -> subslice a c.
Proof.
  intros (p & q & ->) (p' & q' & ->). exists (p' ++ p), (q ++ q'). now rewrite <- !app_assoc.
Qed.
Lemma subslice_ok a b : subslice a b -> bytes_ok b -> bytes_ok a.
Proof. intros (p & q & ->) H. apply bytes_ok_app in H as [_ H]. apply bytes_ok_app in H. tauto. Qed.
Lemma subslice_app_l a b : subslice a (a ++ b).
Proof. exists [], b. reflexivity. Qed.
Lemma subslice_app_r a b : subslice b (a ++ b).
Proof. exists a, []. now rewrite app_nil_r. Qed.
Lemma subslice_mid a b c : subslice b (a ++ b ++ c).
Proof. exists a, c. reflexivity. Qed.

Lemma content_octets_sub h b : subslice (content_octets h b) b.
Proof.
  unfold content_octets. destruct (h_length h); [apply subslice_refl|].
  exists [], (skipn (length b - 2) b). cbn [app]. now rewrite firstn_skipn.
Qed.

(** Everything in an [Any] comes from the octets it was read from. *)
Lemma any_from_ber_sub i r a : any_from_ber i = Ok (r, a) ->
  exists bs, i = bs ++ r /\ subslice (a_data a) bs
    /\ forall s, h_raw_tag (a_header a) = Some s -> subslice s bs.
Proof.
  intros H. apply any_from_ber_split in H as (hb & b & -> & _ & Hh & Hd & _).
  exists (hb ++ b). split; [now rewrite app_assoc|]. split.
  - rewrite Hd. eapply subslice_trans; [apply content_octets_sub|]. apply subslice_app_r.
  - intros s Hs. apply header_from_ber_split in Hh as (raw & lb & E & Hr & _).
    rewrite Hs in Hr. inv Hr. apply app_inv_tail in E. subst hb.
    exists [], (lb ++ b). cbn. now rewrite <- app_assoc.
Qed.

Lemma from_string_inv L k h c o : from_obj_string L k h c = Ok o ->
  o = Obj h (CStr k c) /\ h_constructed h = false /\ test_valid_charset L k c = true
  /\ utf8_valid c = true.
Proof.
  unfold from_obj_string. destruct (h_constructed h); [discriminate|].
  destruct (test_valid_charset L k c); [|discriminate]. cbn [negb].
  destruct (utf8_valid c); [|discriminate]. intros H; inv H. auto.
Qed.

Lemma charset_iff L k c : test_valid_charset L k c = true <-> repertoire L k c.
Proof.
  destruct k; cbn [test_valid_charset repertoire]; try tauto.
  - apply numeric_iff.
  - apply visible_iff.
  - apply printable_iff.
  - apply ia5_iff.
  - apply utf8_valid_iff.
Qed.

Lemma utag_other t : utag_of t = UOther <-> ~ In t mapped_tags.
Proof.
  split.
  - intros H Hin. cbn in Hin. repeat (destruct Hin as [<-|Hin]; [discriminate|]). exact Hin.
  - intros H. unfold utag_of.
    repeat match goal with
      | |- context [if t =? ?k then _ else _] =>
          let E := fresh in destruct (t =? k) eqn:E;
            [exfalso; apply H; apply N.eqb_eq in E; rewrite E; cbn; tauto|clear E]
      end.
    reflexivity.
Qed.

Lemma str_tag_eq k : tag_of_strkind k = str_tag k.
Proof. destruct k; reflexivity. Qed.
Lemma utag_str k : utag_of (str_tag k) = UStr k.
Proof. destruct k; reflexivity. Qed.

Scheme value_mind := Induction for value Sort Prop
with series_mind := Induction for series Sort Prop.
Combined Scheme value_series_ind from value_mind, series_mind.

Lemma bytes_to_u64_small c : unsigned c < 2 ^ 32 -> bytes_to_u64 c = Some (unsigned c).
Proof.
  intros H. unfold bytes_to_u64. rewrite be_val_unsigned.
  change (2 ^ 32) with 4294967296 in H.
  destruct (unsigned c <? 18446744073709551616) eqn:E; [reflexivity|lia].
Qed.

Lemma value_conv_mut L :
  (forall d h c k, value L d h c k -> try_berobject_from_any L d (mkAny h c) = Ok (Obj h k))
  /\ (forall d c l, series L d c l -> collected (try_berobject_from_any L d) c l).
Proof.
  apply value_series_ind.
  all: try (intros d h c Hc Ht; intros; cbn [try_berobject_from_any a_header a_data];
            rewrite Hc, Ht; cbn [class_eqb negb]; reflexivity).
  - intros d h c Hc. cbn [try_berobject_from_any a_header a_data].
    destruct (class_eqb (h_class h) Universal) eqn:E; [apply class_eqb_spec in E; contradiction|].
    reflexivity.
  - intros d h c Hc Ht. cbn [try_berobject_from_any a_header a_data].
    apply utag_other in Ht. rewrite Hc, Ht. reflexivity.
  - intros d h b Hc Ht Hl. cbn [try_berobject_from_any a_header a_data]. rewrite Hc, Ht.
    change (utag_of 1) with UBoolean. cbn [class_eqb negb]. unfold any_bool.
    cbn [a_header a_data]. rewrite Hl. reflexivity.
  - intros d h u c Hc Ht Hp. cbn [try_berobject_from_any a_header a_data]. rewrite Hc, Ht, Hp.
    reflexivity.
  - intros d h c Hc Ht Hl. cbn [try_berobject_from_any a_header a_data]. rewrite Hc, Ht.
    cbn [class_eqb negb utag_of]. cbn -[lf_oid_check]. rewrite Hl. reflexivity.
  - intros d h c Hc Ht Hp Hu. cbn [try_berobject_from_any a_header a_data]. rewrite Hc, Ht.
    change (utag_of 10) with UEnumerated. cbn [class_eqb negb].
    unfold any_enumerated, assert_primitive. cbn [a_header a_data]. rewrite Hp. cbn [bind].
    rewrite bytes_to_u64_small by assumption. change (2 ^ 32) with 4294967296 in Hu.
    destruct (4294967295 <? unsigned c) eqn:E; [lia|]. reflexivity.
  - intros d h c Hc Ht Hl. cbn [try_berobject_from_any a_header a_data]. rewrite Hc, Ht.
    cbn -[lf_reloid_check]. rewrite Hl. reflexivity.
  - intros d h c l Hc Ht Hp _ IH. apply conv_seq; cbn [a_header a_data]; auto. now rewrite Ht.
  - intros d h c l Hc Ht Hp _ IH. apply conv_set; cbn [a_header a_data]; auto. now rewrite Ht.
  - intros d h c t Hc Ht Hl. cbn [try_berobject_from_any a_header a_data]. rewrite Hc, Ht.
    cbn -[lf_utctime]. rewrite Hl. reflexivity.
  - intros d h c t Hc Ht Hl. cbn [try_berobject_from_any a_header a_data]. rewrite Hc, Ht.
    cbn -[lf_gentime]. rewrite Hl. reflexivity.
  - intros d h c Hc Ht Hp. cbn [try_berobject_from_any a_header a_data]. rewrite Hc, Ht, Hp.
    reflexivity.
  - intros d h c Hc Ht Hp (cps & Hs & ->). cbn [try_berobject_from_any a_header a_data].
    rewrite Hc, Ht, Hp. change (utag_of 30) with UBmpString. cbn [class_eqb negb].
    assert (F : Forall (fun u => u < 65536) (flat_map utf16_encode cps)).
    { clear -Hs. induction Hs as [|c cps Hc _ IH]; [constructor|]. cbn [flat_map].
      apply Forall_app. split; [now apply utf16_encode_lt|assumption]. }
    destruct (octets_units _ F) as [E1 E2]. rewrite E2, E1. cbn [negb].
    assert (Hv : utf16_valid (flat_map utf16_encode cps) = true) by (apply utf16_valid_iff; eauto).
    rewrite Hv. reflexivity.
  - intros d h k c Hc Ht Hp Hr Hu. cbn [try_berobject_from_any a_header a_data].
    rewrite Hc, Ht, utag_str. cbn [class_eqb negb]. unfold from_obj_string. rewrite Hp.
    apply charset_iff in Hr. apply utf8_valid_iff in Hu. rewrite Hr, Hu. reflexivity.
  - intros d. constructor.
  - intros d bs h c k rest l He _ IHv _ IHs. eapply collected_cons; [|exact IHv|exact IHs].
    now apply any_from_ber_complete.
Qed.

Lemma value_conv L d h c k :
  value L d h c k -> try_berobject_from_any L d (mkAny h c) = Ok (Obj h k).
Proof. apply value_conv_mut. Qed.

Lemma collected_series L d :
  (forall a o, any_ok a -> bytes_ok (a_data a) -> try_berobject_from_any L d a = Ok o ->
     value L d (a_header a) (a_data a) (o_content o)) ->
  forall c l, collected (try_berobject_from_any L d) c l -> bytes_ok c -> series L d c l.
Proof.
  intros Hv. induction 1 as [|data r a o l Ha Hc _ IH]; intros Hok; [constructor|].
  pose proof (any_from_ber_ok _ _ _ Ha) as Haok.
  pose proof (any_from_ber_sub _ _ _ Ha) as (bs0 & E0 & Hsub & _).
  apply any_from_ber_sound in Ha as (bs & -> & He); [|assumption].
  apply app_inv_tail in E0. subst bs0.
  apply bytes_ok_app in Hok as [Hok1 Hok2].
  pose proof (conv_header _ _ _ _ Hc) as Hh.
  apply Hv in Hc; [|assumption|eapply subslice_ok; eauto].
  destruct o as [h k]. cbn [o_header o_content] in *. subst h.
  eapply s_cons; eauto.
Qed.

Lemma conv_value L d : forall a o, any_ok a -> bytes_ok (a_data a) ->
  try_berobject_from_any L d a = Ok o -> value L d (a_header a) (a_data a) (o_content o).
Proof.
  induction d as [|d IH]; intros a o Ha Hok H; [discriminate|].
  apply conv_cases in H as [[_ H]|(l & Hc & Hp & Hl & [[Ht ->]|[Ht ->]])].
  - specialize (H O). cbn [try_berobject_from_any] in H.
    destruct (class_eqb (h_class (a_header a)) Universal) eqn:Ec; cbn [negb] in H.
    2:{ inv H. destruct a. apply v_other_class. intros E. apply class_eqb_spec in E. cbn in *. congruence. }
    apply class_eqb_spec in Ec.
    destruct (utag_of (h_tag (a_header a))) eqn:Et; destruct a as [h c]; cbn [a_header a_data] in *;
      try (utag Et; inv H; cbn [o_content]; econstructor; eauto; fail).
    + utag Et. destruct c as [|u c]; [discriminate|]. destruct (h_constructed h) eqn:Ep; [discriminate|].
      inv H. now apply v_bit_string.
    + utag Et. destruct (h_constructed h) eqn:Ep; [discriminate|].
      destruct (Nat.even (length c)) eqn:E1; [|discriminate].
      destruct (utf16_valid (be_u16_units c)) eqn:E2; [|discriminate]. inv H.
      apply v_bmp_string; auto. now apply bmp_iff.
    + utag Et. bind_inv H. inv H. unfold any_bool in E. cbn [a_header a_data] in E.
      destruct (h_length h) as [[|[p|p|]]|] eqn:El; try discriminate.
      specialize (Ha 1 El). cbn [a_data] in Ha. destruct c as [|b [|]]; try discriminate.
      * inv E. now apply v_boolean.
      * rewrite !nlen_cons in Ha. lia.
    + utag Et. bind_inv H. inv H. unfold any_enumerated, assert_primitive in E.
      cbn [a_header a_data] in E. destruct (h_constructed h) eqn:Ep; [discriminate|]. cbn [bind] in E.
      unfold bytes_to_u64 in E. rewrite be_val_unsigned in E.
      destruct (unsigned c <? 18446744073709551616); [|discriminate].
      destruct (4294967295 <? unsigned c) eqn:E2; [discriminate|]. inv E.
      apply v_enumerated; auto. change (2 ^ 32) with 4294967296. lia.
    + utag Et. destruct (lf_gentime L (h_constructed h) (h_length h) c) eqn:E; inv H.
      now apply v_generalized_time.
    + utag Et. destruct (lf_oid_check L (h_constructed h) (h_length h) c) eqn:E; inv H. now apply v_oid.
    + utag Et. destruct (lf_reloid_check L (h_constructed h) (h_length h) c) eqn:E; inv H. now apply v_relative_oid.
    + bind_inv H. bind_inv H. inv H. unfold assert_constructed in E. destruct (h_constructed h) eqn:Ep; [|discriminate].
      apply iter_iff in E0. inv E0; [|discriminate].
      utag Et. apply v_sequence; auto. constructor.
    + bind_inv H. bind_inv H. inv H. unfold assert_constructed in E. destruct (h_constructed h) eqn:Ep; [|discriminate].
      apply iter_iff in E0. inv E0; [|discriminate].
      utag Et. apply v_set; auto. constructor.
    + utag Et. destruct (lf_utctime L (h_constructed h) (h_length h) c) eqn:E; inv H. now apply v_utc_time.
    + utag Et. destruct (h_constructed h) eqn:Ep; [discriminate|]. inv H. now apply v_universal_string.
    + utag Et. rewrite str_tag_eq in Et. apply from_string_inv in H as (-> & Hp & Hr & Hu).
      apply v_string; auto; [now apply charset_iff|now apply utf8_valid_iff].
    + inv H. apply utag_other in Et. now apply v_unmapped.
  - utag Ht. cbn [o_content]. apply v_sequence; auto. now apply collected_series.
  - utag Ht. cbn [o_content]. apply v_set; auto. now apply collected_series.
Qed.

(** ** The whole parser *)

Lemma parse_ber_iff L i d r o : bytes_ok i ->
  (parse_ber_recursive L i d = Ok (r, o)
   <-> exists bs c, i = bs ++ r /\ element 50 (o_header o) c bs
         /\ value L d (o_header o) c (o_content o)).
Proof.
  intros Hok. split.
  - intros H. apply parse_ber_inv in H as (a & Ha & Hc).
    pose proof (any_from_ber_ok _ _ _ Ha) as Haok.
    pose proof (any_from_ber_sub _ _ _ Ha) as (bs0 & E0 & Hsub & _).
    apply any_from_ber_sound in Ha as (bs & -> & He); [|assumption].
    apply app_inv_tail in E0. subst bs0.
    apply bytes_ok_app in Hok as [Hok1 _].
    rewrite (conv_header _ _ _ _ Hc). exists bs, (a_data a). repeat split; auto.
    eapply conv_value; eauto. eapply subslice_ok; eauto.
  - intros (bs & c & -> & He & Hv). eapply parse_ber_intro.
    + apply any_from_ber_complete. exact He.
    + apply value_conv in Hv. rewrite Hv. destruct o; reflexivity.
Qed.
