(** * Properties C102, C103: the error tells the first thing that is wrong. *)

From Coq Require Import String.
From Verif Require Import Base Asn1rs Ber Der Spec SpecValue SpecError SpecComb
  LemBase LemHeader LemSkip LemParse LemDer LemText LemTree LemNode LemComb LemFrame PropFraming Conformance.
Local Open Scope string_scope.
Local Open Scope N_scope.
Local Open Scope list_scope.

Lemma bind_err {E A B} (r : res E A) (k : A -> res E B) e :
  bind r k = Err e -> r = Err e \/ exists a, r = Ok a /\ k a = Err e.
Proof. destruct r; cbn; intros H; try discriminate; [right; eauto|left; congruence]. Qed.

Lemma map_err_err {E F A} (f : E -> F) (r : res E A) x :
  map_err f r = Err x <-> exists e, r = Err e /\ x = f e.
Proof.
  destruct r; cbn; split; intros H; try discriminate; try (destruct H as (? & ? & ?); congruence).
  inv H. eauto.
Qed.

(** ** Headers *)

Lemma high_tag_none rest : forall k c raw, k <= 6 ->
  (high_tag k c raw rest = None <-> Forall (fun b => 128 <= b) (firstn (N.to_nat (6 - k)) rest)).
Proof.
  induction rest as [|b rest IH]; intros k c raw Hk; cbn [high_tag].
  - rewrite firstn_nil. split; [constructor|reflexivity].
  - destruct (5 <? k) eqn:E5.
    + replace (N.to_nat (6 - k)) with O by lia. cbn. split; [constructor|reflexivity].
    + replace (N.to_nat (6 - k)) with (S (N.to_nat (6 - (k + 1)))) by lia. cbn [firstn].
      destruct (b <? 128) eqn:Eb.
      * split; [discriminate|]. intros H. inv H. lia.
      * rewrite IH by lia. split; intros H; [constructor; [lia|exact H]|now inv H].
Qed.

Lemma ident_err i e : bytes_ok i -> (parse_identifier i = Err e <-> ident_fault i e).
Proof.
  intros Hok. split.
  - unfold parse_identifier. destruct i as [|b rest]; [intros H; inv H; constructor|].
    apply bytes_ok_cons in Hok as [Hb Hok].
    destruct (b mod 32 =? 31) eqn:E31; [|discriminate].
    destruct (high_tag 1 0 [b] rest) as [[[]]|] eqn:Hh; [discriminate|]. intros H. inv H.
    apply high_tag_none in Hh; [|lia].
    rewrite (octet_is_leading b Hb). replace (b mod 32) with 31 by lia. now apply if_unending.
  - intros H. inv H; [reflexivity|]. unfold parse_identifier.
    destruct (leading_octet_split c pc 31 ltac:(lia)) as (E1 & E2 & E3 & _).
    rewrite E3, N.eqb_refl. replace (high_tag _ _ _ _) with (@None (N * bytes * bytes)); [reflexivity|].
    symmetry. apply high_tag_none; [lia|assumption].
Qed.

(** What asn1-rs answers to the length octet 80. *)
Definition at_80 (der pc : bool) : res (nerr berror) blen :=
  if der then Err (Error (DerConstraintFailed DcIndefiniteLength))
  else if pc then Ok Indefinite else Err (Error ConstructExpected).

Lemma needed_some n : 0 < n -> needed_new n = Some n.
Proof. intros H. unfold needed_new. destruct (n =? 0) eqn:E; [lia|reflexivity]. Qed.

Lemma take_err {E} l i (e : nerr E) :
  take_streaming l i = Err e <-> N.of_nat (length i) < l /\ e = Incomplete (Some (l - N.of_nat (length i))).
Proof.
  unfold take_streaming, nlen. destruct (N.of_nat (length i) <? l) eqn:El.
  - rewrite needed_some by lia. split; [intros H; inv H; split; [lia|reflexivity]|intros [_ ->]; reflexivity].
  - split; [discriminate|lia].
Qed.

Lemma length_err der pc i e : bytes_ok i ->
  (parse_length (at_80 der pc) i = Err e <-> length_fault der pc i e).
Proof.
  intros Hok. split.
  - unfold parse_length. destruct i as [|b rest]; [intros H; inv H; constructor|].
    apply bytes_ok_cons in Hok as [Hb Hok].
    destruct (b <? 128) eqn:E1; [discriminate|].
    destruct (b =? 128) eqn:E2.
    { assert (b = 128) as -> by lia. unfold at_80.
      destruct der; [|destruct pc]; cbn [bind]; intros H; inv H; now constructor. }
    destruct (b =? 255) eqn:E3; [assert (b = 255) as -> by lia; intros H; inv H; constructor|].
    intros H. apply bind_err in H as [H|([r ds] & H & H')].
    + apply take_err in H as [H ->]. replace b with (128 + (b - 128)) at 1 by lia. apply nf_cut; [lia|exact H].
    + apply take_streaming_ok in H as [-> H]. unfold nlen in H.
      destruct (bytes_to_u64 ds) eqn:Eb; [discriminate|]. inv H'.
      replace b with (128 + N.of_nat (length ds)) by lia. apply nf_too_large; [lia|].
      unfold bytes_to_u64 in Eb. rewrite be_val_unsigned in Eb.
      destruct (unsigned ds <? 18446744073709551616) eqn:Eu; [discriminate|].
      change (2 ^ 64) with 18446744073709551616. lia.
  - intros H. destruct H as [|rest E|rest E E'|rest|k rest Hk Hr|ds rest Hl Hu]; subst; try reflexivity.
    + unfold parse_length.
      destruct (128 + k <? 128) eqn:E1; [lia|]. destruct (128 + k =? 128) eqn:E2; [lia|].
      destruct (128 + k =? 255) eqn:E3; [lia|]. replace (128 + k - 128) with k by lia.
      assert (Ht : take_streaming k rest = Err (@Incomplete berror (Some (k - N.of_nat (length rest))))) by (apply take_err; auto).
      now rewrite Ht.
    + unfold parse_length. set (n := N.of_nat (length ds)).
      destruct (128 + n <? 128) eqn:E1; [lia|]. destruct (128 + n =? 128) eqn:E2; [lia|].
      destruct (128 + n =? 255) eqn:E3; [lia|]. replace (128 + n - 128) with n by lia.
      assert (Ht : take_streaming (E := berror) n (ds ++ rest) = Ok (rest, ds)) by (apply take_streaming_ok; auto).
      rewrite Ht. cbn [bind]. unfold bytes_to_u64. rewrite be_val_unsigned.
      destruct (unsigned ds <? 18446744073709551616) eqn:Eu; [|reflexivity].
      change (2 ^ 64) with 18446744073709551616 in Hu. lia.
Qed.

Definition header_reader (der : bool) : bytes -> iresult berror header :=
  if der then header_from_der else header_from_ber.

Lemma header_reader_eq der i : header_reader der i =
  let* (r1, (cls, constructed, t, raw)) := parse_identifier i in
  let* (r2, l) := parse_length (at_80 der constructed) r1 in
  Ok (r2, mkHeader cls constructed t l (Some raw)).
Proof. destruct der; reflexivity. Qed.

Lemma header_err der i e : bytes_ok i -> (header_reader der i = Err e <-> header_fault der i e).
Proof.
  intros Hok. rewrite header_reader_eq. split.
  - intros H. apply bind_err in H as [H|([r [[[c pc] t] raw]] & H & H')].
    + apply hf_ident. now apply ident_err.
    + apply parse_identifier_sound in H as [-> Hi]; [|exact Hok]. apply bytes_ok_app in Hok as [_ Hok].
      apply bind_err in H' as [H'|([r2 l] & _ & H')]; [|discriminate].
      apply (hf_length _ c pc t); [exact Hi|]. now apply length_err.
  - intros H. inv H.
    + apply ident_err in H0; [|exact Hok]. rewrite H0. reflexivity.
    + rewrite (parse_identifier_complete _ _ _ _ _ H0). cbn [bind].
      apply bytes_ok_app in Hok as [_ Hok]. apply length_err in H1; [|exact Hok]. now rewrite H1.
Qed.

Lemma ber_header_err i e : bytes_ok i -> (header_from_ber i = Err e <-> header_fault false i e).
Proof. exact (header_err false i e). Qed.
Lemma der_header_err i e : bytes_ok i -> (header_from_der i = Err e <-> header_fault true i e).
Proof. exact (header_err true i e). Qed.

(** ** Elements *)

Scheme body_fault_mind := Induction for body_fault Sort Prop
with until_fault_mind := Induction for until_fault Sort Prop.
Combined Scheme body_until_fault_ind from body_fault_mind, until_fault_mind.

Lemma skip_fails d : forall i h e, bytes_ok i ->
  ber_skip_object_content d i h = Err e -> body_fault d h i e.
Proof.
  induction d as [|d IH]; intros i h e Hok H; cbn [ber_skip_object_content] in H; [inv H; constructor|].
  destruct (h_length h) as [n|] eqn:El.
  - destruct ((n =? 0) && (h_tag h =? T_EndOfContent)); [discriminate|].
    apply bind_err in H as [H|([] & _ & H)]; [|discriminate].
    apply take_err in H as [H ->]. now apply bf_short.
  - destruct (h_constructed h) eqn:Ec; cbn [negb] in H; [|inv H; now apply bf_primitive].
    apply bf_inside; auto. revert H. generalize (S (length i)) as fuel. intros fuel; revert i Hok.
    induction fuel as [|fuel IHf]; intros i Hok H; cbn [ber_skip_loop] in H; [discriminate|].
    apply bind_err in H as [H|([i2 h2] & H & H')].
    { apply uf_header. now apply ber_header_err. }
    apply header_from_ber_sound in H as (hb & -> & Hh); [|exact Hok]. apply bytes_ok_app in Hok as [_ Hok].
    apply bind_err in H' as [H|([i3 eoc] & H & H')].
    { apply (uf_body d h2); auto. }
    pose proof (skip_eoc _ _ _ _ _ H) as ->. apply skip_sound in H as (b & -> & Hb); [|exact Hok].
    destruct (eocb h2) eqn:Ee; [discriminate|]. apply bytes_ok_app in Hok as [_ Hok].
    apply (uf_later d h2); auto. now apply eocb_false.
Qed.

Lemma skip_fault_mut :
  (forall d h i e, body_fault d h i e -> bytes_ok i -> ber_skip_object_content d i h = Err e)
  /\ (forall d i e, until_fault d i e -> bytes_ok i -> forall fuel, (length i < fuel)%nat ->
        ber_skip_loop (ber_skip_object_content d) fuel i = Err e).
Proof.
  apply body_until_fault_ind.
  - intros h i _. reflexivity.
  - intros d h n i El Hn Hok. cbn [ber_skip_object_content]. rewrite El.
    destruct ((n =? 0) && (h_tag h =? T_EndOfContent)) eqn:Ee; [lia|].
    assert (Ht : take_streaming n i = Err (@Incomplete berror (Some (n - N.of_nat (length i))))) by (apply take_err; auto).
    now rewrite Ht.
  - intros d h i El Ec Hok. cbn [ber_skip_object_content]. now rewrite El, Ec.
  - intros d h i e El Ec _ IH Hok. cbn [ber_skip_object_content]. rewrite El, Ec. cbn [negb]. apply IH; [exact Hok|lia].
  - intros d i e H Hok fuel Hf. destruct fuel as [|fuel]; [lia|]. cbn [ber_skip_loop].
    apply ber_header_err in H; [|exact Hok]. unfold ber_read_element_header. now rewrite H.
  - intros d h hb i e Hh _ IH Hok fuel Hf. destruct fuel as [|fuel]; [lia|]. cbn [ber_skip_loop].
    unfold ber_read_element_header. rewrite (header_from_ber_complete _ _ _ Hh). cbn [bind].
    apply bytes_ok_app in Hok as [_ Hok]. now rewrite IH.
  - intros d h hb b i e Hh He Hb _ IH Hok fuel Hf. destruct fuel as [|fuel]; [lia|]. cbn [ber_skip_loop].
    unfold ber_read_element_header. rewrite (header_from_ber_complete _ _ _ Hh). cbn [bind].
    rewrite (skip_complete _ _ _ _ Hb). cbn [bind]. apply eocb_false in He. rewrite He.
    rewrite !bytes_ok_app in Hok. apply IH; [tauto|]. rewrite !app_length in Hf.
    pose proof (header_octets_len _ _ Hh). lia.
Qed.

Lemma content_err d i h e : bytes_ok i ->
  (ber_get_object_content i h d = Err e <-> body_fault d h i e).
Proof.
  intros Hok. split.
  - intros H. apply skip_fails; [exact Hok|]. unfold ber_get_object_content in H.
    apply bind_err in H as [H|([r b] & H & H')]; [exact H|].
    destruct (h_length h); [discriminate|]. destruct (_ <? 2)%nat; discriminate.
  - intros H. apply skip_fault_mut in H; [|exact Hok]. unfold ber_get_object_content. now rewrite H.
Qed.

Lemma any_err i e : bytes_ok i -> (any_from_ber i = Err e <-> element_fault i e).
Proof.
  intros Hok. unfold any_from_ber. split.
  - intros H. apply bind_err in H as [H|([i1 h] & H & H')].
    { apply ef_header. now apply ber_header_err. }
    apply header_from_ber_sound in H as (hb & -> & Hh); [|exact Hok]. apply bytes_ok_app in Hok as [_ Hok].
    apply bind_err in H' as [H|([i2 c] & _ & H)]; [|discriminate].
    rewrite asn1_get_content_eq in H. apply (ef_body h); [exact Hh|]. now apply content_err.
  - intros H. inv H.
    + apply ber_header_err in H0; [|exact Hok]. now rewrite H0.
    + rewrite (header_from_ber_complete _ _ _ H0). cbn [bind]. rewrite asn1_get_content_eq.
      apply bytes_ok_app in Hok as [_ Hok]. apply content_err in H1; [|exact Hok].
      change ASN1_MAX_RECURSION with 50%nat. now rewrite H1.
Qed.

(** ** Values *)

Definition plain_error (x : nerr berror) : Prop := nerr_of_err (err_of_nerr x) = x.

Lemma header_fault_plain der i x : header_fault der i x -> plain_error x.
Proof.
  intros [i' e [|]|c pc t ib i' e _ []]; reflexivity.
Qed.

Lemma body_fault_plain :
  (forall d h i x, body_fault d h i x -> plain_error x) /\ (forall d i x, until_fault d i x -> plain_error x).
Proof. apply body_until_fault_ind; intros; try reflexivity; try assumption. now apply header_fault_plain in h. Qed.

Lemma element_fault_plain i x : element_fault i x -> plain_error x.
Proof. intros [i' e H|h hb i' e _ H]; [now apply header_fault_plain in H|now apply body_fault_plain in H]. Qed.

Lemma reported_eq e : nerr_of_err e = reported e.
Proof. reflexivity. Qed.

Lemma string_tag_of t k : utag_of t = UStr k -> In t string_tags.
Proof. intros H. utag H. subst t. destruct k; cbn; tauto. Qed.

Lemma string_tag_inv t : In t string_tags -> (exists k, utag_of t = UStr k) \/ t = 28 \/ t = 30.
Proof.
  intros H. cbn in H. repeat (destruct H as [<-|H]; [try (left; eexists; reflexivity); tauto|]). contradiction.
Qed.

Lemma charset_iff_both L k c :
  test_valid_charset L k c && utf8_valid c = true <-> repertoire L k c /\ utf8_text c.
Proof. rewrite andb_true_iff, charset_iff, utf8_valid_iff. reflexivity. Qed.

Lemma iter_fails L d : (forall a e, any_ok a -> bytes_ok (a_data a) ->
    try_berobject_from_any L d a = Err e -> value_fault L d (a_header a) (a_data a) (reported e)) ->
  forall fuel data e, bytes_ok data ->
    iter_collect (try_berobject_from_any L d) fuel data = Err e -> series_fault L d data (reported e).
Proof.
  intros IH. induction fuel as [|fuel IHf]; intros [|x data] e Hok H; cbn [iter_collect] in H; try discriminate.
  apply bind_err in H as [H|([r a] & H & H')].
  - apply map_err_err in H as (y & H & ->). apply any_err in H; [|exact Hok]. rewrite <- reported_eq.
    rewrite (element_fault_plain _ _ H). apply sf_element; [discriminate|exact H].
  - apply map_err_ok in H. pose proof (any_from_ber_ok _ _ _ H) as Haok.
    pose proof (any_from_ber_sub _ _ _ H) as (bs & E0 & Hsub & _).
    apply any_from_ber_sound in H as (bs' & E1 & He); [|exact Hok].
    pose proof E0 as E2. rewrite E1 in E2. apply app_inv_tail in E2. subst bs'.
    rewrite E0 in Hok. apply bytes_ok_app in Hok as [Hb Hr]. rewrite E0.
    apply bind_err in H' as [H'|(o & H' & H'')].
    + apply (sf_value _ _ (a_header a) (a_data a)); [exact He|]. apply IH; auto. eapply subslice_ok; eauto.
    + apply conv_value in H'; [|exact Haok|eapply subslice_ok; eauto].
      apply bind_err in H'' as [H''|(l & _ & H'')]; [|discriminate].
      eapply sf_later; [exact He|exact H'|]. now apply IHf.
Qed.

Lemma conv_fails L d : forall a e, any_ok a -> bytes_ok (a_data a) ->
  try_berobject_from_any L d a = Err e -> value_fault L d (a_header a) (a_data a) (reported e).
Proof.
  induction d as [|d IH]; intros [h c] e Ha Hok H; cbn [a_header a_data] in *; [inv H; constructor|].
  cbn [try_berobject_from_any a_header a_data] in H.
  destruct (class_eqb (h_class h) Universal) eqn:Ec; cbn [negb] in H; [|discriminate].
  apply class_eqb_spec in Ec.
  destruct (utag_of (h_tag h)) eqn:Et; try discriminate.
  - utag Et. apply vf_content; [exact Ec|]. destruct c as [|u c]; [inv H; now constructor|].
    destruct (h_constructed h) eqn:Ep; [|discriminate]. inv H. now constructor.
  - utag Et. apply vf_content; [exact Ec|].
    destruct (h_constructed h) eqn:Ep; [inv H; apply cf_string_constructed; [rewrite Et; cbn; tauto|exact Ep]|].
    destruct (Nat.even (length c)) eqn:E1; cbn [negb] in H.
    + destruct (utf16_valid (be_u16_units c)) eqn:E2; [discriminate|]. inv H.
      apply cf_bmp_text; auto; [now apply Nat.even_spec|]. rewrite <- bmp_iff by exact Hok.
      intros [_ E]. congruence.
    + inv H. apply cf_bmp_odd; auto. apply Nat.odd_spec. unfold Nat.odd. now rewrite E1.
  - utag Et. apply vf_content; [exact Ec|]. apply bind_err in H as [H|(b & _ & H)]; [|discriminate].
    unfold any_bool in H. cbn [a_header a_data] in H.
    assert (E : e = InvalidLength /\ h_length h <> Definite 1).
    { destruct (h_length h) as [[|[p|p|]]|] eqn:El; try (inv H; split; [reflexivity|discriminate]).
      destruct c; discriminate. }
    destruct E as [-> E]. now apply cf_boolean.
  - utag Et. apply vf_content; [exact Ec|]. apply bind_err in H as [H|(b & _ & H)]; [|discriminate].
    unfold any_enumerated, assert_primitive in H. cbn [a_header a_data] in H.
    destruct (h_constructed h) eqn:Ep; cbn [bind] in H; [inv H; now apply cf_enumerated_constructed|].
    unfold bytes_to_u64 in H. rewrite be_val_unsigned in H.
    assert (E : e = IntegerTooLarge /\ 2 ^ 32 <= unsigned c).
    { change (2 ^ 32) with 4294967296. destruct (unsigned c <? 18446744073709551616) eqn:E1.
      - destruct (4294967295 <? unsigned c) eqn:E2; [|discriminate]. inv H. split; [reflexivity|lia].
      - inv H. split; [reflexivity|lia]. }
    destruct E as [-> E]. now apply cf_enumerated_large.
  - utag Et. apply vf_content; [exact Ec|]. destruct (lf_gentime L (h_constructed h) (h_length h) c) eqn:E; inv H.
    now apply cf_generalized_time.
  - utag Et. apply vf_content; [exact Ec|]. destruct (lf_oid_check L (h_constructed h) (h_length h) c) eqn:E; inv H.
    now apply cf_oid.
  - utag Et. apply vf_content; [exact Ec|]. destruct (lf_reloid_check L (h_constructed h) (h_length h) c) eqn:E; inv H.
    now apply cf_relative_oid.
  - utag Et. unfold assert_constructed in H. destruct (h_constructed h) eqn:Ep; cbn [bind] in H.
    + apply bind_err in H as [H|(l & _ & H)]; [|discriminate].
      apply vf_inside; auto. eapply iter_fails; eauto.
    + inv H. apply vf_primitive; auto.
  - utag Et. unfold assert_constructed in H. destruct (h_constructed h) eqn:Ep; cbn [bind] in H.
    + apply bind_err in H as [H|(l & _ & H)]; [|discriminate].
      apply vf_inside; auto. eapply iter_fails; eauto.
    + inv H. apply vf_primitive; auto.
  - utag Et. apply vf_content; [exact Ec|]. destruct (lf_utctime L (h_constructed h) (h_length h) c) eqn:E; inv H.
    now apply cf_utc_time.
  - utag Et. apply vf_content; [exact Ec|]. destruct (h_constructed h) eqn:Ep; [|discriminate]. inv H.
    apply cf_string_constructed; [rewrite Et; cbn; tauto|exact Ep].
  - apply vf_content; [exact Ec|]. unfold from_obj_string in H.
    destruct (h_constructed h) eqn:Ep.
    { inv H. apply cf_string_constructed; [eapply string_tag_of; eauto|exact Ep]. }
    utag Et. rewrite str_tag_eq in Et.
    assert (E : e = StringInvalidCharset /\ test_valid_charset L k c && utf8_valid c <> true).
    { destruct (test_valid_charset L k c); cbn [negb andb] in *; [|inv H; split; [reflexivity|discriminate]].
      destruct (utf8_valid c); cbn [negb andb] in *; [discriminate|inv H; split; [reflexivity|discriminate]]. }
    destruct E as [-> E]. rewrite charset_iff_both in E. now apply (cf_string _ _ k).
Qed.

Scheme value_fault_mind := Induction for value_fault Sort Prop
with series_fault_mind := Induction for series_fault Sort Prop.
Combined Scheme value_series_fault_ind from value_fault_mind, series_fault_mind.

Lemma content_fault_conv L d h c x : h_class h = Universal -> bytes_ok c -> content_fault L h c x ->
  exists e, try_berobject_from_any L (S d) (mkAny h c) = Err e /\ x = reported e.
Proof.
  intros Hc Hok H. cbn [try_berobject_from_any a_header a_data]. rewrite Hc. cbn [class_eqb negb].
  destruct H as [c Et El|Et|u c Et Ep|c e Et E|c Et Ep|c Et Ep Hu|c e Et E|c e Et E|c e Et E|c Ht Ep|k c Et Ep Hn|c Et Ep Ho|c Et Ep He Hn].
  - rewrite Et. exists InvalidLength. split; [|reflexivity].
    change (utag_of 1) with UBoolean. unfold any_bool. cbn [a_header a_data].
    destruct (h_length h) as [[|[p|p|]]|]; try reflexivity. now contradiction El.
  - rewrite Et. exists BerValueError. split; reflexivity.
  - rewrite Et, Ep. exists Unsupported. split; reflexivity.
  - rewrite Et. change (utag_of 6) with UOid. cbv iota. rewrite E. eauto.
  - rewrite Et. exists ConstructUnexpected. split; [|reflexivity]. change (utag_of 10) with UEnumerated.
    unfold any_enumerated, assert_primitive. cbn [a_header a_data]. now rewrite Ep.
  - rewrite Et. exists IntegerTooLarge. split; [|reflexivity]. change (utag_of 10) with UEnumerated.
    unfold any_enumerated, assert_primitive. cbn [a_header a_data]. rewrite Ep. cbn [bind].
    unfold bytes_to_u64. rewrite be_val_unsigned. change (2 ^ 32) with 4294967296 in Hu.
    destruct (unsigned c <? 18446744073709551616); [|reflexivity].
    destruct (4294967295 <? unsigned c) eqn:E2; [reflexivity|lia].
  - rewrite Et. change (utag_of 13) with URelativeOid. cbv iota. rewrite E. eauto.
  - rewrite Et. change (utag_of 23) with UUtcTime. cbv iota. rewrite E. eauto.
  - rewrite Et. change (utag_of 24) with UGeneralizedTime. cbv iota. rewrite E. eauto.
  - exists Unsupported. split; [|reflexivity]. apply string_tag_inv in Ht as [[k Ht]|[Ht|Ht]]; rewrite Ht.
    + unfold from_obj_string. now rewrite Ep.
    + change (utag_of 28) with UUniversalString. cbv iota. now rewrite Ep.
    + change (utag_of 30) with UBmpString. cbv iota. now rewrite Ep.
  - exists StringInvalidCharset. split; [|reflexivity]. rewrite Et, utag_str.
    unfold from_obj_string. rewrite Ep. rewrite <- charset_iff_both in Hn.
    destruct (test_valid_charset L k c); [|reflexivity]. destruct (utf8_valid c); [now contradiction Hn|reflexivity].
  - exists Unsupported. split; [|reflexivity]. rewrite Et. change (utag_of 30) with UBmpString. cbv iota. rewrite Ep.
    apply Nat.odd_spec in Ho. unfold Nat.odd in Ho. now rewrite Ho.
  - exists StringInvalidCharset. split; [|reflexivity]. rewrite Et. change (utag_of 30) with UBmpString. cbv iota. rewrite Ep.
    apply Nat.even_spec in He. rewrite He. cbn [negb].
    destruct (utf16_valid (be_u16_units c)) eqn:E2; [|reflexivity]. contradiction Hn. now apply bmp_iff.
Qed.

Lemma element_ok h c bs rest : bytes_ok (bs ++ rest) -> element 50 h c bs ->
  any_from_ber (bs ++ rest) = Ok (rest, mkAny h c) /\ bytes_ok c /\ bytes_ok rest.
Proof.
  intros Hok He. assert (H : any_from_ber (bs ++ rest) = Ok (rest, mkAny h c)) by now apply any_from_ber_complete.
  split; [exact H|]. apply bytes_ok_app in Hok as [Hb Hr]. split; [|exact Hr].
  apply any_from_ber_sub in H as (bs' & E & Hsub & _). apply app_inv_tail in E. subst bs'.
  eapply subslice_ok; eauto.
Qed.

Lemma value_fault_mut L :
  (forall d h c x, value_fault L d h c x -> bytes_ok c ->
     exists e, try_berobject_from_any L d (mkAny h c) = Err e /\ x = reported e)
  /\ (forall d i x, series_fault L d i x -> bytes_ok i -> forall fuel, (length i <= fuel)%nat ->
     exists e, iter_collect (try_berobject_from_any L d) fuel i = Err e /\ x = reported e).
Proof.
  apply value_series_fault_ind.
  - intros h c _. exists BerMaxDepth. split; reflexivity.
  - intros d h c e Hc H Hok. now apply content_fault_conv.
  - intros d h c Hc Ht Hp _. exists ConstructExpected. split; [|reflexivity].
    cbn [try_berobject_from_any a_header a_data]. rewrite Hc. cbn [class_eqb negb].
    destruct Ht as [Ht|Ht]; rewrite Ht; unfold assert_constructed; rewrite Hp; reflexivity.
  - intros d h c e Hc Ht Hp _ IH Hok. destruct (IH Hok (length c) (le_n _)) as (y & Hy & ->).
    exists y. split; [|reflexivity]. cbn [try_berobject_from_any a_header a_data]. rewrite Hc. cbn [class_eqb negb].
    destruct Ht as [Ht|Ht]; rewrite Ht; unfold assert_constructed; rewrite Hp; cbn [bind];
      [change (utag_of 16) with USequence|change (utag_of 17) with USet]; cbv iota; now rewrite Hy.
  - intros d i e Hn H Hok fuel Hf. destruct i as [|x i]; [contradiction|]. destruct fuel as [|fuel]; [cbn in Hf; lia|].
    exists (err_of_nerr e). split; [|symmetry; exact (element_fault_plain _ _ H)].
    cbn [iter_collect]. apply any_err in H; [|exact Hok]. now rewrite H.
  - intros d h c bs rest e He _ IH Hok fuel Hf. destruct (element_ok _ _ _ _ Hok He) as (Ha & Hc & Hr).
    pose proof (any_from_ber_shorter _ _ _ Ha). destruct (IH Hc) as (y & Hy & ->). exists y. split; [|reflexivity].
    destruct (bs ++ rest) as [|x i] eqn:E; [cbn in *; lia|]. destruct fuel as [|fuel]; [cbn in Hf; lia|].
    cbn [iter_collect]. rewrite Ha. cbn [map_err bind]. now rewrite Hy.
  - intros d h c bs k rest e He Hv _ IH Hok fuel Hf. destruct (element_ok _ _ _ _ Hok He) as (Ha & Hc & Hr).
    pose proof (any_from_ber_shorter _ _ _ Ha).
    destruct (bs ++ rest) as [|x i] eqn:E; [cbn in *; lia|]. destruct fuel as [|fuel]; [cbn in Hf; lia|].
    destruct (IH Hr fuel ltac:(cbn in *; lia)) as (y & Hy & ->). exists y. split; [|reflexivity].
    cbn [iter_collect]. rewrite Ha. cbn [map_err bind]. apply value_conv in Hv. rewrite Hv. cbn [bind]. now rewrite Hy.
Qed.

Lemma value_err L d h c x : any_ok (mkAny h c) -> bytes_ok c ->
  (map_err nerr_of_err (try_berobject_from_any L d (mkAny h c)) = Err x <-> value_fault L d h c x).
Proof.
  intros Ha Hok. rewrite map_err_err. split.
  - intros (e & H & ->). now apply conv_fails in H.
  - intros H. now apply value_fault_mut in H.
Qed.

(** ** The BER readers *)

(** [Any::from_ber], which [parse_ber_any] is. *)
Theorem C102_element i e : bytes_ok i -> (parse_ber_any i = Err e <-> element_fault i e).
Proof. exact (any_err i e). Qed.

Theorem C102_header i e : bytes_ok i -> (ber_read_element_header i = Err e <-> header_fault false i e).
Proof. exact (ber_header_err i e). Qed.

Theorem C102_parse_ber L d i e : bytes_ok i -> (parse_ber_recursive L i d = Err e <-> ber_fault L d i e).
Proof.
  intros Hok. unfold parse_ber_recursive, parse_ber_any_r. destruct d as [|d]; cbn [Nat.eqb].
  { split; [intros H; inv H; constructor|intros H; inv H; reflexivity]. }
  split.
  - intros H. apply bind_err in H as [H|([r [h c]] & H & H')]; [apply rf_element; now apply any_err|].
    pose proof (any_from_ber_ok _ _ _ H) as Haok.
    pose proof (any_from_ber_sound _ _ _ Hok H) as (bs & -> & He). cbn [a_header a_data] in He.
    destruct (element_ok _ _ _ _ Hok He) as (_ & Hc & _).
    apply bind_err in H' as [H'|(o & _ & H')]; [|discriminate].
    apply value_err in H'; auto. eapply rf_value; eauto.
  - intros H. inversion H as [|d' i' e' Hf|d' h c bs rest e' He Hv]; subst.
    + apply any_err in Hf; [now rewrite Hf|exact Hok].
    + destruct (element_ok _ _ _ _ Hok He) as (Ha & Hc & _). rewrite Ha. cbn [bind].
      apply value_err in Hv; [now rewrite Hv|now apply any_from_ber_ok in Ha|exact Hc].
Qed.

Theorem C102_any_with_tag L t d i e : bytes_ok i ->
  (parse_ber_any_with_tag_r L i t d = Err e <-> any_tag_fault L t d i e).
Proof.
  intros Hok. unfold parse_ber_any_with_tag_r. destruct d as [|d]; cbn [Nat.eqb].
  { split; [intros H; inv H; constructor|intros H; inv H; reflexivity]. }
  split.
  - intros H. apply bind_err in H as [H|([r [h c]] & H & H')]; [apply at_element; now apply any_err|].
    pose proof (any_from_ber_ok _ _ _ H) as Haok.
    pose proof (any_from_ber_sound _ _ _ Hok H) as (bs & -> & He). cbn [a_header a_data] in He.
    destruct (element_ok _ _ _ _ Hok He) as (_ & Hc & _).
    unfold assert_tag in H'. cbn [a_header] in H'. destruct (N.eqb_spec (h_tag h) t) as [Et|Et].
    + cbn [bind map_err] in H'. apply bind_err in H' as [H'|(o & _ & H')]; [|discriminate].
      apply value_err in H'; auto. eapply at_value; eauto.
    + cbn [bind map_err] in H'. inv H'. eapply at_tag; eauto.
  - intros H. inversion H as [|d' i' e' Hf|d' h c bs rest He Ht|d' h c bs rest e' He Ht Hv]; subst.
    + apply any_err in Hf; [now rewrite Hf|exact Hok].
    + destruct (element_ok _ _ _ _ Hok He) as (Ha & Hc & _). rewrite Ha. cbn [bind a_header].
      unfold assert_tag. apply N.eqb_neq in Ht. now rewrite Ht.
    + destruct (element_ok _ _ _ _ Hok He) as (Ha & Hc & _). rewrite Ha. cbn [bind a_header].
      unfold assert_tag. rewrite N.eqb_refl. cbn [bind map_err].
      apply value_err in Hv; [now rewrite Hv|now apply any_from_ber_ok in Ha|exact Hc].
Qed.

Theorem C102_content L t l pc d i e : bytes_ok i ->
  (ber_read_element_content_as L i t l pc d = Err e <-> ber_content_fault L t l pc d i e).
Proof.
  intros Hok. unfold ber_read_element_content_as, try_read_berobjectcontent_as.
  change (header_new Universal pc t l) with (read_as t l pc). cbv zeta.
  assert (Hread : forall x, (let* (r, data) := ber_get_object_content i (read_as t l pc) d in
      let* o := map_err nerr_of_err (try_berobject_from_any L d (mkAny (read_as t l pc) data)) in
      Ok (r, o_content o)) = Err x
    <-> body_fault d (read_as t l pc) i x
        \/ exists b r, i = b ++ r /\ body d (read_as t l pc) b
             /\ value_fault L d (read_as t l pc) (content_octets (read_as t l pc) b) x).
  { intros x. split.
    - intros H. apply bind_err in H as [H|([r c] & H & H')]; [left; now apply content_err|].
      pose proof (get_content_any_ok _ _ _ _ _ H) as Ha.
      apply get_content_sound in H as (b & -> & Hb & ->); [|exact Hok]. apply bytes_ok_app in Hok as [Hok _].
      right. exists b, r. repeat split; auto.
      apply bind_err in H' as [H'|(o & _ & H')]; [|discriminate]. apply value_err in H'; auto.
      eapply subslice_ok; [apply content_octets_sub|exact Hok].
    - intros [H|(b & r & -> & Hb & Hv)]; [apply content_err in H; [now rewrite H|exact Hok]|].
      apply bytes_ok_app in Hok as [Hok _].
      pose proof (get_content_complete _ _ _ r Hb) as Hg. rewrite Hg. cbn [bind].
      apply value_err in Hv; [now rewrite Hv|now apply get_content_any_ok in Hg|].
      eapply subslice_ok; [apply content_octets_sub|exact Hok]. }
  destruct l as [n|].
  - change MAX_OBJECT_SIZE with 4294967295. destruct (4294967295 <? n) eqn:En.
    { split.
      - intros H. inv H. now apply (bc_large _ _ _ _ _ n); [|lia].
      - intros H. inv H; try reflexivity; try discriminate;
          repeat match goal with H : Definite _ = Definite _ |- _ => inv H end; try lia.
        match goal with H : forall n, _ |- _ => specialize (H n eq_refl) end. lia. }
    unfold nlen. destruct (N.of_nat (length i) <? n) eqn:Ei.
    { rewrite needed_some by lia. split.
      - intros H. inv H. apply (bc_short _ _ _ _ _ n); [reflexivity|lia..].
      - intros H. inv H; try reflexivity; try discriminate;
          repeat match goal with H : Definite _ = Definite _ |- _ => inv H end; try lia; try reflexivity.
        + rewrite app_length in Ei. lia.
        + match goal with H : body _ _ _ |- _ => inv H end; cbn [read_as h_length] in *; [|discriminate].
          match goal with H : Definite _ = Definite _ |- _ => inv H end. rewrite app_length in Ei. lia. }
    rewrite Hread. split.
    + intros [H|(b & r & -> & Hb & Hv)].
      * inv H; cbn [read_as h_length] in *; try discriminate.
        -- pose proof (firstn_skipn (N.to_nat n) i) as Es. rewrite <- Es.
           apply (bc_no_depth _ _ _ _ _ n); auto; [lia|]. rewrite firstn_length. lia.
        -- match goal with H : Definite _ = Definite _ |- _ => inv H end. lia.
      * apply bc_value; auto. intros m Hm. inv Hm. lia.
    + intros H. inv H; try discriminate;
        repeat match goal with H : Definite _ = Definite _ |- _ => inv H end; try lia.
      * left. constructor.
      * right. eauto 10.
  - rewrite Hread. split.
    + intros [H|(b & r & -> & Hb & Hv)]; [now apply bc_indefinite|]. apply bc_value; auto. discriminate.
    + intros H. inv H; try discriminate; eauto 10.
Qed.

Theorem C102_with_tag L t i e : bytes_ok i -> (parse_ber_with_tag L i t = Err e <-> ber_tag_fault L t i e).
Proof.
  intros Hok. unfold parse_ber_with_tag, ber_read_element_header. split.
  - intros H. apply bind_err in H as [H|([i1 h] & H & H')]; [apply bt_header; now apply ber_header_err|].
    apply header_from_ber_sound in H as (hb & -> & Hh); [|exact Hok]. apply bytes_ok_app in Hok as [_ Hok].
    unfold assert_tag in H'. destruct (h_tag h =? t) eqn:Et; cbn [map_err bind] in H'.
    + apply bind_err in H' as [H'|([i2 c] & _ & H')]; [|discriminate].
      assert (Et' : h_tag h = t) by lia. apply (bt_content _ _ h); auto. rewrite Et' in H'. now apply C102_content.
    + inv H'. apply bt_tag; auto. lia.
  - intros H. revert Hok. destruct H as [i' e' H|h hb i' Hh Ht|h hb i' e' Hh Ht H]; intros Hok.
    + apply ber_header_err in H; [now rewrite H|exact Hok].
    + rewrite (header_from_ber_complete _ _ _ Hh). cbn [bind]. unfold assert_tag.
      destruct (h_tag h =? t) eqn:Et; [lia|]. reflexivity.
    + rewrite (header_from_ber_complete _ _ _ Hh). cbn [bind]. unfold assert_tag.
      rewrite Ht, N.eqb_refl. cbn [map_err bind]. apply bytes_ok_app in Hok as [_ Hok].
      apply C102_content in H; [|exact Hok]. change MAX_RECURSION with 50%nat. now rewrite H.
Qed.

(** ** The DER readers *)

Theorem C103_header i e : bytes_ok i -> (der_read_element_header i = Err e <-> header_fault true i e).
Proof. exact (der_header_err i e). Qed.

Lemma time_ends c r : (nlen c =? 0) || negb (match nth_error (c ++ r) (N.to_nat (nlen c - 1)) with
                         | Some b => b =? 90 | None => false end) = true
  <-> ~ exists s, c = s ++ [90].
Proof.
  destruct (list_eq_dec N.eq_dec c []) as [->|Hc].
  { cbn. split; [|reflexivity]. intros _ (s & E). destruct s; discriminate. }
  pose proof (app_removelast_last 0 Hc) as E. set (s := removelast c) in *. set (b := last c 0) in *. clearbody s b.
  subst c. rewrite nlen_app, nlen_cons, nlen_nil, <- app_assoc.
  rewrite nth_error_app2 by (unfold nlen; lia).
  replace (N.to_nat (nlen s + (1 + 0) - 1) - length s)%nat with 0%nat by (unfold nlen; lia).
  cbn [app nth_error]. replace (nlen s + (1 + 0) =? 0) with false by lia. cbn [orb].
  destruct (b =? 90) eqn:Eb; cbn [negb]; split; try discriminate; try reflexivity.
  - intros H. contradiction H. exists s. f_equal. f_equal. lia.
  - intros _ (s' & E'). apply app_inj_tail in E' as [_ ->]. discriminate.
Qed.

Lemma check_err L t pc d c r e : der_check_fault t pc c r e ->
  der_read_element_content_as L (c ++ r) t (Definite (nlen c)) pc d = Err e.
Proof.
  intros H. unfold der_read_element_content_as. cbn [length_definite map_err nerr_of_err bind].
  destruct (nlen (c ++ r) <? nlen c) eqn:En; [rewrite nlen_app in En; lia|]. rewrite firstn_app_nlen.
  destruct H as [c r Et Hl|b r Et H0 H1|r Et|b c r Et Hb|c r Et Ep|Et Ep|b r Et Ep Hb|u c r Et Ep Hu Hh|u c r Et Ep Hu Hc Hz|c r Hs Ep|c r Ht Hz].
  - subst t. change (utag_of 1) with UBoolean. cbv iota. unfold nlen.
    destruct (N.of_nat (length c) =? 1) eqn:E; [lia|reflexivity].
  - subst t. change (utag_of 1) with UBoolean. cbv iota. cbn [app nlen].
    destruct (b =? 0) eqn:E0; [lia|]. destruct (b =? 255) eqn:E1; [lia|]. reflexivity.
  - subst t. reflexivity.
  - subst t. change (utag_of 2) with UInteger. cbv iota. rewrite N.eqb_refl. cbn [andb].
    destruct (b =? 0); [reflexivity|]. destruct (b <? 128) eqn:E; [reflexivity|lia].
  - subst t pc. reflexivity.
  - subst t pc. reflexivity.
  - subst t pc. change (utag_of 3) with UBitString. cbv iota. cbn [app]. unfold der_read_content_bitstring.
    cbn [be_u8 bind]. destruct (7 <? b) eqn:E; [lia|reflexivity].
  - subst t pc. change (utag_of 3) with UBitString. cbv iota. unfold der_read_content_bitstring.
    destruct (c ++ r) as [|u' i]; [discriminate|]. inv Hh. cbn [be_u8 bind]. destruct (7 <? u) eqn:E; [reflexivity|lia].
  - subst t pc. change (utag_of 3) with UBitString. cbv iota. unfold der_read_content_bitstring.
    cbn [app be_u8 bind]. destruct (7 <? u) eqn:E; [lia|]. rewrite nlen_cons.
    destruct (1 + nlen c =? 0) eqn:E0; [lia|]. replace (1 + nlen c - 1) with (nlen c) by lia.
    assert (Ht : take_streaming (E := berror) (nlen c) (c ++ r) = Ok (r, c)) by (apply take_streaming_ok; auto).
    rewrite Ht. cbn [bind]. assert (length c <> 0)%nat by (destruct c; [contradiction|discriminate]).
    destruct (1 <? 1 + nlen c) eqn:E1; [|unfold nlen in E1; lia].
    rewrite nth_error_last by (unfold nlen; lia).
    destruct (unused_bits_zero (N.to_nat u) (last c 0)) eqn:Ez; [|reflexivity].
    apply unused_bits_spec in Ez. rewrite N2Nat.id in Ez. contradiction.
  - subst pc. apply string_tag_inv in Hs as [[k Hs]|[Hs|Hs]]; [now rewrite Hs|subst t; reflexivity..].
  - apply (time_ends c r) in Hz. destruct Ht as [-> | ->];
      [change (utag_of 23) with UUtcTime|change (utag_of 24) with UGeneralizedTime]; cbv iota; now rewrite Hz.
Qed.

Lemma check_cases t pc c r :
  (exists e, der_check_fault t pc c r e) \/ (t <> 3 /\ der_checked t pc c)
  \/ (t = 3 /\ pc = false /\ exists k, der_read_content_bitstring (c ++ r) (nlen c) = Ok (r, k)).
Proof.
  destruct (N.eq_dec t 3) as [->|H3].
  { destruct pc; [left; eexists; now apply dk_bit_string_constructed|].
    destruct (c ++ r) as [|u i] eqn:Ei.
    { apply app_eq_nil in Ei as [-> ->]. left. eexists. now apply dk_bit_string_nothing. }
    destruct (N.lt_ge_cases 7 u) as [Hu|Hu].
    { left. eexists. eapply dk_bit_string_unused; eauto. now rewrite Ei. }
    destruct c as [|u' c]; cbn [app] in Ei.
    { subst r. left. eexists. now apply dk_bit_string_empty. }
    apply (f_equal (hd 0)) in Ei as Eu. apply (f_equal (@tl N)) in Ei as Ec. cbn in Eu, Ec. subst u' i.
    destruct (list_eq_dec N.eq_dec c []) as [->|Hc].
    { right. right. repeat split. exists (CBitString u []).
      change (u :: [] ++ r) with ([u] ++ r). apply der_bitstring_ok. exists [u]. split; [reflexivity|]. split; [reflexivity|].
      exists u, []. repeat split; try exact Hu; intros H; contradiction. }
    destruct (N.eq_dec (last c 0 mod 2 ^ u) 0) as [Hz|Hz]; [|left; eexists; now apply dk_bit_string_padding].
    right. right. repeat split. exists (CBitString u c).
    change (u :: c ++ r) with ((u :: c) ++ r). apply der_bitstring_ok. exists (u :: c). split; [reflexivity|]. split; [reflexivity|].
    exists u, c. repeat split; auto. }
  destruct (N.eq_dec t 1) as [->|H1].
  { destruct c as [|b [|b' c]]; [left; eexists; now apply dk_boolean_length| |left; eexists; now apply dk_boolean_length].
    destruct (N.eq_dec b 0) as [->|]; [|destruct (N.eq_dec b 255) as [->|]; [|left; eexists; now apply dk_boolean]].
    all: right; left; split; [lia|]; repeat split; intros; try discriminate; auto; try lia.
    all: match goal with H : In 1 _ |- _ => cbn in H; lia end. }
  destruct (N.eq_dec t 2) as [->|H2].
  { destruct c as [|b0 [|b1 c]]; [left; eexists; now apply dk_integer_empty| |].
    - right; left; split; [lia|]; repeat split; intros; try discriminate; auto; try lia.
      match goal with H : In 2 _ |- _ => cbn in H; lia end.
    - destruct (N.eq_dec b0 0) as [->|]; [destruct (N.lt_ge_cases b1 128); [left; eexists; now apply dk_integer_zeroes|]|].
      all: right; left; split; [lia|]; repeat split; intros; try discriminate; auto; try lia.
      all: match goal with H : In 2 _ |- _ => cbn in H; lia end. }
  destruct (in_dec N.eq_dec t string_tags) as [Hs|Hs].
  { destruct pc; [left; eexists; now apply dk_string|]. right; left; split; [exact H3|].
    repeat split; intros; try contradiction; auto. cbn in Hs. lia. }
  destruct (N.eq_dec t 23) as [Ht|Ht]; [|destruct (N.eq_dec t 24) as [Ht'|Ht']].
  1,2: destruct ((nlen c =? 0) || negb (match nth_error (c ++ []) (N.to_nat (nlen c - 1)) with
                         | Some b => b =? 90 | None => false end)) eqn:E;
    [left; eexists; apply dk_time; [tauto|now apply time_ends in E]|].
  1,2: right; left; split; [exact H3|]; repeat split; intros; try contradiction.
  1,2: destruct (list_eq_dec N.eq_dec c []) as [->|Hc]; [discriminate|].
  1,2: exists (removelast c); destruct (N.eq_dec (last c 0) 90) as [E9|E9];
    [rewrite <- E9; now apply app_removelast_last|].
  1,2: exfalso; assert (Hn : ~ exists s, c = s ++ [90])
      by (intros (s & Es); apply E9; rewrite Es; apply last_last);
    apply (time_ends c []) in Hn; congruence.
  right; left; split; [exact H3|]; repeat split; intros; try contradiction. tauto.
Qed.

Lemma checked_no_fault t pc c r e : t <> 3 -> der_checked t pc c -> ~ der_check_fault t pc c r e.
Proof.
  intros H3 (Hb & Hi & Hs & Ht) H. inv H; try contradiction.
  - destruct (Hb eq_refl) as [->| ->]; contradiction.
  - destruct (Hb eq_refl) as [E|E]; injection E as ->; contradiction.
  - apply (Hi eq_refl). auto.
  - specialize (Hs H0). discriminate.
  - apply H1. now apply Ht.
Qed.

Theorem C103_content L t l pc d i e : bytes_ok i ->
  (der_read_element_content_as L i t l pc d = Err e <-> der_content_fault L t l pc d i e).
Proof.
  intros Hok. destruct l as [n|].
  2:{ split; [intros H; inv H; now apply dc_indefinite|intros H; inv H; try discriminate; reflexivity]. }
  destruct (N.lt_ge_cases (N.of_nat (length i)) n) as [Hi|Hi].
  { unfold der_read_element_content_as. cbn [length_definite map_err nerr_of_err bind]. unfold nlen.
    destruct (N.of_nat (length i) <? n) eqn:E; [|lia]. rewrite needed_some by lia. split.
    - intros H. inv H. now apply (dc_short _ _ _ _ _ n).
    - intros H. inv H; try discriminate; repeat match goal with H : Definite _ = Definite _ |- _ => inv H end;
        try reflexivity; rewrite app_length in Hi; lia. }
  rewrite <- (firstn_skipn (N.to_nat n) i) in Hok |- *. set (c := firstn (N.to_nat n) i) in *. set (r := skipn (N.to_nat n) i) in *.
  assert (Hn : N.of_nat (length c) = n) by (unfold c; rewrite firstn_length; lia). clearbody c r. clear Hi i. subst n.
  change (N.of_nat (length c)) with (nlen c).
  assert (Hsplit : forall c' r', c' ++ r' = c ++ r -> N.of_nat (length c') = nlen c -> c' = c /\ r' = r).
  { intros c' r' E El. unfold nlen in El. apply Nat2N.inj in El. split.
    - pose proof (f_equal (firstn (length c)) E) as F. now rewrite firstn_app_exact, <- El, firstn_app_exact in F.
    - pose proof (f_equal (skipn (length c)) E) as F. now rewrite skipn_app_exact, <- El, skipn_app_exact in F. }
  destruct (check_cases t pc c r) as [[x Hx]|[[H3 Hc]|(-> & -> & k & Hk)]].
  - split.
    + intros H. rewrite (check_err _ _ _ _ _ _ _ Hx) in H. inv H. now apply (dc_check _ _ _ _ _ (nlen c)).
    + intros H. inv H; try discriminate; match goal with H : Definite _ = Definite _ |- _ => inv H end.
      * rewrite app_length in *. unfold nlen in *. lia.
      * apply Hsplit in H0 as [-> ->]; [|auto]. now apply check_err.
      * apply Hsplit in H0 as [-> ->]; [|auto]. exfalso. eapply checked_no_fault; eauto.
      * apply Hsplit in H0 as [-> ->]; [|auto]. exfalso. eapply checked_no_fault; eauto.
  - rewrite der_content_as_intro by assumption. rewrite C102_content by exact Hok. split.
    + intros H. inv H; try discriminate; repeat match goal with H : Definite _ = Definite _ |- _ => inv H end.
      * now apply (dc_large _ _ _ _ _ (nlen c)).
      * rewrite app_length in *. unfold nlen in *. lia.
      * apply Hsplit in H0 as [-> ->]; [|auto]. apply (dc_value _ _ _ _ _ (nlen c)); auto; constructor.
      * match goal with H : body _ _ _ |- _ => inv H end; cbn [read_as h_length] in *; [|discriminate].
        match goal with H : Definite _ = Definite _ |- _ => inv H end.
        apply Hsplit in H0 as [-> ->]; [|auto].
        apply (dc_value _ _ _ _ _ (nlen c)); auto.
    + intros H. inv H; try discriminate; repeat match goal with H : Definite _ = Definite _ |- _ => inv H end.
      * rewrite app_length in *. unfold nlen in *. lia.
      * apply Hsplit in H0 as [-> ->]; [|auto]. exfalso. eapply checked_no_fault; eauto.
      * apply (bc_large _ _ _ _ _ (nlen c)); [reflexivity|lia].
      * apply Hsplit in H0 as [-> ->]; [|auto].
        destruct d as [|d].
        -- match goal with H : value_fault _ _ _ _ _ |- _ => inv H end. now apply (bc_no_depth _ _ _ _ _ (nlen c)).
        -- apply bc_value; [intros m Em; inv Em; auto| |assumption].
           eapply body_definite; reflexivity.
  - rewrite der_content_as_bits, Hk. split; [discriminate|].
    intros H. inv H; try discriminate; repeat match goal with H : Definite _ = Definite _ |- _ => inv H end; try contradiction.
    + rewrite app_length in *. unfold nlen in *. lia.
    + apply Hsplit in H0 as [-> ->]; [|auto]. apply (check_err L _ _ d) in H3. rewrite der_content_as_bits in H3. congruence.
Qed.

Theorem C103_with_tag L t i e : bytes_ok i -> (parse_der_with_tag L i t = Err e <-> der_tag_fault L t i e).
Proof.
  intros Hok. unfold parse_der_with_tag, der_read_element_header. split.
  - intros H. apply bind_err in H as [H|([i1 h] & H & H')]; [apply dt_header; now apply der_header_err|].
    pose proof (header_from_der_ber _ _ _ H) as [Hb [n Hn]].
    apply header_from_ber_sound in Hb as (hb & -> & Hh); [|exact Hok]. apply bytes_ok_app in Hok as [_ Hok].
    unfold assert_tag in H'. destruct (h_tag h =? t) eqn:Et; cbn [map_err bind] in H'.
    + apply bind_err in H' as [H'|([i2 c] & _ & H')]; [|discriminate].
      assert (Et' : h_tag h = t) by lia. apply (dt_content _ _ h); [exact Hh|congruence|exact Et'|].
      rewrite Et' in H'. now apply C103_content.
    + inv H'. apply dt_tag; [exact Hh|congruence|lia].
  - intros H. revert Hok. destruct H as [i' e' H|h hb i' Hh Hl Ht|h hb i' e' Hh Hl Ht H]; intros Hok.
    + apply der_header_err in H; [now rewrite H|exact Hok].
    + rewrite (header_from_der_complete _ _ _ Hh Hl). cbn [bind]. unfold assert_tag.
      destruct (h_tag h =? t) eqn:Et; [lia|]. reflexivity.
    + rewrite (header_from_der_complete _ _ _ Hh Hl). cbn [bind]. unfold assert_tag.
      rewrite Ht, N.eqb_refl. cbn [map_err bind]. apply bytes_ok_app in Hok as [_ Hok].
      apply C103_content in H; [|exact Hok]. change MAX_RECURSION with 50%nat. now rewrite H.
Qed.

Lemma header_fault_known der i x t : header_fault der i x -> x <> Error (UnknownTag t).
Proof. intros [i' e [|]|c pc u ib i' e _ []]; discriminate. Qed.

Lemma body_fault_known t :
  (forall d h i x, body_fault d h i x -> x <> Error (UnknownTag t))
  /\ (forall d i x, until_fault d i x -> x <> Error (UnknownTag t)).
Proof. apply body_until_fault_ind; intros; try discriminate; try assumption. now apply header_fault_known with (t := t) in h. Qed.

Lemma element_fault_known i x t : element_fault i x -> x <> Error (UnknownTag t).
Proof. intros [i' e H|h hb i' e _ H]; [now apply header_fault_known with (t := t) in H|now apply body_fault_known with (t := t) in H]. Qed.

Lemma reported_known e t : reported e = Error (UnknownTag t) -> e = UnknownTag t.
Proof. destruct e; cbn; intros H; inv H; reflexivity. Qed.

Lemma content_fault_known L h c x t : no_unknown_tag L -> content_fault L h c x -> x <> Error (UnknownTag t).
Proof.
  intros HL H E. destruct (HL (h_constructed h) (h_length h) c t) as (H1 & H2 & H3 & H4).
  inv H; try discriminate.
  all: match goal with H : reported _ = _ |- _ => apply reported_known in H; subst end; congruence.
Qed.

Lemma value_fault_known L t : no_unknown_tag L ->
  (forall d h c x, value_fault L d h c x -> x <> Error (UnknownTag t))
  /\ (forall d i x, series_fault L d i x -> x <> Error (UnknownTag t)).
Proof.
  intros HL. apply value_series_fault_ind; intros; try discriminate; try assumption.
  - eapply content_fault_known; eauto.
  - eapply element_fault_known; eauto.
Qed.

Lemma der_content_fault_known L t l pc d i x u : no_unknown_tag L ->
  der_content_fault L t l pc d i x -> x <> Error (UnknownTag u).
Proof.
  intros HL [| | n c r e _ _ []| |n c r e _ _ _ _ _ H]; try discriminate. now apply (proj1 (value_fault_known L u HL)) in H.
Qed.

Theorem C103_parse_der L d i e : no_unknown_tag L -> bytes_ok i ->
  (parse_der_recursive L i d = Err e <-> der_fault L d i e).
Proof.
  intros HL Hok. unfold parse_der_recursive, der_read_element_header.
  assert (Hun : forall i' h x, bytes_ok i' ->
    ((let* (r, data) := ber_get_object_content i' h d in Ok (r, Obj h (CUnknown (mkAny h data)))) = Err x
     <-> body_fault d h i' x)).
  { intros i' h x Hok'. rewrite <- content_err by exact Hok'. split.
    - intros H. apply bind_err in H as [H|([] & _ & H)]; [exact H|discriminate].
    - intros H. now rewrite H. }
  split.
  - intros H. apply bind_err in H as [H|([i1 h] & H & H')]; [apply df_header; now apply der_header_err|].
    pose proof (header_from_der_ber _ _ _ H) as [Hb [n Hn]].
    apply header_from_ber_sound in Hb as (hb & -> & Hh); [|exact Hok]. apply bytes_ok_app in Hok as [_ Hok].
    rewrite Hn in H'. change MAX_OBJECT_SIZE with 4294967295 in H'.
    destruct (4294967295 <? n) eqn:Em; [inv H'; apply (df_large _ _ h _ n); auto; lia|].
    unfold der_read_element_content_recursive in H'. destruct (h_class h) eqn:Ec.
    2,3,4: apply (df_body _ _ h _ n); auto; [lia|congruence|now apply Hun].
    apply (df_content _ _ h _ n); auto; [lia|]. apply C103_content; [exact Hok|]. rewrite Hn in H'.
    destruct (der_read_element_content_as L i1 (h_tag h) (Definite n) (h_constructed h) d) as [[r c]|x| |] eqn:E;
      try discriminate.
    apply C103_content in E; [|exact Hok].
    destruct x as [m|[]|y]; try (injection H' as <-; reflexivity). exfalso.
    eapply der_content_fault_known; eauto.
  - intros H. revert Hok. destruct H as [i' e' H|h hb n i' Hh Hl Hm|h hb n i' e' Hh Hl Hm Hc H|h hb n i' e' Hh Hl Hm Hc H]; intros Hok.
    + apply der_header_err in H; [now rewrite H|exact Hok].
    + rewrite (header_from_der_complete h hb i' Hh) by congruence. cbn [bind]. rewrite Hl.
      change MAX_OBJECT_SIZE with 4294967295. destruct (4294967295 <? n) eqn:E; [reflexivity|lia].
    + rewrite (header_from_der_complete h hb i' Hh) by congruence. cbn [bind]. rewrite Hl.
      change MAX_OBJECT_SIZE with 4294967295. destruct (4294967295 <? n) eqn:E; [lia|].
      unfold der_read_element_content_recursive. rewrite Hc, Hl.
      apply bytes_ok_app in Hok as [_ Hok]. pose proof H as H'. apply C103_content in H; [|exact Hok]. rewrite H.
      destruct e' as [m|[]|y]; try reflexivity. exfalso. eapply der_content_fault_known; eauto.
    + rewrite (header_from_der_complete h hb i' Hh) by congruence. cbn [bind]. rewrite Hl.
      change MAX_OBJECT_SIZE with 4294967295. destruct (4294967295 <? n) eqn:E; [lia|].
      unfold der_read_element_content_recursive. apply bytes_ok_app in Hok as [_ Hok].
      apply Hun in H; [|exact Hok]. destruct (h_class h); [contradiction|exact H..].
Qed.

(** ** Examples *)

Definition errors {A} (f : bytes -> iresult berror A) (l : list string) : list (option (nerr berror)) :=
  map (fun s => match f (hx s) with Err e => Some e | _ => None end) l.

(** The second element of the SEQUENCE is an UTF8String with an octet that is no text. *)
Example C102_ex : ber_fault SL 50 (hx "30 06 01 01 ff 0c 01 80 aa") (Error StringInvalidCharset).
Proof. apply C102_parse_ber; [bok|vm_compute; reflexivity]. Qed.

Example C102_ex2 :
  errors (parse_ber SL)
    [""; "1f ff ff ff ff ff 01"; "02"; "02 80"; "02 ff"; "04 82 01"; "04 03 aa"; "30 80 02 01 05";
     "30 02 02 05"; "30 03 01 02 00"; "10 00"; "23 02 03 00"; "03 00"; "1e 01 41"; "02 01 05"]
  = [Some (Incomplete (Some 1)); Some (Error InvalidTag); Some (Incomplete (Some 1));
     Some (Error ConstructExpected); Some (Error InvalidLength); Some (Incomplete (Some 1));
     Some (Incomplete (Some 2)); Some (Incomplete (Some 1)); Some (Incomplete (Some 5));
     Some (Incomplete (Some 1)); Some (Error ConstructExpected); Some (Error Unsupported);
     Some (Error BerValueError); Some (Error Unsupported); None]
  /\ errors (fun i => parse_ber_with_tag SL i 4) ["02 01 05"; "04 03 aa"; "04 85 01 00 00 00 00 aa"; "24 80 04"]
  = [Some (Error (UnexpectedTag (Some 4) 2)); Some (Incomplete (Some 3)); Some (Error InvalidLength);
     Some (Incomplete (Some 1))]
  /\ errors (fun i => ber_read_element_content_as SL i 10 (Definite 5) false 50)
    ["01 00 00 00"; "01 00 00 00 00"; "00 00 00 00 00"]
  = [Some (Incomplete (Some 5)); Some (Error IntegerTooLarge); None].
Proof. vm_compute. repeat split. Qed.

(** The tag is looked at before the value: a BOOLEAN without octets is refused for its tag only
    where another one is asked for. *)
Example C102_ex3 :
  any_tag_fault SL 4 1 (hx "01 00 aa") (Error (UnexpectedTag (Some 4) 1))
  /\ any_tag_fault SL 1 1 (hx "01 00 aa") (Error InvalidLength)
  /\ any_tag_fault SL 1 0 (hx "01 00 aa") (Error BerMaxDepth).
Proof. split; [|split]; (apply C102_any_with_tag; [bok|vm_compute; reflexivity]). Qed.

(** Padding bits of a BIT STRING that are not zero. *)
Example C103_ex : no_unknown_tag SL
  /\ der_fault SL 50 (hx "03 02 04 f8") (Error (DerConstraintFailed DcUnusedBitsNotZero)).
Proof.
  split; [exact SL_no_unknown_tag|]. apply C103_parse_der; [exact SL_no_unknown_tag|bok|vm_compute; reflexivity].
Qed.

(** The BIT STRING of length 0: the answer depends on what follows. *)
Example C103_ex2 :
  errors (parse_der SL)
    ["30 80 00 00"; "01 01 01"; "01 02 ff ff"; "02 00"; "02 02 00 7f"; "23 02 03 00"; "03 02 08 00";
     "2c 03 0c 01 41"; "17 01 30"; "04 02 aa"; "84 02 aa"; "04 85 01 00 00 00 00 aa"; "02 01 05"]
  = [Some (Error (DerConstraintFailed DcIndefiniteLength)); Some (Error (DerConstraintFailed DcInvalidBoolean));
     Some (Error InvalidLength); Some (Error (DerConstraintFailed DcIntegerEmpty));
     Some (Error (DerConstraintFailed DcIntegerLeadingZeroes)); Some (Error (DerConstraintFailed DcConstructed));
     Some (Error (InvalidValue 3)); Some (Error (DerConstraintFailed DcConstructed));
     Some (Error (DerConstraintFailed DcMissingTimeZone)); Some (Incomplete (Some 2)); Some (Incomplete (Some 1));
     Some (Error InvalidLength); None]
  /\ errors (parse_der SL) ["03 00"; "03 00 07"; "03 00 08"]
  = [Some (Incomplete (Some 1)); Some (Error InvalidLength); Some (Error (InvalidValue 3))]
  /\ errors (fun i => parse_der_with_tag SL i 2) ["04 00"; "02 02 00 00"; "02 01"]
  = [Some (Error (UnexpectedTag (Some 2) 4)); Some (Error (DerConstraintFailed DcIntegerLeadingZeroes));
     Some (Incomplete (Some 1))].
Proof. vm_compute. repeat split. Qed.

Print Assumptions C102_element.
Print Assumptions C102_header.
Print Assumptions C102_parse_ber.
Print Assumptions C102_any_with_tag.
Print Assumptions C102_content.
Print Assumptions C102_with_tag.
Print Assumptions C103_header.
Print Assumptions C103_content.
Print Assumptions C103_with_tag.
Print Assumptions C103_parse_der.
