(** * From [Any] to objects, and the BER/DER entry points. *)

From Verif Require Import Base Asn1rs Ber Der Spec LemBase LemHeader LemSkip.

(** The header of an [Any] announces the size of its data. *)
Definition any_ok (a : any) : Prop :=
  forall n, h_length (a_header a) = Definite n -> nlen (a_data a) = n.

Lemma skip_definite_len d b r h n e :
  ber_skip_object_content d (b ++ r) h = Ok (r, e) -> h_length h = Definite n -> nlen b = n.
Proof.
  destruct d as [|d]; cbn [ber_skip_object_content]; [discriminate|]. intros H El. rewrite El in H.
  destruct ((n =? 0) && (h_tag h =? T_EndOfContent)) eqn:Ee.
  - inv H. assert (E : length (b ++ r) = length r) by now rewrite H1.
    rewrite app_length in E. destruct b; [|cbn in E; lia]. rewrite nlen_nil. lia.
  - bind_inv H. destruct a as [r' s]. inv H. apply take_streaming_ok in E as [E1 E2].
    apply app_inv_tail in E1. now subst.
Qed.

Lemma get_content_any_ok d i h r c :
  ber_get_object_content i h d = Ok (r, c) -> any_ok (mkAny h c).
Proof.
  intros H n El. cbn [a_header a_data] in *.
  apply get_content_inv in H as (b & -> & -> & H & _).
  eapply skip_definite_len in H; eauto. unfold content_octets. now rewrite El.
Qed.

Lemma any_from_ber_ok i r a : any_from_ber i = Ok (r, a) -> any_ok a.
Proof.
  unfold any_from_ber. intros H. bind_inv H. destruct a0 as [i1 h].
  bind_inv H. destruct a0 as [i2 data]. inv H. rewrite asn1_get_content_eq in E0.
  eapply get_content_any_ok; eauto.
Qed.

Lemma any_from_ber_shorter i r a : any_from_ber i = Ok (r, a) -> (length r + 2 <= length i)%nat.
Proof.
  intros H. apply any_from_ber_split in H as (hb & b & -> & Hl & _).
  rewrite !app_length. lia.
Qed.

(** ** The iterator *)

(** [collected conv data l]: the iterator reads [data] completely, giving [l]. *)
Inductive collected (conv : any -> res berror obj) : bytes -> list obj -> Prop :=
| collected_nil : collected conv [] []
| collected_cons data r a o l :
    any_from_ber data = Ok (r, a) -> conv a = Ok o -> collected conv r l ->
    collected conv data (o :: l).

Lemma iter_collected conv fuel : forall data l,
  iter_collect conv fuel data = Ok l -> collected conv data l.
Proof.
  induction fuel as [|fuel IH]; intros [|x data] l H; cbn [iter_collect] in H; try discriminate.
  - inv H. constructor.
  - inv H. constructor.
  - bind_inv H. destruct a as [r a]. apply map_err_ok in E.
    bind_inv H. bind_inv H. inv H. econstructor; eauto.
Qed.

Lemma collected_iter conv data l : collected conv data l ->
  forall fuel, (length data <= fuel)%nat -> iter_collect conv fuel data = Ok l.
Proof.
  induction 1 as [|data r a o l Ha Hc Hl IH]; intros fuel Hf.
  - destruct fuel; reflexivity.
  - pose proof (any_from_ber_shorter _ _ _ Ha). destruct data as [|x data]; [cbn in *; lia|].
    destruct fuel as [|fuel]; [cbn in *; lia|]. cbn [iter_collect]. rewrite Ha. cbn [map_err bind].
    rewrite Hc. cbn [bind]. rewrite IH by (cbn in *; lia). reflexivity.
Qed.

Lemma iter_iff conv data l :
  iter_collect conv (length data) data = Ok l <-> collected conv data l.
Proof. split; [apply iter_collected|intros H; now apply (collected_iter _ _ _ H)]. Qed.

Lemma collected_mono (conv conv' : any -> res berror obj) data l :
  (forall a o, conv a = Ok o -> conv' a = Ok o) -> collected conv data l -> collected conv' data l.
Proof. intros Hc. induction 1; econstructor; eauto. Qed.

Lemma iter_total conv : (forall a, any_ok a -> total (conv a)) ->
  forall fuel data, (length data <= fuel)%nat -> total (iter_collect conv fuel data).
Proof.
  intros Hc. induction fuel as [|fuel IH]; intros [|x data] Hf; cbn [iter_collect];
    try (cbn in Hf; lia); auto with total.
  apply total_bind; [auto with total|]. intros [r a] E. apply map_err_ok in E.
  pose proof (any_from_ber_shorter _ _ _ E).
  apply total_bind; [apply Hc; eapply any_from_ber_ok; eauto|]. intros o _.
  apply total_bind; [apply IH; lia|]. auto with total.
Qed.

(** ** [try_berobject_from_any] *)

Definition flat (c : content) : Prop :=
  match c with
  | CSequence _ | CSet _ | COptional _ | CTagged _ _ _ => False
  | _ => True
  end.

(** One step: a leaf (the limit is irrelevant), or a SEQUENCE/SET. *)
Lemma conv_cases L d a o : try_berobject_from_any L (S d) a = Ok o ->
  (flat (o_content o) /\ forall d', try_berobject_from_any L (S d') a = Ok o)
  \/ (exists l, h_class (a_header a) = Universal /\ h_constructed (a_header a) = true
        /\ collected (try_berobject_from_any L d) (a_data a) l
        /\ ((utag_of (h_tag (a_header a)) = USequence /\ o = Obj (a_header a) (CSequence l))
            \/ (utag_of (h_tag (a_header a)) = USet /\ o = Obj (a_header a) (CSet l)))).
Proof.
  cbn [try_berobject_from_any].
  destruct (class_eqb (h_class (a_header a)) Universal) eqn:Ec; cbn [negb].
  - apply class_eqb_spec in Ec. destruct (utag_of (h_tag (a_header a))) eqn:Et; intros H.
    all: try (left; split; [|intros d'; exact H]).
    all: try (match type of H with Ok _ = Ok _ => inv H; cbn; exact I end).
    + destruct (a_data a); [discriminate|]. destruct (h_constructed (a_header a)); [discriminate|].
      inv H. exact I.
    + destruct (h_constructed (a_header a)); [discriminate|].
      destruct (negb (Nat.even (length (a_data a)))); [discriminate|].
      destruct (negb (utf16_valid (be_u16_units (a_data a)))); [discriminate|]. inv H. exact I.
    + bind_inv H. inv H. exact I.
    + bind_inv H. inv H. exact I.
    + destruct (lf_gentime L _ _ _); inv H. exact I.
    + destruct (lf_oid_check L _ _ _); inv H. exact I.
    + destruct (lf_reloid_check L _ _ _); inv H. exact I.
    + right. bind_inv H. unfold assert_constructed in E.
      destruct (h_constructed (a_header a)); [|discriminate].
      bind_inv H. apply iter_iff in E0. inv H. eauto 10.
    + right. bind_inv H. unfold assert_constructed in E.
      destruct (h_constructed (a_header a)); [|discriminate].
      bind_inv H. apply iter_iff in E0. inv H. eauto 10.
    + destruct (lf_utctime L _ _ _); inv H. exact I.
    + destruct (h_constructed (a_header a)); inv H. exact I.
    + unfold from_obj_string in H. destruct (h_constructed (a_header a)); [discriminate|].
      destruct (negb (test_valid_charset L k (a_data a))); [discriminate|].
      destruct (negb (utf8_valid (a_data a))); [discriminate|]. inv H. exact I.
  - intros H. left. split; [inv H; exact I|intros d'; exact H].
Qed.

(** SEQUENCE and SET, the other direction. *)
Lemma conv_seq L d a l : h_class (a_header a) = Universal -> h_constructed (a_header a) = true ->
  utag_of (h_tag (a_header a)) = USequence ->
  collected (try_berobject_from_any L d) (a_data a) l ->
  try_berobject_from_any L (S d) a = Ok (Obj (a_header a) (CSequence l)).
Proof.
  intros Hc Hp Ht Hl. cbn [try_berobject_from_any]. rewrite Hc, Ht. cbn [class_eqb negb].
  unfold assert_constructed. rewrite Hp. cbn [bind]. apply iter_iff in Hl. now rewrite Hl.
Qed.
Lemma conv_set L d a l : h_class (a_header a) = Universal -> h_constructed (a_header a) = true ->
  utag_of (h_tag (a_header a)) = USet ->
  collected (try_berobject_from_any L d) (a_data a) l ->
  try_berobject_from_any L (S d) a = Ok (Obj (a_header a) (CSet l)).
Proof.
  intros Hc Hp Ht Hl. cbn [try_berobject_from_any]. rewrite Hc, Ht. cbn [class_eqb negb].
  unfold assert_constructed. rewrite Hp. cbn [bind]. apply iter_iff in Hl. now rewrite Hl.
Qed.

Lemma conv_mono L d : forall d' a o, (d <= d')%nat ->
  try_berobject_from_any L d a = Ok o -> try_berobject_from_any L d' a = Ok o.
Proof.
  induction d as [|d IH]; intros d' a o Hd H; [discriminate|].
  destruct d' as [|d']; [lia|].
  apply conv_cases in H as [[_ H]|(l & Hc & Hp & Hl & [[Ht ->]|[Ht ->]])]; [auto| |].
  - apply conv_seq; auto. eapply collected_mono; [|exact Hl]. intros; apply IH; [lia|auto].
  - apply conv_set; auto. eapply collected_mono; [|exact Hl]. intros; apply IH; [lia|auto].
Qed.

Lemma conv_header L d a o : try_berobject_from_any L d a = Ok o -> o_header o = a_header a.
Proof.
  destruct d as [|d]; [discriminate|]. intros H. 
  apply conv_cases in H as [[_ H]|(l & _ & _ & _ & [[_ ->]|[_ ->]])]; [|reflexivity..].
  specialize (H O). cbn [try_berobject_from_any] in H.
  destruct (class_eqb (h_class (a_header a)) Universal); cbn [negb] in H; [|inv H; reflexivity].
  destruct (utag_of (h_tag (a_header a))); unfold from_obj_string in H;
  repeat match type of H with
    | Ok _ = Ok _ => inv H; reflexivity
    | Err _ = Ok _ => discriminate
    | bind ?r _ = _ => destruct r; cbn [bind] in H; try discriminate
    | context [match ?x with _ => _ end] => destruct x; try discriminate
    end.
Qed.

Lemma conv_total L d : forall a, any_ok a -> total (try_berobject_from_any L d a).
Proof.
  induction d as [|d IH]; intros a Ha; cbn [try_berobject_from_any]; [auto with total|].
  destruct (negb (class_eqb (h_class (a_header a)) Universal)); [auto with total|].
  destruct (utag_of (h_tag (a_header a))).
  all: try (auto with total; fail).
  - destruct (a_data a); [auto with total|]. destruct (h_constructed (a_header a)); auto with total.
  - destruct (h_constructed (a_header a)); [auto with total|].
    destruct (negb (Nat.even (length (a_data a)))); [auto with total|].
    destruct (negb (utf16_valid (be_u16_units (a_data a)))); auto with total.
  - apply total_bind; [|auto with total]. unfold any_bool.
    destruct (h_length (a_header a)) as [[|[p|p|]]|] eqn:El; auto with total.
    apply Ha in El. destruct (a_data a); [discriminate|]. auto with total.
  - apply total_bind; [|auto with total]. unfold any_enumerated, assert_primitive.
    apply total_bind; [destruct (h_constructed (a_header a)); auto with total|].
    intros _ _. destruct (bytes_to_u64 (a_data a)); [|auto with total].
    destruct (4294967295 <? n); auto with total.
  - destruct (lf_gentime L _ _ _); auto with total.
  - destruct (lf_oid_check L _ _ _); auto with total.
  - destruct (lf_reloid_check L _ _ _); auto with total.
  - unfold assert_constructed.
    apply total_bind; [destruct (h_constructed (a_header a)); auto with total|]. intros _ _.
    apply total_bind; [|auto with total]. apply iter_total; auto.
  - unfold assert_constructed.
    apply total_bind; [destruct (h_constructed (a_header a)); auto with total|]. intros _ _.
    apply total_bind; [|auto with total]. apply iter_total; auto.
  - destruct (lf_utctime L _ _ _); auto with total.
  - destruct (h_constructed (a_header a)); auto with total.
  - unfold from_obj_string. destruct (h_constructed (a_header a)); [auto with total|].
    destruct (negb (test_valid_charset L k (a_data a))); [auto with total|].
    destruct (negb (utf8_valid (a_data a))); auto with total.
Qed.

(** ** Content readers *)

Lemma content_as_inv L i t l pc d r c :
  ber_read_element_content_as L i t l pc d = Ok (r, c) ->
  exists data, let h := header_new Universal pc t l in
    ber_get_object_content i h d = Ok (r, data)
    /\ try_berobject_from_any L d (mkAny h data) = Ok (Obj h c)
    /\ (forall n, l = Definite n -> n <= MAX_OBJECT_SIZE).
Proof.
  unfold ber_read_element_content_as, try_read_berobjectcontent_as.
  set (h := header_new Universal pc t l). intros H.
  assert (H' : (let* (r, data) := ber_get_object_content i h d in
    let* o := map_err nerr_of_err (try_berobject_from_any L d (mkAny h data)) in
    Ok (r, o_content o)) = Ok (r, c) /\ forall n, l = Definite n -> n <= MAX_OBJECT_SIZE).
  { destruct l as [n|]; [|split; [exact H|discriminate]].
    destruct (MAX_OBJECT_SIZE <? n) eqn:E1; [discriminate|].
    destruct (nlen i <? n); [discriminate|]. split; [exact H|]. intros m Hm. inv Hm. lia. }
  clear H. destruct H' as [H Hn]. bind_inv H. destruct a as [r' data]. bind_inv H. inv H.
  apply map_err_ok in E0. exists data. cbn zeta. split; [reflexivity|]. split; [|exact Hn].
  pose proof (conv_header _ _ _ _ E0) as Hh. cbn [a_header] in Hh. rewrite E0. f_equal.
  destruct a; cbn in *; now subst.
Qed.

Lemma content_as_intro L i t l pc d r c data :
  let h := header_new Universal pc t l in
  ber_get_object_content i h d = Ok (r, data) ->
  try_berobject_from_any L d (mkAny h data) = Ok (Obj h c) ->
  (forall n, l = Definite n -> n <= MAX_OBJECT_SIZE) ->
  ber_read_element_content_as L i t l pc d = Ok (r, c).
Proof.
  cbn zeta. set (h := header_new Universal pc t l). intros Hg Hc Hn.
  unfold ber_read_element_content_as, try_read_berobjectcontent_as. fold h.
  rewrite Hg. cbn [bind]. rewrite Hc. cbn [map_err bind].
  destruct l as [n|]; [|reflexivity].
  specialize (Hn n eq_refl). destruct (MAX_OBJECT_SIZE <? n) eqn:E1; [lia|].
  destruct (nlen i <? n) eqn:E2; [exfalso|reflexivity].
  pose proof (get_content_inv _ _ _ _ _ Hg) as (b & -> & -> & Hs & _).
  eapply skip_definite_len in Hs; [|reflexivity]. rewrite nlen_app in E2. lia.
Qed.

Lemma content_as_total L i t l pc d : total (ber_read_element_content_as L i t l pc d).
Proof.
  unfold ber_read_element_content_as, try_read_berobjectcontent_as.
  assert (H : total (let* (r, data) := ber_get_object_content i (header_new Universal pc t l) d in
    let* o := map_err nerr_of_err (try_berobject_from_any L d (mkAny (header_new Universal pc t l) data)) in
    Ok (r, o_content o))).
  { apply total_bind; [auto with total|]. intros [r data] E. apply get_content_any_ok in E.
    apply total_bind; [|auto with total]. apply total_map_err. now apply conv_total. }
  destruct l as [n|]; [|exact H].
  destruct (MAX_OBJECT_SIZE <? n); [auto with total|].
  destruct (nlen i <? n); auto with total.
Qed.
#[export] Hint Resolve content_as_total : total.

Lemma content_as_app_mono L i x t l pc d d' r c : (d <= d')%nat ->
  ber_read_element_content_as L i t l pc d = Ok (r, c) ->
  ber_read_element_content_as L (i ++ x) t l pc d' = Ok (r ++ x, c).
Proof.
  intros Hd H. apply content_as_inv in H as (data & Hg & Hc & Hn).
  eapply content_as_intro; [|eapply conv_mono; eauto|exact Hn].
  eapply get_content_app_mono; eauto.
Qed.

(** ** [parse_ber_recursive] *)

Lemma parse_ber_inv L i d r o : parse_ber_recursive L i d = Ok (r, o) ->
  exists a, any_from_ber i = Ok (r, a) /\ try_berobject_from_any L d a = Ok o.
Proof.
  unfold parse_ber_recursive, parse_ber_any_r. intros H.
  destruct (d =? 0)%nat; [discriminate|]. bind_inv H. destruct a as [r' a].
  bind_inv H. apply map_err_ok in E0. inv H. eauto.
Qed.

Lemma parse_ber_intro L i d r o a :
  any_from_ber i = Ok (r, a) -> try_berobject_from_any L d a = Ok o ->
  parse_ber_recursive L i d = Ok (r, o).
Proof.
  intros Ha Hc. unfold parse_ber_recursive, parse_ber_any_r.
  destruct (d =? 0)%nat eqn:E; [apply Nat.eqb_eq in E; subst d; discriminate|].
  rewrite Ha. cbn [bind]. rewrite Hc. reflexivity.
Qed.

Lemma parse_ber_total L i d : total (parse_ber_recursive L i d).
Proof.
  unfold parse_ber_recursive, parse_ber_any_r. destruct (d =? 0)%nat; [auto with total|].
  apply total_bind; [auto with total|]. intros [r a] E. apply any_from_ber_ok in E.
  apply total_bind; [|auto with total]. apply total_map_err. now apply conv_total.
Qed.

Lemma parse_ber_app_mono L i x d d' r o : (d <= d')%nat ->
  parse_ber_recursive L i d = Ok (r, o) -> parse_ber_recursive L (i ++ x) d' = Ok (r ++ x, o).
Proof.
  intros Hd H. apply parse_ber_inv in H as (a & Ha & Hc).
  eapply parse_ber_intro; [apply any_from_ber_app; exact Ha|eapply conv_mono; eauto].
Qed.

(** ** [parse_ber_with_tag] *)

Lemma with_tag_inv L i t r o : parse_ber_with_tag L i t = Ok (r, o) ->
  exists i1 h c, header_from_ber i = Ok (i1, h) /\ h_tag h = t /\ o = Obj h c
    /\ ber_read_element_content_as L i1 t (h_length h) (h_constructed h) MAX_RECURSION = Ok (r, c).
Proof.
  unfold parse_ber_with_tag, ber_read_element_header. intros H. bind_inv H. destruct a as [i1 h].
  bind_inv H. apply map_err_ok in E0. unfold assert_tag in E0.
  destruct (h_tag h =? t) eqn:Et; [|discriminate]. apply N.eqb_eq in Et.
  bind_inv H. destruct a0 as [i2 c]. inv H. eauto 10.
Qed.

Lemma with_tag_intro L i t r h c i1 :
  header_from_ber i = Ok (i1, h) -> h_tag h = t ->
  ber_read_element_content_as L i1 t (h_length h) (h_constructed h) MAX_RECURSION = Ok (r, c) ->
  parse_ber_with_tag L i t = Ok (r, Obj h c).
Proof.
  intros Hh Ht Hc. unfold parse_ber_with_tag, ber_read_element_header. rewrite Hh. cbn [bind].
  unfold assert_tag. rewrite Ht, N.eqb_refl. cbn [map_err bind]. rewrite Hc. reflexivity.
Qed.

Lemma with_tag_total L i t : total (parse_ber_with_tag L i t).
Proof.
  unfold parse_ber_with_tag, ber_read_element_header. apply total_bind; [apply header_from_ber_total|].
  intros [i1 h] _. apply total_bind.
  - apply total_map_err. unfold assert_tag. destruct (h_tag h =? t); auto with total.
  - intros _ _. apply total_bind; [auto with total|]. intros [i2 c] _. auto with total.
Qed.

Lemma with_tag_app L i x t r o : parse_ber_with_tag L i t = Ok (r, o) ->
  parse_ber_with_tag L (i ++ x) t = Ok (r ++ x, o).
Proof.
  intros H. apply with_tag_inv in H as (i1 & h & c & Hh & Ht & -> & Hc).
  eapply with_tag_intro; [apply header_from_ber_app; exact Hh|exact Ht|].
  eapply content_as_app_mono; eauto.
Qed.
