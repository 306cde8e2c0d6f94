(** * Properties C76 and C78: equality of objects. *)

From Coq Require Import String.
From Verif Require Import Base Asn1rs Ber Der Serialize Equal Spec SpecValue SpecComb SpecSer SpecEqual
  LemBase LemHeader LemSkip LemParse LemTree LemNode LemSer Conformance PropFraming PropDer PropSer.
Local Open Scope string_scope.
Local Open Scope N_scope.
Local Open Scope list_scope.

(** ** Equality of the leaves *)

Lemma slice_eqb_eq (s : bytes) : forall s', slice_eqb N.eqb s s' = true <-> s = s'.
Proof.
  induction s as [|x s IH]; intros [|x' s']; cbn [slice_eqb]; try (split; congruence).
  rewrite andb_true_iff, N.eqb_eq. fold (slice_eqb N.eqb s s'). rewrite IH. split; [intros [-> ->]; reflexivity|].
  intros E. inv E. auto.
Qed.

Lemma class_eqb_eq c c' : class_eqb c c' = true <-> c = c'.
Proof. destruct c, c'; cbn; split; congruence. Qed.

Lemma oid_eqb_eq x x' : oid_eqb x x' = true <-> x = x'.
Proof.
  destruct x as [r s], x' as [r' s']. unfold oid_eqb. cbn [oid_bytes oid_relative].
  rewrite andb_true_iff, slice_eqb_eq, Bool.eqb_true_iff. split; [intros [-> ->]; reflexivity|].
  intros E. inv E. auto.
Qed.

Lemma timezone_eqb_eq z z' : timezone_eqb z z' = true <-> z = z'.
Proof.
  destruct z, z'; cbn [timezone_eqb]; try (split; congruence).
  rewrite andb_true_iff, Z.eqb_eq, N.eqb_eq. split; [intros [-> ->]; reflexivity|].
  intros E. inv E. auto.
Qed.

Lemma datetime_eqb_eq t t' : datetime_eqb t t' = true <-> t = t'.
Proof.
  destruct t as [y mo d h mi s ms z], t' as [y' mo' d' h' mi' s' ms' z']. unfold datetime_eqb.
  cbn [dt_year dt_month dt_day dt_hour dt_minute dt_second dt_millisecond dt_tz].
  rewrite !andb_true_iff, !N.eqb_eq, timezone_eqb_eq.
  assert (Hm : option_eqb N.eqb ms ms' = true <-> ms = ms').
  { destruct ms, ms'; cbn [option_eqb]; rewrite ?N.eqb_eq; split; congruence. }
  rewrite Hm. split; [intros H; decompose [and] H; subst; reflexivity|].
  intros E. inv E. repeat split.
Qed.

Lemma strkind_eqb_eq k k' : strkind_eqb k k' = true <-> k = k'.
Proof. destruct k, k'; cbn; split; congruence. Qed.

Lemma header_eqb_iff h h' :
  header_eqb h h' = true <-> erase_h h = erase_h h' /\ compatible (h_raw_tag h) (h_raw_tag h').
Proof.
  destruct h as [c p t l r], h' as [c' p' t' l' r']. unfold header_eqb, erase_h, compatible.
  cbn [h_class h_constructed h_tag h_length h_raw_tag].
  assert (El : (if blen_is_null l && blen_is_null l' then blen_eqb l l' else true) = true).
  { unfold blen_is_null. destruct l as [[|?]|], l' as [[|?]|]; reflexivity. }
  rewrite El. rewrite !andb_true_iff, class_eqb_eq, N.eqb_eq, Bool.eqb_true_iff.
  assert (Er : match r, r' with
               | Some _, None | None, Some _ => true
               | _, _ => option_eqb (slice_eqb N.eqb) r r'
               end = true <-> r = None \/ r' = None \/ r = r').
  { destruct r, r'; cbn [option_eqb]; rewrite ?slice_eqb_eq; split; intros H; auto.
    - right. right. congruence.
    - decompose [or] H; congruence. }
  rewrite Er. split.
  - intros [[[[-> ->] ->] _] H]. auto.
  - intros [E H]. inv E. auto.
Qed.

(** ** The shape fixes the number of headers *)

Lemma raw_tags_erase :
  (forall o, length (raw_tags (erase o)) = length (raw_tags o))
  /\ (forall c, length (raw_tags_content (erase_content c)) = length (raw_tags_content c)).
Proof.
  assert (Hl : forall l, Forall (fun o => length (raw_tags (erase o)) = length (raw_tags o)) l ->
            length (concat (map raw_tags (map erase l))) = length (concat (map raw_tags l))).
  { induction 1 as [|x l Hx _ IH]; [reflexivity|]. cbn [map concat]. rewrite !app_length. lia. }
  apply obj_content_ind.
  - intros h c H. cbn [erase raw_tags length]. now rewrite H.
  - intros l H. cbn [erase_content raw_tags_content]. auto.
  - intros l H. cbn [erase_content raw_tags_content]. auto.
  - intros h c _ H. cbn [erase_content raw_tags_content]. exact H.
  - intros k t o H. cbn [erase_content raw_tags_content]. exact H.
  - intros c H. destruct c as [| | | | | | | | | | | | | | | |[?|]| |]; destruct H; reflexivity.
Qed.

Lemma same_shape o o' : erase o = erase o' -> length (raw_tags o) = length (raw_tags o').
Proof. intros E. now rewrite <- (proj1 raw_tags_erase o), <- (proj1 raw_tags_erase o'), E. Qed.

Lemma Forall2_app_split {A} (R : A -> A -> Prop) l1 : forall l2 l1' l2',
  length l1 = length l1' -> Forall2 R (l1 ++ l2) (l1' ++ l2') -> Forall2 R l1 l1' /\ Forall2 R l2 l2'.
Proof.
  induction l1 as [|x l1 IH]; intros l2 [|x' l1'] l2' Hl H; try discriminate; [auto|].
  cbn [app] in H. inv H. destruct (IH l2 l1' l2') as [H1 H2]; auto.
Qed.

Definition agree (o o' : obj) : Prop :=
  erase o = erase o' /\ Forall2 compatible (raw_tags o) (raw_tags o').

Lemma agree_list l : Forall (fun o => forall o', obj_eqb o o' = true <-> agree o o') l ->
  forall l', slice_eqb obj_eqb l l' = true <->
    map erase l = map erase l' /\ Forall2 compatible (concat (map raw_tags l)) (concat (map raw_tags l')).
Proof.
  induction 1 as [|x l Hx _ IH]; intros [|x' l']; cbn [slice_eqb map concat].
  - split; auto.
  - split; [discriminate|intros [E _]; discriminate].
  - split; [discriminate|intros [E _]; discriminate].
  - fold (slice_eqb obj_eqb l l'). rewrite andb_true_iff, Hx, IH. unfold agree. split.
    + intros [[E1 F1] [E2 F2]]. split; [congruence|now apply Forall2_app].
    + intros [E F]. inv E. apply Forall2_app_split in F as [F1 F2]; [auto|]. now apply same_shape.
Qed.

Lemma eqb_iff :
  (forall o, forall o', obj_eqb o o' = true <-> agree o o')
  /\ (forall c, forall c', content_eqb c c' = true <->
        erase_content c = erase_content c' /\ Forall2 compatible (raw_tags_content c) (raw_tags_content c')).
Proof.
  apply obj_content_ind.
  - intros h c IH [h' c']. cbn [obj_eqb]. rewrite andb_true_iff, header_eqb_iff, IH.
    unfold agree. cbn [erase raw_tags]. split.
    + intros [[E1 C] [E2 F]]. split; [congruence|constructor; auto].
    + intros [E F]. inv E. inv F. repeat split; auto.
      unfold erase_h. congruence.
  - intros l IH c'. destruct c' as [| | | | | | | | | | | |l'| | | |[?|]| |];
      try (split; [discriminate|intros [E _]; discriminate]).
    cbn [content_eqb erase_content raw_tags_content]. rewrite (agree_list l IH l').
    split; intros [E F]; (split; [congruence|exact F]).
  - intros l IH c'. destruct c' as [| | | | | | | | | | | | |l'| | |[?|]| |];
      try (split; [discriminate|intros [E _]; discriminate]).
    cbn [content_eqb erase_content raw_tags_content]. rewrite (agree_list l IH l').
    split; intros [E F]; (split; [congruence|exact F]).
  - intros h c _ IH c'. destruct c' as [| | | | | | | | | | | | | | | |[x'|]| |];
      try (split; [discriminate|intros [E _]; discriminate]).
    change (content_eqb (COptional (Some (Obj h c))) (COptional (Some x'))) with (obj_eqb (Obj h c) x').
    rewrite IH. unfold agree. cbn [erase_content raw_tags_content].
    split; intros [E F]; (split; [congruence|exact F]).
  - intros k t o IH c'. destruct c' as [| | | | | | | | | | | | | | | |[?|]|k' t' x'|];
      try (split; [discriminate|intros [E _]; discriminate]).
    cbn [content_eqb erase_content raw_tags_content].
    rewrite !andb_true_iff, class_eqb_eq, N.eqb_eq, IH. unfold agree. split.
    + intros [[-> ->] [-> F]]. auto.
    + intros [E F]. inv E. auto.
  - intros c Hc c'.
    destruct c as [| | | | | | | | | | | | | | | |[?|]| |]; destruct Hc;
    destruct c' as [| | | | | | | | | | | | | | | |[?|]| |];
      try (split; [discriminate|intros [E _]; discriminate]);
      cbn [content_eqb erase_content raw_tags_content option_eqb];
      rewrite ?andb_true_iff, ?N.eqb_eq, ?slice_eqb_eq, ?oid_eqb_eq, ?datetime_eqb_eq, ?strkind_eqb_eq,
        ?Bool.eqb_true_iff;
      try (split; [intros H; decompose [and] H; subst; auto|intros [E _]; inv E; auto]; fail).
    destruct a as [h d], a0 as [h' d']. unfold any_eqb. cbn [a_header a_data].
    rewrite andb_true_iff, header_eqb_iff, slice_eqb_eq. split.
    + intros [[E C] ->]. split; [congruence|auto].
    + intros [E F]. inv F. injection E as E1 E2 E3 E4. split; [|assumption]. split; [|assumption].
      unfold erase_h. congruence.
Qed.

(** [==] compares everything but the lengths; raw tags only where both objects
    have one. *)
Theorem C76_exact : forall o o',
  obj_eqb o o' = true <-> erase o = erase o' /\ Forall2 compatible (raw_tags o) (raw_tags o').
Proof. exact (proj1 eqb_iff). Qed.
Print Assumptions C76_exact.

Lemma compatible_refl l : Forall2 compatible l l.
Proof. induction l; constructor; auto. unfold compatible. auto. Qed.

Lemma compatible_sym l l' : Forall2 compatible l l' -> Forall2 compatible l' l.
Proof. induction 1; constructor; auto. unfold compatible in *. intuition congruence. Qed.

Theorem C76_reflexive : forall o, obj_eqb o o = true.
Proof. intros o. apply C76_exact. split; [reflexivity|apply compatible_refl]. Qed.
Print Assumptions C76_reflexive.

Theorem C76_symmetric : forall o o', obj_eqb o o' = obj_eqb o' o.
Proof.
  assert (H : forall o o', obj_eqb o o' = true -> obj_eqb o' o = true).
  { intros o o' H. apply C76_exact in H as [E F]. apply C76_exact. split; [auto|now apply compatible_sym]. }
  intros o o'. destruct (obj_eqb o o') eqn:E.
  - symmetry. now apply H.
  - destruct (obj_eqb o' o) eqn:E'; [|reflexivity]. apply H in E'. congruence.
Qed.
Print Assumptions C76_symmetric.

(** It is not transitive: an object without raw tag equals two that differ. *)
Theorem C78_refuted : exists i1 i2 o1 o2 o3,
  parse_ber SL i1 = Ok ([], o1) /\ parse_ber SL i2 = Ok ([], o3)
  /\ obj_eqb o1 o2 = true /\ obj_eqb o2 o3 = true /\ obj_eqb o1 o3 = false.
Proof.
  exists (hx "04 01 07"), (hx "1f 04 01 07"). eexists. exists (from_obj (COctetString [7])). eexists.
  split; [vm_compute; reflexivity|]. split; [vm_compute; reflexivity|]. vm_compute. auto.
Qed.
Print Assumptions C78_refuted.

(** It is on objects all of whose headers have a raw tag, such as decoded ones,
    and more generally if the one in the middle has. *)
Theorem C78_partial : forall o1 o2 o3, ~ In None (raw_tags o2) ->
  obj_eqb o1 o2 = true -> obj_eqb o2 o3 = true -> obj_eqb o1 o3 = true.
Proof.
  intros o1 o2 o3 Hn H12 H23. apply C76_exact in H12 as [E12 F12]. apply C76_exact in H23 as [E23 F23].
  apply C76_exact. split; [congruence|]. clear - Hn F12 F23.
  revert F12 F23. generalize (raw_tags o1) (raw_tags o3). revert Hn. generalize (raw_tags o2).
  induction l as [|x l IH]; intros Hn l1 l3 F12 F23; inv F12; inv F23; constructor.
  - unfold compatible in *. cbn in Hn. intuition congruence.
  - apply IH; auto. cbn in Hn. tauto.
Qed.
Print Assumptions C78_partial.

(** ** Decoded objects *)

Lemma value_raw_tags L :
  (forall d h c k, value L d h c k -> h_raw_tag h <> None -> ~ In None (raw_tags_content k))
  /\ (forall d c l, series L d c l -> ~ In None (concat (map raw_tags l))).
Proof.
  apply value_series_ind; intros; cbn [raw_tags_content map concat raw_tags]; auto;
    try (cbn; tauto).
  assert (Hr : h_raw_tag h <> None).
  { destruct e as (hb & b & _ & Hh & _). destruct Hh as (ib & lb & _ & _ & _ & Er & _). congruence. }
  rewrite in_app_iff. cbn [In]. intros [[E|E]|E]; [congruence|now apply H|now apply H0].
Qed.

Lemma parsed_raw_tags L i d r o : bytes_ok i -> parse_ber_recursive L i d = Ok (r, o) ->
  ~ In None (raw_tags o).
Proof.
  intros Hok H. apply parse_ber_iff in H as (bs & c & -> & He & Hv); [|assumption].
  destruct o as [h k]. cbn [o_header o_content] in *.
  assert (Hr : h_raw_tag h <> None).
  { destruct He as (hb & b & _ & Hh & _). destruct Hh as (ib & lb & _ & _ & _ & Er & _). congruence. }
  cbn [raw_tags In]. intros [E|E]; [congruence|]. eapply (proj1 (value_raw_tags L)); eauto.
Qed.

(** Two decoded objects are equal exactly if they differ in no more than the length
    fields. *)
Theorem C76_decoded : forall L i d r o i' d' r' o', bytes_ok i -> bytes_ok i' ->
  parse_ber_recursive L i d = Ok (r, o) -> parse_ber_recursive L i' d' = Ok (r', o') ->
  (obj_eqb o o' = true <-> erase o = erase o' /\ raw_tags o = raw_tags o').
Proof.
  intros L i d r o i' d' r' o' Hok Hok' H H'.
  pose proof (parsed_raw_tags _ _ _ _ _ Hok H) as Hn. pose proof (parsed_raw_tags _ _ _ _ _ Hok' H') as Hn'.
  rewrite C76_exact. split; intros [E F]; (split; [exact E|]); [|rewrite F; apply compatible_refl].
  clear - Hn Hn' F. induction F as [|x y l l' Hc _ IH]; [reflexivity|]. cbn [In] in *. f_equal.
  - unfold compatible in Hc. intuition congruence.
  - apply IH; tauto.
Qed.
Print Assumptions C76_decoded.

(** What DER accepts, BER decodes to an equal object. *)
Theorem C76_der_ber : forall L i d r o, no_unknown_tag L -> bytes_ok i -> (1 <= d)%nat ->
  parse_der_recursive L i d = Ok (r, o) ->
  exists o', parse_ber_recursive L i d = Ok (r, o') /\ obj_eqb o o' = true.
Proof.
  intros L i d r [h k] HL Hok Hd H. apply C28_der_in_ber in H as (k' & Hp & Hs); auto.
  cbn [o_header o_content] in *. exists (Obj h k'). split; [exact Hp|]. apply C76_exact.
  destruct Hs as [->|(h1 & h2 & c & -> & -> & E1 & E2 & E3 & _ & Er)]; [split; [reflexivity|apply compatible_refl]|].
  cbn [erase erase_content raw_tags raw_tags_content a_header a_data]. split.
  - unfold erase_h at 2 4. rewrite E1, E2, E3. reflexivity.
  - constructor; [unfold compatible; auto|]. constructor; [|constructor]. unfold compatible. intuition congruence.
Qed.
Print Assumptions C76_der_ber.

(** An object built without raw tags, encoded and read back, is equal to itself. *)
Theorem C76_read_back : forall L d o bs, well_formed L d o ->
  (forall r, In r (raw_tags o) -> r = None) -> to_vec L o = Ok bs -> nlen bs < 2 ^ 64 ->
  exists o', parse_ber_recursive L bs d = Ok ([], o') /\ obj_eqb o' o = true.
Proof.
  intros L d o bs Hw Hr E Hn. destruct (round_trip L d o bs Hw E Hn) as (o' & Hp & He & _).
  exists o'. split; [exact Hp|]. apply C76_exact. split; [exact He|].
  apply same_shape in He. clear - Hr He. revert He Hr. generalize (raw_tags o') (raw_tags o).
  induction l as [|x l IH]; intros [|y l'] He Hr; try discriminate; constructor.
  - right. left. apply Hr. now left.
  - apply IH; [cbn in He; lia|]. intros r Hi. apply Hr. now right.
Qed.
Print Assumptions C76_read_back.

(** Equal objects are encoded alike. *)
Theorem C76_encode : forall L o o', obj_eqb o o' = true -> to_vec L o = to_vec L o'.
Proof. intros L o o' H. apply C76_exact in H as [E _]. now apply C38_independent. Qed.
Print Assumptions C76_encode.

(** Equal objects from different octets; an object built by hand; and objects that
    differ deep inside. *)
Example C76_ex : exists o1 o2 o3,
  parse_ber SL (hx "30 80 04 81 01 07 00 00") = Ok ([], o1)
  /\ parse_ber SL (hx "30 03 04 01 07") = Ok ([], o2)
  /\ parse_ber SL (hx "30 03 04 01 08") = Ok ([], o3)
  /\ o1 <> o2 /\ obj_eqb o1 o2 = true /\ obj_eqb o2 o3 = false
  /\ obj_eqb o1 (from_seq [from_obj (COctetString [7])]) = true
  /\ to_vec SL o1 = Ok (hx "30 03 04 01 07").
Proof.
  do 3 eexists. split; [vm_compute; reflexivity|]. split; [vm_compute; reflexivity|].
  split; [vm_compute; reflexivity|]. split; [discriminate|]. vm_compute. auto.
Qed.
