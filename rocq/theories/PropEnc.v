(** * C41, C57, C58: what the serializer writes *)

From Coq Require Import String.
From Verif Require Import Base Asn1rs Ber Der Combinators Serialize Conformance Spec SpecValue SpecComb SpecSer.
From Verif Require Import LemBase LemHeader LemSkip LemParse LemText LemTree LemNode LemComb LemFrame LemInt LemSer PropComb PropSer.
Local Open Scope string_scope.
Local Open Scope N_scope.
Local Open Scope list_scope.

(** ** C41 *)

(** The contents for which it holds: no end-of-contents, no UTCTime, no
    [Optional(None)], [Tagged] or [Unknown]; ENUMERATED values other than zero
    whose first octet is below 128; members of SEQUENCE and SET built alike. *)
Inductive encodable : content -> Prop :=
| encodable_leaf c :
    match c with
    | CEndOfContent | CEnum _ | CUTCTime _ | CSequence _ | CSet _ | COptional _ | CTagged _ _ _ | CUnknown _ => False
    | _ => True
    end -> encodable c
| encodable_enum n k :
    n < 2 ^ 64 -> 256 ^ N.of_nat k <= n < 128 * 256 ^ N.of_nat k -> encodable (CEnum n)
| encodable_sequence l : Forall encodable l -> encodable (CSequence (map from_obj l))
| encodable_set l : Forall encodable l -> encodable (CSet (map from_obj l)).

Lemma enum_contents n k : n < 2 ^ 64 -> pw k <= n < 128 * pw k ->
  let v := skip_zeroes (to_be_bytes 8 n) in
  bytes_ok v /\ minimal_integer v /\ twos_complement v = Z.of_N n.
Proof.
  intros Hn Hk v. destruct (min_octets n Hn) as (Ho & Hu & Hl & Hm). fold v in Ho, Hu, Hl, Hm. clearbody v.
  split; [assumption|]. destruct v as [|b v]; [unfold unsigned in Hu; cbn in Hu; pose proof (pw_pos k); lia|].
  specialize (Hm (length v) eq_refl). rewrite unsigned_cons in Hu.
  apply bytes_ok_cons in Ho as [Hb Ho]. pose proof (unsigned_pw _ Ho) as Hr.
  assert (Ek : length v = k).
  { assert (Hc : (length v < k \/ length v = k \/ k < length v)%nat) by lia. destruct Hc as [Hc|[Hc|Hc]]; [exfalso|assumption|exfalso].
    - assert (Hp : pw (S (length v)) <= pw k) by (apply pw_mono; lia). rewrite pw_S in Hp. nia.
    - assert (Hp : pw (S k) <= pw (length v)) by (apply pw_mono; lia). rewrite pw_S in Hp. lia. }
  rewrite Ek in *. assert (Hb128 : b < 128) by nia. assert (Hb0 : b <> 0) by nia. split.
  - destruct v as [|c v]; cbn [minimal_integer]; [exact I|]. split; [lia|lia].
  - unfold twos_complement. destruct (128 <=? b) eqn:E; [lia|]. rewrite unsigned_cons, Ek. lia.
Qed.

Lemma str_constructed k : (str_tag k =? 16) || (str_tag k =? 17) = false.
Proof. destruct k; reflexivity. Qed.

Lemma many_series L l v :
  Forall (fun o => forall c bs, o = from_obj c -> encodable c -> to_vec L o = Ok bs -> nlen bs < 2 ^ 64 -> x690 L o bs) (map from_obj l) ->
  Forall encodable l -> gen_many (ber_encode_object L) (map from_obj l) = Ok v -> nlen v < 2 ^ 64 ->
  x690_series L (map from_obj l) v.
Proof.
  revert v. induction l as [|x l IH]; intros v HP He H Hn.
  - inv H. constructor.
  - cbn [map gen_many] in *. apply gen_seq_ok in H as (a & b & Ea & Eb & ->).
    unfold nlen in *. rewrite app_length in Hn. inv HP. inv He. constructor.
    + eapply H1; eauto. lia.
    + apply IH; auto. lia.
Qed.

(** The header of [from_obj c]. *)
Lemma from_obj_x690 L c v bs : variant_tag c <> None ->
  ber_encode_object_content L c = Ok v -> to_vec L (from_obj c) = Ok bs -> nlen bs < 2 ^ 64 ->
  x690_contents L c v -> x690 L (from_obj c) bs.
Proof.
  intros Ht Hv H Hn Hx. unfold from_obj in *. unfold to_vec in H. cbn [ber_encode_object] in H.
  apply with_header_ok in H as (v' & hb & Ev & Eh & -> & Hl). rewrite Hv in Ev. injection Ev as <-.
  unfold nlen in *. rewrite app_length in Hn.
  destruct (encode_header_spec (with_length (header_new Universal ((content_tag c =? T_Sequence) || (content_tag c =? T_Set))
    (content_tag c) (Definite 0)) (Definite (N.of_nat (length v)))) (N.of_nat (length v)) Hl eq_refl) as (hb' & Eh' & Hh & _); [lia|].
  unfold nlen in Eh. unfold with_length in *. cbn [header_new h_class h_constructed h_tag h_length h_raw_tag] in *.
  rewrite Eh in Eh'. injection Eh' as <-.
  destruct Hh as (ib & lb & -> & _ & Hlb & Hr & _). cbn [read_back h_class h_constructed h_tag h_length h_raw_tag] in *.
  injection Hr as <-. cbn [app].
  match goal with |- x690 L (Obj ?h c) _ => apply (x690_object L h c lb v) end; auto.
  - destruct c as [| | | | | | | | |k| | | | | | | | |]; try contradiction; reflexivity.
  - destruct c as [| | | | | | | | |k| | | | | | | | |]; try contradiction; try reflexivity.
    cbn [header_new h_constructed content_tag]. destruct k; reflexivity.
Qed.

(** Missing: see [encodable]; [C41_refuted] and the theorems after it show that
    the claim is false for what is excluded. *)
Theorem C41_partial : forall L c bs, encodable c -> to_vec L (from_obj c) = Ok bs -> nlen bs < 2 ^ 64 ->
  x690 L (from_obj c) bs.
Proof.
  intros L.
  assert (HPQ : (forall o c bs, o = from_obj c -> encodable c -> to_vec L o = Ok bs -> nlen bs < 2 ^ 64 -> x690 L o bs)
    /\ (forall c bs, encodable c -> to_vec L (from_obj c) = Ok bs -> nlen bs < 2 ^ 64 -> x690 L (from_obj c) bs)).
  2: exact (proj2 HPQ).
  apply obj_content_ind.
  - intros h c Hc c' bs E. pose proof (f_equal o_content E) as Ec. cbn in Ec. subst c'. rewrite E. apply Hc.
  - intros l Hl bs He H Hn. inv He; [contradiction|].
    pose proof H as H'. unfold to_vec, from_obj in H. cbn [ber_encode_object] in H.
    apply with_header_ok in H as (v & hb & Ev & Eh & -> & _).
    eapply from_obj_x690; [discriminate|exact Ev|exact H'|exact Hn|]. constructor.
    unfold nlen in *. rewrite app_length in Hn. apply many_series; auto. unfold nlen. lia.
  - intros l Hl bs He H Hn. inv He; [contradiction|].
    pose proof H as H'. unfold to_vec, from_obj in H. cbn [ber_encode_object] in H.
    apply with_header_ok in H as (v & hb & Ev & Eh & -> & _).
    eapply from_obj_x690; [discriminate|exact Ev|exact H'|exact Hn|]. constructor.
    unfold nlen in *. rewrite app_length in Hn. apply many_series; auto. unfold nlen. lia.
  - intros h c _ _ bs He. inv He. contradiction.
  - intros k t o _ bs He. inv He. contradiction.
  - intros c Hc bs He H Hn. inversion He as [c0 Hl|n k Hn64 Hk|l Hl|l Hl]; subst; try contradiction.
    + destruct c as [|b|s|u s|s| |n|[rel s]|[rel s]|k s|s|s|l|l|t|t|o|k t o|a]; try contradiction;
        (eapply from_obj_x690; [discriminate|reflexivity|exact H|exact Hn|]); try constructor.
      destruct b; split; congruence.
    + eapply from_obj_x690; [discriminate|reflexivity|exact H|exact Hn|].
      destruct (enum_contents n k Hn64 Hk) as (H1 & H2 & H3). now constructor.
Qed.
Print Assumptions C41_partial.

(** [Optional(Some(o))] is written as [o]'s content. *)
Theorem C41_optional_some_partial : forall L h c, to_vec L (from_obj (COptional (Some (Obj h c)))) = to_vec L (from_obj c).
Proof. reflexivity. Qed.
Print Assumptions C41_optional_some_partial.

(** The contents octets of a short encoding. *)
Lemma x690_low L c b n v bs : x690 L (from_obj c) bs -> bs = b :: n :: v -> n < 128 -> x690_contents L c v.
Proof.
  intros H E Hn. inversion H as [h c0 lb v' _ _ _ Hl Hc]; subst.
  match goal with E : _ :: _ = _ :: _ |- _ => injection E as _ E' end.
  inversion Hl as [m Hm Em El|ds Hds Hok Hlt Em El|]; subst.
  - cbn [app] in E'. injection E' as E1 E2. now subst.
  - exfalso. assert (E1 : 128 + N.of_nat (length ds) = n) by (cbn [app] in E'; congruence). lia.
Qed.

(** End-of-contents is written as 00 01 00. *)
Theorem C41_refuted : forall L, exists bs, to_vec L (from_obj CEndOfContent) = Ok bs
  /\ bs = hx "00 01 00" /\ ~ x690 L (from_obj CEndOfContent) bs.
Proof.
  intros L. exists (hx "00 01 00"). split; [reflexivity|]. split; [reflexivity|]. intros H.
  eapply x690_low in H; [|vm_compute; reflexivity|vm_compute; reflexivity]. inv H.
Qed.
Print Assumptions C41_refuted.

(** [Optional(None)] is written as an end-of-contents. *)
Theorem C41_optional_refuted : forall L, to_vec L (from_obj (COptional None)) = Ok (hx "00 00").
Proof. reflexivity. Qed.
Print Assumptions C41_optional_refuted.

(** ENUMERATED 0 has no contents octets, 128 is written as the encoding of -128. *)
Theorem C41_enum_refuted : forall L,
  to_vec L (from_obj (CEnum 0)) = Ok (hx "0a 00") /\ ~ x690 L (from_obj (CEnum 0)) (hx "0a 00")
  /\ to_vec L (from_obj (CEnum 128)) = Ok (hx "0a 01 80") /\ ~ x690 L (from_obj (CEnum 128)) (hx "0a 01 80").
Proof.
  intros L. split; [reflexivity|]. split; [|split; [reflexivity|]]; intros H;
    (eapply x690_low in H; [|vm_compute; reflexivity|vm_compute; reflexivity]); inv H.
  - match goal with H : minimal_integer _ |- _ => exact H end.
  - match goal with H : twos_complement _ = _ |- _ => vm_compute in H; discriminate end.
Qed.
Print Assumptions C41_enum_refuted.

(** A UTCTime (910506234540Z) is written as 19910506234540Z. *)
Theorem C41_utctime_refuted : exists t bs,
  lf_utctime SL false (Definite 13) (hx "39 31 30 35 30 36 32 33 34 35 34 30 5a") = inr t
  /\ to_vec SL (from_obj (CUTCTime t)) = Ok bs /\ ~ x690 SL (from_obj (CUTCTime t)) bs.
Proof.
  eexists. eexists. split; [vm_compute; reflexivity|]. split; [vm_compute; reflexivity|]. intros H.
  eapply x690_low in H; [|vm_compute; reflexivity|vm_compute; reflexivity]. inv H.
  match goal with H : utc_time_form _ |- _ => destruct H as (ds & z & E & Hd & Hl & Hz) end.
  assert (Hlen : length ds = (length (ds ++ z) - length z)%nat) by (rewrite app_length; lia).
  rewrite <- E in Hlen. cbn [length] in Hlen.
  destruct Hz as [->|(sg & hm & -> & Hs & Hh & Hd')]; cbn [length] in Hlen; [lia|]. rewrite Hh in Hlen.
  destruct Hl as [Hl|Hl]; [|lia]. clear Hlen.
  do 10 (destruct ds as [|? ds]; [discriminate|]). destruct ds; [|discriminate]. cbn [app] in E. inv E.
  destruct Hs; discriminate.
Qed.
Print Assumptions C41_utctime_refuted.

Example C41_ex : encodable (CSequence (map from_obj [CBoolean true; CEnum 1000; CSet (map from_obj [CStr KUTF8 [65]])]))
  /\ to_vec SL (from_seq (map from_obj [CBoolean true; CEnum 1000; CSet (map from_obj [CStr KUTF8 [65]])]))
     = Ok (hx "30 0c 01 01 ff 0a 02 03 e8 31 03 0c 01 41").
Proof.
  split; [|vm_compute; reflexivity]. apply encodable_sequence.
  constructor; [apply encodable_leaf; exact I|]. constructor; [|constructor; [|constructor]].
  - apply (encodable_enum 1000 1); vm_compute; [reflexivity|split; [discriminate|reflexivity]].
  - apply encodable_set. constructor; [apply encodable_leaf; exact I|constructor].
Qed.

(** ** C57: canonical input *)

Lemma unsigned_inj a : forall b, bytes_ok a -> bytes_ok b -> length a = length b -> unsigned a = unsigned b -> a = b.
Proof.
  induction a as [|x a IH]; intros [|y b] Ha Hb Hl Hu; try discriminate; [reflexivity|].
  apply bytes_ok_cons in Ha as [Hx Ha]. apply bytes_ok_cons in Hb as [Hy Hb]. injection Hl as Hl.
  rewrite !unsigned_cons, Hl in Hu. pose proof (unsigned_pw _ Ha). pose proof (unsigned_pw _ Hb). rewrite Hl in *.
  pose proof (pw_pos (length b)). assert (x = y) by nia. subst y. f_equal. apply IH; auto. lia.
Qed.

Lemma shortest_unique n lb lb' : length_octets (Definite n) lb -> length_octets (Definite n) lb' ->
  (length lb <= length lb')%nat -> (length lb' <= length lb)%nat -> (forall x, length_octets (Definite n) x -> (length lb <= length x)%nat) -> lb = lb'.
Proof.
  intros H H' L1 L2 Hs. inversion H as [m Hm|ds Hds Hok Hlt Em|]; subst.
  - inversion H' as [m' Hm'|ds' Hds' Hok' Hlt' Em'|]; subst; [reflexivity|cbn in L2; lia].
  - inversion H' as [m' Hm'|ds' Hds' Hok' Hlt' Em'|]; subst; [cbn in L1; lia|].
    cbn [length] in *. assert (El : length ds = length ds') by lia. rewrite El. f_equal. now apply unsigned_inj.
Qed.

Scheme canonical_mind := Induction for canonical Sort Prop
with canonical_contents_mind := Induction for canonical_contents Sort Prop
with canonical_series_mind := Induction for canonical_series Sort Prop.
Combined Scheme canonical_ind3 from canonical_mind, canonical_contents_mind, canonical_series_mind.

(** A canonical element is delimited by its header. *)
Lemma canonical_header_octets h hb n : canonical_header h hb -> h_length h = Definite n ->
  header_octets (read_back h (Definite n)) hb.
Proof.
  intros (lb & -> & Ht & Hl & _) E. exists [leading_octet (h_class h) (h_constructed h) (h_tag h)], lb.
  split; [reflexivity|]. cbn [read_back h_class h_constructed h_tag h_length h_raw_tag].
  split; [apply ident_low; lia|]. split; [now rewrite <- E|]. split; [reflexivity|discriminate].
Qed.

Lemma canonical_element_of bs : canonical bs -> exists h c, element 50 h c bs.
Proof.
  intros H. inv H. exists (read_back h (Definite (N.of_nat (length c)))), c. apply definite_is_element.
  exists hb. split; [reflexivity|]. split; [now apply canonical_header_octets|reflexivity].
Qed.

Lemma canonical_encode_header h hb n : canonical_header h hb -> h_length h = Definite n ->
  ber_encode_header (with_length (read_back h (Definite n)) (Definite n)) = Ok hb.
Proof.
  intros (lb & -> & Ht & Hl & Hs) E. rewrite E in *.
  assert (Hn : n < 2 ^ 64) by (inv Hl; [eapply N.lt_trans; [eassumption|reflexivity]|assumption]).
  destruct (encode_length_spec n Hn) as (lb' & E' & Hl' & _ & Hs').
  assert (lb = lb') by (apply (shortest_unique n); auto). subst lb'.
  unfold ber_encode_header. cbn [with_length read_back h_tag h_class h_constructed h_length].
  destruct (30 <? h_tag h) eqn:Et; [lia|]. rewrite (proj1 (leading_octet_eq _ _ _ Ht)), E'. reflexivity.
Qed.

Lemma enum_canonical b c : bytes_ok (b :: c) -> b <> 0 -> unsigned (b :: c) < 2 ^ 32 ->
  skip_zeroes (to_be_bytes 8 (unsigned (b :: c))) = b :: c.
Proof.
  intros Hok Hb Hn. assert (H64 : unsigned (b :: c) < 2 ^ 64) by (eapply N.lt_trans; [exact Hn|reflexivity]).
  destruct (min_octets _ H64) as (Ho & Hu & Hl & Hk). cbv zeta in *.
  set (v := skip_zeroes _) in *. clearbody v. set (n := unsigned (b :: c)) in *.
  assert (Hlo : pw (length c) <= n).
  { unfold n. rewrite unsigned_cons. pose proof (pw_pos (length c)). nia. }
  pose proof (unsigned_pw _ Hok) as Hhi. fold n in Hhi. cbn [length] in Hhi.
  destruct v as [|x v]; [unfold unsigned in Hu; cbn in Hu; pose proof (pw_pos (length c)); lia|].
  specialize (Hk (length v) eq_refl). pose proof (unsigned_pw _ Ho) as Hx. rewrite Hu in Hx. cbn [length] in Hx.
  apply unsigned_inj; auto. cbn [length]. f_equal.
  assert (Hc : (length v < length c \/ length v = length c \/ length c < length v)%nat) by lia.
  destruct Hc as [Hc|[Hc|Hc]]; [exfalso|assumption|exfalso].
  - pose proof (pw_mono (S (length v)) (length c) Hc). lia.
  - pose proof (pw_mono (S (length c)) (length v) Hc). lia.
Qed.

Lemma canonical_encode L :
  (forall bs, canonical bs -> forall d h c k, bytes_ok bs -> element 50 h c bs -> value L d h c k ->
     ber_encode_object L (Obj h k) = Ok bs)
  /\ (forall t c, canonical_contents t c -> forall d h k, bytes_ok c -> h_class h = Universal -> h_tag h = t ->
     value L d h c k -> ber_encode_object_content L k = Ok c)
  /\ (forall c, canonical_series c -> forall d l, bytes_ok c -> series L d c l ->
     gen_many (ber_encode_object L) l = Ok c).
Proof.
  apply (canonical_ind3
    (fun bs _ => forall d h c k, bytes_ok bs -> element 50 h c bs -> value L d h c k -> ber_encode_object L (Obj h k) = Ok bs)
    (fun t c _ => forall d h k, bytes_ok c -> h_class h = Universal -> h_tag h = t -> value L d h c k -> ber_encode_object_content L k = Ok c)
    (fun c _ => forall d l, bytes_ok c -> series L d c l -> gen_many (ber_encode_object L) l = Ok c)).
  - intros h0 hb c0 Hh Hl Hc IH d h c k Hok He Hv.
    pose proof (canonical_header_octets _ _ _ Hh Hl) as Hho.
    destruct He as (hb2 & b & E & Hh2 & Hb & ->).
    pose proof (header_from_ber_complete _ _ c0 Hho) as E1. rewrite E in E1.
    rewrite (header_from_ber_complete _ _ b Hh2) in E1. injection E1 as -> ->.
    unfold content_octets in Hv. cbn [read_back h_length] in Hv.
    apply bytes_ok_app in Hok as [_ Hok].
    assert (Ek : ber_encode_object_content L k = Ok c0).
    { destruct (class_eqb (h_class h0) Universal) eqn:Ec.
      - apply class_eqb_spec in Ec.
        exact (IH Ec d (read_back h0 (Definite (N.of_nat (length c0)))) k Hok Ec eq_refl Hv).
      - inv Hv; try reflexivity; cbn [read_back h_class] in *; exfalso;
          match goal with H : h_class h0 = Universal |- _ => rewrite H in Ec; discriminate end. }
    cbn [ber_encode_object]. unfold with_header. rewrite Ek. cbn [bind]. unfold nlen.
    rewrite (canonical_encode_header h0 hb _ Hh Hl). reflexivity.
  - intros d h k _ Hc Ht Hv.
    inversion Hv; subst; try congruence; try (match goal with H : ~ In _ _ |- _ => exfalso; apply H; rewrite Ht; cbn; tauto end);
      try (match goal with H : h_tag h = str_tag ?k |- _ => destruct k; cbn in H; congruence end).
    reflexivity.
  - intros b Hb d h k _ Hc Ht Hv.
    inversion Hv; subst; try congruence; try (match goal with H : ~ In _ _ |- _ => exfalso; apply H; rewrite Ht; cbn; tauto end);
      try (match goal with H : h_tag h = str_tag ?k |- _ => destruct k; cbn in H; congruence end).
    cbn. destruct Hb as [-> | ->]; reflexivity.
  - intros d h k _ Hc Ht Hv.
    inversion Hv; subst; try congruence; try (match goal with H : ~ In _ _ |- _ => exfalso; apply H; rewrite Ht; cbn; tauto end);
      try (match goal with H : h_tag h = str_tag ?k |- _ => destruct k; cbn in H; congruence end).
    reflexivity.
  - intros d h k _ Hc Ht Hv.
    inversion Hv; subst; try congruence; try (match goal with H : ~ In _ _ |- _ => exfalso; apply H; rewrite Ht; cbn; tauto end);
      try (match goal with H : h_tag h = str_tag ?k |- _ => destruct k; cbn in H; congruence end).
    reflexivity.
  - intros b c Hb d h k Hok Hc Ht Hv.
    inversion Hv; subst; try congruence; try (match goal with H : ~ In _ _ |- _ => exfalso; apply H; rewrite Ht; cbn; tauto end);
      try (match goal with H : h_tag h = str_tag ?k |- _ => destruct k; cbn in H; congruence end).
    cbn [ber_encode_object_content]. rewrite enum_canonical; auto.
  - intros t c Ht Hs IH d h k Hok Hc Eh Hv.
    inversion Hv; subst; try congruence;
      try (match goal with H : ~ In _ _ |- _ => exfalso; apply H; destruct Ht as [-> | ->]; cbn; tauto end);
      try (match goal with H : h_tag h = str_tag ?k |- _ => destruct k; cbn in H; exfalso; rewrite H in Ht; destruct Ht; discriminate end);
      try (match goal with H : h_tag h = _ |- _ => exfalso; rewrite H in Ht; destruct Ht; discriminate end).
    + cbn [ber_encode_object_content]. eauto.
    + cbn [ber_encode_object_content]. eauto.
  - intros t c Hn d h k Hok Hc Ht Hv.
    inversion Hv; subst; try reflexivity; exfalso; apply Hn;
      match goal with H : h_tag h = _ |- _ => rewrite H; cbn; tauto end.
  - intros d l _ Hs. inversion Hs as [|d0 bs h c k rest l' He Hv Hs' E]; subst; [reflexivity|].
    exfalso. destruct He as (hb & b & -> & Hh & _). destruct hb as [|x hb]; [|discriminate].
    destruct Hh as (ib & lb & E' & Hi & _). destruct ib; [inv Hi|discriminate].
  - intros bs rest Hb IHb Hr IHr d l Hok Hs.
    destruct (canonical_element_of bs Hb) as (h1 & c1 & He1).
    remember (bs ++ rest) as x eqn:E in Hs. destruct Hs as [d|d bs' h c k rest' l' He Hv Hs'].
    + exfalso. destruct bs as [|x bs]; [|discriminate].
      destruct He1 as (hb & b & E1 & Hh & _). destruct hb as [|y hb]; [|discriminate].
      destruct Hh as (ib & lb & E' & Hi & _). destruct ib; [inv Hi|discriminate].
    + pose proof (any_from_ber_complete _ _ _ rest He1) as E1. rewrite <- E in E1.
      pose proof (any_from_ber_complete _ _ _ rest' He) as E2. rewrite E2 in E1. injection E1 as -> -> ->.
      apply app_inv_tail in E. subst bs'. apply bytes_ok_app in Hok as [Hok1 Hok2].
      cbn [gen_many]. rewrite (IHb _ _ _ _ Hok1 He Hv), (IHr _ _ Hok2 Hs'). reflexivity.
Qed.

(** Decoding canonical input and encoding the object gives the input back, at
    any recursion limit. *)
Theorem C57_canonical : forall L d bs r o, bytes_ok bs -> canonical bs ->
  parse_ber_recursive L (bs ++ r) d = Ok (r, o) -> bytes_ok r -> to_vec L o = Ok bs.
Proof.
  intros L d bs r o Hok Hc H Hr. apply parse_ber_iff in H as (bs' & c & E & He & Hv); [|apply bytes_ok_app; auto].
  apply app_inv_tail in E. subst bs'. destruct o as [h k]. cbn [o_header o_content] in *.
  eapply (proj1 (canonical_encode L)); eauto.
Qed.
Print Assumptions C57_canonical.

(** ** The converse: nothing else comes back as it was *)

Lemma written_back_header L h c bs k : element 50 h c bs -> ber_encode_object L (Obj h k) = Ok bs -> nlen bs < 2 ^ 64 ->
  ber_encode_object_content L k = Ok c
  /\ exists hb, bs = hb ++ c /\ canonical_header h hb /\ h_length h = Definite (N.of_nat (length c)).
Proof.
  intros He H Hn. cbn [ber_encode_object] in H. apply with_header_ok in H as (v & x & Ek & Ex & -> & Ht).
  unfold nlen in *. rewrite app_length in Hn.
  assert (Hv : N.of_nat (length v) < 2 ^ 64) by lia.
  destruct (encode_header_spec (with_length h (Definite (N.of_nat (length v)))) (N.of_nat (length v)) Ht eq_refl Hv)
    as (x' & Ex' & Hx & _). rewrite Ex in Ex'. injection Ex' as <-.
  destruct He as (hb & b & E & Hh & Hb & Ec).
  pose proof (header_from_ber_complete _ _ v Hx) as E1. rewrite E, (header_from_ber_complete _ _ b Hh) in E1.
  injection E1 as -> Eh. apply app_inv_tail in E. subst hb.
  assert (El : h_length h = Definite (N.of_nat (length v))) by (rewrite Eh; reflexivity).
  unfold content_octets in Ec. rewrite El in Ec. subst c. split; [exact Ek|]. exists x. split; [reflexivity|]. split; [|exact El].
  destruct (encode_length_spec _ Hv) as (lb & E' & Hlb & _ & Hs).
  unfold ber_encode_header in Ex. cbn [with_length h_tag h_class h_constructed h_length] in Ex.
  destruct (30 <? h_tag h) eqn:Et; [discriminate|]. rewrite (proj1 (leading_octet_eq _ _ _ Ht)), E' in Ex.
  injection Ex as <-. exists lb. rewrite El. auto.
Qed.

Lemma no_times_seq h l : no_times (Obj h (CSequence l)) \/ no_times (Obj h (CSet l)) -> forall o, In o l -> no_times o.
Proof.
  intros [H|H] o Ho n t Hn; apply H; [eapply node_seq|eapply node_set]; eauto.
Qed.

Lemma enum_written_back c : bytes_ok c -> unsigned c < 2 ^ 32 -> skip_zeroes (to_be_bytes 8 (unsigned c)) = c ->
  canonical_contents 10 c.
Proof.
  intros Hok Hn E. destruct c as [|b c]; [constructor|]. apply canonical_enumerated. intros ->.
  destruct (min_octets (unsigned (0 :: c))) as (_ & Hu & _ & Hk); [eapply N.lt_trans; [exact Hn|reflexivity]|].
  rewrite E in Hk. specialize (Hk (length c) eq_refl). apply bytes_ok_cons in Hok as [_ Hok].
  rewrite unsigned_cons, N.mul_0_l, N.add_0_l in Hk. pose proof (unsigned_pw _ Hok). lia.
Qed.

Lemma written_back L :
  (forall d h c k, value L d h c k -> bytes_ok c -> nlen c < 2 ^ 64 -> (forall h', no_times (Obj h' k)) ->
     ber_encode_object_content L k = Ok c -> h_class h = Universal -> canonical_contents (h_tag h) c)
  /\ (forall d c l, series L d c l -> bytes_ok c -> nlen c < 2 ^ 64 -> (forall o, In o l -> no_times o) ->
     gen_many (ber_encode_object L) l = Ok c -> canonical_series c).
Proof.
  apply value_series_ind.
  - intros d h c Hc _ _ _ _ Hu. congruence.
  - intros d h c Hc Ht _ _ _ _ _. apply canonical_other. intros Hi. apply Ht. revert Hi. cbn. tauto.
  - intros d h c Hc Ht _ _ _ E _. injection E as <-. rewrite Ht. constructor.
  - intros d h b Hc Ht Hl Hok _ _ E _. rewrite Ht. constructor. cbn in E.
    destruct (b =? 0) eqn:Eb; [left; now apply N.eqb_eq|]. right. cbn in E. congruence.
  - intros d h c Hc Ht _ _ _ _ _. apply canonical_other. rewrite Ht. cbn. intuition discriminate.
  - intros d h u c Hc Ht Hp _ _ _ _ _. apply canonical_other. rewrite Ht. cbn. intuition discriminate.
  - intros d h c Hc Ht _ _ _ _ _. apply canonical_other. rewrite Ht. cbn. intuition discriminate.
  - intros d h c Hc Ht _ _ _ E _. injection E as <-. rewrite Ht. constructor.
  - intros d h c Hc Ht Hx _ _ _ _ _. apply canonical_other. rewrite Ht. cbn. intuition discriminate.
  - intros d h c Hc Ht Hp Hn Hok _ _ E _. rewrite Ht. injection E as E. now apply enum_written_back.
  - intros d h c Hc Ht Hx _ _ _ _ _. apply canonical_other. rewrite Ht. cbn. intuition discriminate.
  - intros d h c l Hc Ht Hp Hs IH Hok Hn Hno E _. rewrite Ht. apply canonical_constructed; [now left|].
    apply IH; auto. apply (no_times_seq h). auto.
  - intros d h c l Hc Ht Hp Hs IH Hok Hn Hno E _. rewrite Ht. apply canonical_constructed; [now right|].
    apply IH; auto. apply (no_times_seq h). auto.
  - intros d h c t Hc Ht Hx _ _ Hno _ _. exfalso. destruct (Hno h _ t (node_self _)) as [H _]. now apply H.
  - intros d h c t Hc Ht Hx _ _ Hno _ _. exfalso. destruct (Hno h _ t (node_self _)) as [_ H]. now apply H.
  - intros d h c Hc Ht Hp _ _ _ _ _. apply canonical_other. rewrite Ht. cbn. intuition discriminate.
  - intros d h c Hc Ht Hp Hx _ _ _ _ _. apply canonical_other. rewrite Ht. cbn. intuition discriminate.
  - intros d h k c Hc Ht Hp Hr Hx _ _ _ _ _. apply canonical_other. rewrite Ht. destruct k; cbn; intuition discriminate.
  - intros. constructor.
  - intros d bs h c k rest l He Hv IHv Hs IHs Hok Hn Hno E.
    apply bytes_ok_app in Hok as [Hok Hokr]. unfold nlen in Hn. rewrite app_length in Hn.
    change (gen_many (ber_encode_object L) (Obj h k :: l))
      with (gen_seq (ber_encode_object L (Obj h k)) (gen_many (ber_encode_object L) l)) in E.
    unfold gen_seq in E. bind_inv E. bind_inv E. injection E as E. rename a into x, a0 into y, E0 into Ex, E1 into Ey.
    assert (Hlen : length (x ++ y) = length (bs ++ rest)) by now rewrite E. rewrite !app_length in Hlen.
    pose proof Ex as Ex'. cbn [ber_encode_object] in Ex'. apply with_header_element in Ex' as (v & _ & _ & Hx & _); [|unfold nlen; lia].
    apply definite_is_element with (D := 49%nat) in Hx.
    destruct (element_first _ _ _ _ _ _ _ _ Hx He E) as (_ & _ & -> & ->).
    destruct (written_back_header L h c bs k He Ex) as (Ek & hb & -> & Hh & Hl); [unfold nlen; lia|].
    apply bytes_ok_app in Hok as [_ Hok]. rewrite app_length in Hn.
    apply canonical_cons.
    + apply (canonical_element h); auto. intros Hu. apply IHv; auto; [unfold nlen; lia|].
      intros h' n t Hn'. assert (Hi : no_times (Obj h k)) by (apply Hno; now left).
      inversion Hn'; subst.
      * apply (Hi (Obj h k) t). constructor.
      * apply (Hi n t). eapply node_seq; eauto.
      * apply (Hi n t). eapply node_set; eauto.
      * apply (Hi n t). eapply node_optional; eauto.
      * apply (Hi n t). eapply node_tagged; eauto.
    + apply IHs; auto; [unfold nlen; lia|]. intros o Ho. apply Hno. now right.
Qed.

(** Without times, the octets read come back exactly if they were canonical. *)
Theorem C57_exact : forall L d bs r o, bytes_ok bs -> bytes_ok r -> nlen bs < 2 ^ 64 ->
  parse_ber_recursive L (bs ++ r) d = Ok (r, o) -> no_times o ->
  (to_vec L o = Ok bs <-> canonical bs).
Proof.
  intros L d bs r o Hok Hr Hn H Hno. split; [|intros Hc; eapply C57_canonical; eauto].
  intros Hv. apply parse_ber_iff in H as (bs' & c & E & He & Hval); [|apply bytes_ok_app; auto].
  apply app_inv_tail in E. subst bs'. destruct o as [h k]. cbn [o_header o_content] in *.
  destruct (written_back_header L h c bs k He Hv Hn) as (Ek & hb & -> & Hh & Hl).
  apply bytes_ok_app in Hok as [_ Hok]. unfold nlen in Hn. rewrite app_length in Hn.
  apply (canonical_element h); auto. intros Hu. eapply (proj1 (written_back L)); eauto; [unfold nlen; lia|].
  intros h' n t Hn'. inversion Hn'; subst.
  - apply (Hno (Obj h k) t). constructor.
  - apply (Hno n t). eapply node_seq; eauto.
  - apply (Hno n t). eapply node_set; eauto.
  - apply (Hno n t). eapply node_optional; eauto.
  - apply (Hno n t). eapply node_tagged; eauto.
Qed.
Print Assumptions C57_exact.

(** ** C58 *)

(** Distinct well-formed objects (up to length fields and raw tags) have
    distinct encodings. *)
Theorem C58_injective : forall L d o o' bs, well_formed L d o -> well_formed L d o' ->
  to_vec L o = Ok bs -> to_vec L o' = Ok bs -> nlen bs < 2 ^ 64 -> erase o = erase o'.
Proof.
  intros L d o o' bs Hw Hw' H H' Hn.
  destruct (round_trip L d o bs Hw H Hn) as (p & E & Ee & _).
  destruct (round_trip L d o' bs Hw' H' Hn) as (p' & E' & Ee' & _). congruence.
Qed.
Print Assumptions C58_injective.

Lemma canonical_short c pc t data : t <= 30 -> N.of_nat (length data) < 128 ->
  (c = Universal -> canonical_contents t data) -> forall bs,
  bs = leading_octet c pc t :: N.of_nat (length data) :: data -> canonical bs.
Proof.
  intros Ht Hn Hc bs ->.
  apply (canonical_element (mkHeader c pc t (Definite (N.of_nat (length data))) None)
    [leading_octet c pc t; N.of_nat (length data)] data); [|reflexivity|exact Hc].
  exists [N.of_nat (length data)]. split; [reflexivity|]. split; [assumption|]. split; [now constructor|].
  intros lb' H. inv H; cbn [length]; lia.
Qed.

(** A canonical encoding: SEQUENCE { BOOLEAN TRUE, [1] { NULL }, ENUMERATED }. *)
Example C57_ex : canonical (hx "30 0a 01 01 ff a1 02 05 00 0a 01 80")
  /\ exists o, parse_ber SL (hx "30 0a 01 01 ff a1 02 05 00 0a 01 80 00") = Ok ([0], o).
Proof.
  split; [|eexists; vm_compute; reflexivity].
  apply (canonical_short Universal true 16 (hx "01 01 ff" ++ hx "a1 02 05 00" ++ hx "0a 01 80" ++ []));
    [lia|vm_compute; reflexivity|intros _|vm_compute; reflexivity].
  apply canonical_constructed; [left; reflexivity|].
  apply canonical_cons; [|apply canonical_cons; [|apply canonical_cons; [|apply canonical_nil]]].
  - apply (canonical_short Universal false 1 [255]); [lia|vm_compute; reflexivity|intros _|vm_compute; reflexivity].
    apply canonical_boolean. now right.
  - apply (canonical_short ContextSpecific true 1 [5; 0]); [lia|vm_compute; reflexivity|discriminate|vm_compute; reflexivity].
  - apply (canonical_short Universal false 10 [128]); [lia|vm_compute; reflexivity|intros _|vm_compute; reflexivity].
    apply canonical_enumerated. lia.
Qed.

Example C58_ex : well_formed SL 50 (from_seq [from_int_slice [5]]) /\ well_formed SL 50 (from_seq [from_int_slice [6]])
  /\ to_vec SL (from_seq [from_int_slice [5]]) <> to_vec SL (from_seq [from_int_slice [6]]).
Proof.
  split; [apply C39_ex|]. split; [|vm_compute; discriminate].
  apply built_well_formed. apply (built_seq SL 49). constructor; [|constructor]. apply (built_int SL 48). bok.
Qed.
