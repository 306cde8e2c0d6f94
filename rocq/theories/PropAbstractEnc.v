(** * C85: encoding an object gives the distinguished encoding of its value *)

From Coq Require Import String.
From Verif Require Import Base Asn1rs Ber Der Serialize Conformance Spec SpecValue SpecComb SpecSer SpecOid SpecAbstract.
From Verif Require Import LemBase LemHeader LemSkip LemParse LemText LemTree LemNode LemComb LemFrame LemInt LemSer LemAbstract.
From Verif Require Import PropSer PropEnc PropAbstract.
Local Open Scope string_scope.
Local Open Scope N_scope.
Local Open Scope list_scope.

Scheme stands_mind := Induction for stands Sort Prop
with stand_all_mind := Induction for stand_all Sort Prop.
Combined Scheme stands_all_ind from stands_mind, stand_all_mind.

Lemma stored_contents ru L k v : stored ru k v ->
  exists c, ber_encode_object_content L k = Ok c /\ contents ru v c.
Proof.
  intros H. inv H; try (eexists; split; [reflexivity|eassumption]).
  - eexists. split; [reflexivity|]. apply c_boolean; destruct b; auto; try lia; split; congruence.
  - eexists. split; [reflexivity|]. now constructor.
  - eexists. split; [reflexivity|]. constructor.
  - eexists. split; [reflexivity|]. destruct (enum_contents n k0 H0 H1) as (Ho & Hm & E). rewrite <- E. now constructor.
  - exists (text_octets k0 chars). split; [destruct k0; reflexivity|]. now constructor.
Qed.

Lemma with_header_encodes h c bs : with_header h (Ok c) = Ok bs -> nlen bs < 2 ^ 64 ->
  h_tag h < 31 /\ exists lb, bs = leading_octet (h_class h) (h_constructed h) (h_tag h) :: lb ++ c
    /\ definite_length SpecAbstract.Der (N.of_nat (length c)) lb.
Proof.
  intros H Hn. apply with_header_ok in H as (v & hb & Ev & Eh & -> & Ht). injection Ev as <-.
  unfold nlen in *. rewrite app_length in Hn. split; [lia|].
  destruct (C35_shortest (with_length h (Definite (N.of_nat (length c))))) as (b & lb & Eb & Hi & Hl & Hs).
  - exact Ht.
  - intros m Em. cbn in Em. injection Em as <-. lia.
  - rewrite Eb in Eh. injection Eh as <-. cbn [with_length h_class h_constructed h_tag h_length] in *.
    exists lb. split; [|split; auto]. cbn [app]. f_equal. inv Hi; [reflexivity|].
    match goal with H : continued ?ds = [] |- _ => destruct ds as [|? [|? ?]]; try discriminate H end.
    match goal with H : (1 <= length [] <= 5)%nat |- _ => cbn in H; lia end.
Qed.

Lemma der_definite ru n lb : definite_length SpecAbstract.Der n lb -> definite_length ru n lb.
Proof. intros [H1 H2]. split; auto. Qed.

Lemma stands_encode ru L :
  (forall n o v, stands ru n o v -> forall bs, to_vec L o = Ok bs -> nlen bs < 2 ^ 64 -> encodes ru n v bs)
  /\ (forall n os vs, stand_all ru n os vs -> forall c, gen_many (ber_encode_object L) os = Ok c -> nlen c < 2 ^ 64 ->
        encode_all ru n vs c).
Proof.
  unfold to_vec. apply stands_all_ind.
  - intros n h k v (Hc & Hp & Ht) Hk bs H Hn. destruct (stored_contents ru L k v Hk) as (c & Ec & Hcon).
    cbn [ber_encode_object] in H. rewrite Ec in H. apply with_header_encodes in H as (_ & lb & -> & Hl); [|assumption]. apply (der_definite ru) in Hl.
    rewrite Hc, Hp, Ht. now apply e_primitive.
  - intros n h os vs (Hc & Hp & Ht) Hs IH bs H Hn. cbn [ber_encode_object ber_encode_object_content] in H.
    pose proof H as H'. apply with_header_ok in H' as (c & hb & Ec & _ & Eb & _). rewrite Ec in H.
    assert (Hnc : nlen c < 2 ^ 64) by (unfold nlen in *; rewrite Eb, app_length in Hn; lia).
    apply with_header_encodes in H as (_ & lb & -> & Hl); [|assumption]. apply (der_definite ru) in Hl. rewrite Hc, Hp, Ht.
    apply (e_sequence ru n vs c); [exact (IH c Ec Hnc)|]. exists [leading_octet Universal true 16]. split; [left; split; [lia|reflexivity]|].
    left. exists lb. split; [exact Hl|reflexivity].
  - intros n h os vs (Hc & Hp & Ht) Hs IH bs H Hn. cbn [ber_encode_object ber_encode_object_content] in H.
    pose proof H as H'. apply with_header_ok in H' as (c & hb & Ec & _ & Eb & _). rewrite Ec in H.
    assert (Hnc : nlen c < 2 ^ 64) by (unfold nlen in *; rewrite Eb, app_length in Hn; lia).
    apply with_header_encodes in H as (_ & lb & -> & Hl); [|assumption]. apply (der_definite ru) in Hl. rewrite Hc, Hp, Ht.
    apply (e_set ru n vs c); [exact (IH c Ec Hnc)|]. exists [leading_octet Universal true 17]. split; [left; split; [lia|reflexivity]|].
    left. exists lb. split; [exact Hl|reflexivity].
  - intros n h cl t o v (Hc & Hp & Ht) Hcl Hlt Ho IH bs H Hn. cbn [ber_encode_object ber_encode_object_content] in H.
    pose proof H as H'. apply with_header_ok in H' as (c & hb & Ec & _ & Eb & _). rewrite Ec in H.
    assert (Hnc : nlen c < 2 ^ 64) by (unfold nlen in *; rewrite Eb, app_length in Hn; lia).
    apply with_header_encodes in H as (_ & lb & -> & Hl); [|assumption]. apply (der_definite ru) in Hl. rewrite Hc, Hp, Ht.
    apply (e_explicit ru n cl t v c); [exact Hcl|exact (IH c Ec Hnc)|]. exists [leading_octet cl true t]. split; [left; split; [lia|reflexivity]|].
    left. exists lb. split; [exact Hl|reflexivity].
  - intros n h cl t a v (Hc & Hp & Ht) Hcl Hlt Ho bs H Hn. cbn [ber_encode_object ber_encode_object_content] in H.
    apply with_header_encodes in H as (_ & lb & -> & Hl); [|assumption]. apply (der_definite ru) in Hl. rewrite Hc, Hp, Ht.
    apply (e_explicit ru n cl t v (a_data a)); [exact Hcl|exact Ho|]. exists [leading_octet cl true t]. split; [left; split; [lia|reflexivity]|].
    left. exists lb. split; [exact Hl|reflexivity].
  - intros n c H _. inv H. constructor.
  - intros n o os v vs Ho IHo Hs IHs c H Hn. cbn [gen_many] in H. apply gen_seq_ok in H as (a & b & Ea & Eb & ->).
    unfold nlen in *. rewrite app_length in Hn. constructor; [apply IHo|apply IHs]; auto; lia.
Qed.

Lemma value_tag_small ru k v : stored ru k v -> value_tag v <= 30.
Proof. intros H. inv H; cbn; try lia. destruct k0; cbn; lia. Qed.

Scheme written_mind := Induction for written Sort Prop
with written_in_mind := Induction for written_in Sort Prop.

Lemma stands_tags ru :
  (forall n o v, stands ru n o v -> forall h, written h o -> h_tag h <= 30)
  /\ (forall n os vs, stand_all ru n os vs -> forall o h, In o os -> written h o -> h_tag h <= 30).
Proof.
  apply stands_all_ind.
  - intros n h k v (_ & _ & Ht) Hk h' Hw. inversion Hw; subst; [rewrite Ht; eapply value_tag_small; eauto|].
    exfalso. inversion Hk; subst; try (match goal with H : written_in _ _ |- _ => inv H end).
    all: match goal with k : text_type |- _ => destruct k; discriminate end.
  - intros n h os vs (_ & _ & Ht) Hs IH h' Hw. inversion Hw; subst; [lia|].
    match goal with H : written_in _ _ |- _ => inv H end. eauto.
  - intros n h os vs (_ & _ & Ht) Hs IH h' Hw. inversion Hw; subst; [lia|].
    match goal with H : written_in _ _ |- _ => inv H end. eauto.
  - intros n h c t o v (_ & _ & Ht) _ Hlt Hs IH h' Hw. inversion Hw; subst; [lia|].
    match goal with H : written_in _ _ |- _ => inv H end. eauto.
  - intros n h c t a v (_ & _ & Ht) _ Hlt He h' Hw. inversion Hw; subst; [lia|].
    match goal with H : written_in _ _ |- _ => inv H end.
  - intros n o h [].
  - intros n o os v vs Ho IHo Hs IHs o' h [<-|Hin] Hw; eauto.
Qed.

(** Encoding succeeds and gives the distinguished encoding of the value
    (outputs of less than 2^64 octets).  Missing: the values [stands] leaves
    out. *)
Theorem C85_partial : forall L n o v, stands SpecAbstract.Der n o v ->
  exists bs, to_vec L o = Ok bs /\ (nlen bs < 2 ^ 64 -> encodes SpecAbstract.Der n v bs).
Proof.
  intros L n o v H. destruct (C38_otherwise_ok L o) as (bs & E).
  { intros (h & Hw & Ht). pose proof (proj1 (stands_tags SpecAbstract.Der) _ _ _ H h Hw). lia. }
  exists bs. split; [exact E|]. intros Hn. exact (proj1 (stands_encode SpecAbstract.Der L) _ _ _ H bs E Hn).
Qed.
Print Assumptions C85_partial.

(** Encoding and decoding, with either reader, gives the value back. *)
Theorem C85_round_trip : forall L n o v, stands SpecAbstract.Der n o v -> supported v -> (n <= 49)%nat ->
  accepts_oids L -> no_unknown_tag L ->
  exists bs, to_vec L o = Ok bs
    /\ (nlen bs < 2 ^ 32 -> exists o1 o2, parse_ber L bs = Ok ([], o1) /\ denotes Whole o1 v
          /\ parse_der L bs = Ok ([], o2) /\ denotes SpecAbstract.Der o2 v).
Proof.
  intros L n o v H Hs Hn HL HU. destruct (C85_partial L n o v H) as (bs & E & Hd). exists bs. split; [exact E|].
  intros Hlen. change (2 ^ 32) with 4294967296 in Hlen. unfold nlen in *.
  assert (He : encodes SpecAbstract.Der n v bs) by (apply Hd; change (2 ^ 64) with 18446744073709551616; lia).
  destruct (C83_partial L n v bs [] HL HU Hs Hn ltac:(constructor) ltac:(lia) He) as (o2 & E2 & D2).
  destruct (C82_partial L n v bs [] HL Hs Hn ltac:(constructor) (proj1 der_whole _ _ _ He)) as (o1 & E1 & D1).
  rewrite app_nil_r in *. eauto 10.
Qed.
Print Assumptions C85_round_trip.

(** ENUMERATED 128 is written as the encoding of -128. *)
Theorem C85_refuted : exists o bs, denotes SpecAbstract.Der o (AEnumerated 128) /\ o = from_obj (CEnum 128)
  /\ to_vec SL o = Ok bs /\ encodes SpecAbstract.Der 1 (AEnumerated (-128)) bs.
Proof.
  exists (from_obj (CEnum 128)), [10; 1; 128]. split; [apply (den_enumerated _ _ 128)|]. split; [reflexivity|].
  split; [vm_compute; reflexivity|].
  refine (e_primitive SpecAbstract.Der 0 (AEnumerated (twos_complement [128])) [128] [1] _ _).
  - apply c_enumerated; [bok|exact I].
  - split; [apply (length_short 1); reflexivity|]. intros _ lb' Hl. inv Hl; cbn [length]; lia.
Qed.
Print Assumptions C85_refuted.

(** The hypotheses are met by what the library's constructors build. *)
Example C85_ex : exists o bs,
  o = from_seq [from_int_slice [255; 127]; from_obj (CBitString 5 [160]); from_obj (CStr KUTF8 [195; 169]);
                Obj (header_new ContextSpecific true 0 (Definite 0)) (CTagged ContextSpecific 0 (from_obj (CBoolean true)));
                from_obj (COID (mkOid false [42; 134; 72]))]
  /\ stands SpecAbstract.Der 3 o sample_value
  /\ to_vec SL o = Ok bs /\ bs = hx "30 16 02 02 ff 7f 03 02 05 a0 0c 02 c3 a9 a0 03 01 01 ff 06 03 2a 86 48".
Proof.
  eexists. eexists. split; [reflexivity|]. split; [|split; [vm_compute; reflexivity|reflexivity]].
  apply st_sequence; [repeat split|].
  apply sa_cons; [|apply sa_cons; [|apply sa_cons; [|apply sa_cons; [|apply sa_cons; [|apply sa_nil]]]]].
  - apply st_primitive; [repeat split|]. apply stored_integer. change (-129)%Z with (twos_complement [255; 127]).
    apply c_integer; [bok|]. vm_compute. intuition discriminate.
  - apply st_primitive; [repeat split|]. apply stored_bit_string.
    refine (c_bit_string _ [true; false; true] [false; false; false; false; false] 5 [160] _ _ _ _ _);
      [bok|reflexivity|reflexivity|reflexivity|intros _; repeat constructor].
  - apply st_primitive; [repeat split|]. refine (stored_text _ TUtf8 [233] _). constructor; [left; reflexivity|constructor].
  - apply st_explicit; [repeat split|discriminate|reflexivity|].
    apply st_primitive; [repeat split|]. apply stored_boolean.
  - apply st_primitive; [repeat split|]. apply stored_oid. apply c_oid; [split; [discriminate|reflexivity]|].
    exists [[42]; [134; 72]]. split; [reflexivity|]. constructor; [|constructor; [|constructor]].
    + exists [42]. repeat split; try discriminate; auto. repeat constructor.
    + exists [6; 72]. repeat split; try discriminate; auto. repeat constructor. right. discriminate.
Qed.
