(** * C90: objects made for a type are written and read back *)

From Coq Require Import String.
From Verif Require Import Base Asn1rs Ber Der Combinators Serialize Conformance Spec SpecValue SpecComb SpecSer SpecOid SpecAbstract SpecSchema.
From Verif Require Import LemBase LemHeader LemSkip LemParse LemNode LemSer LemAbstract LemUnique.
From Verif Require Import PropSer PropEnc PropAbstract PropAbstractEnc PropSchema.
Local Open Scope string_scope. Local Open Scope N_scope. Local Open Scope list_scope.

Scheme made_mind := Induction for made Sort Prop
with made_fields_mind := Induction for made_fields Sort Prop
with made_each_mind := Induction for made_each Sort Prop.
Combined Scheme made_schema_ind from made_mind, made_fields_mind, made_each_mind.

(** The encoder looks at class, form and tag number of a header only. *)
Lemma with_header_same h h' g : header_is h (h_class h') (h_constructed h') (h_tag h') -> with_header h g = with_header h' g.
Proof.
  intros (H1 & H2 & H3). unfold with_header, ber_encode_header. cbn [with_length h_class h_constructed h_tag h_length].
  now rewrite H1, H2, H3.
Qed.

Lemma with_header_made h cl pc t c : header_is h cl pc t -> t < 31 -> exists bs, with_header h (Ok c) = Ok bs
  /\ (nlen bs < 2 ^ 64 -> exists lb, bs = leading_octet cl pc t :: lb ++ c
       /\ definite_length SpecAbstract.Der (N.of_nat (length c)) lb /\ nlen c < 2 ^ 64).
Proof.
  intros (<- & <- & <-) Ht.
  assert (E : exists bs, with_header h (Ok c) = Ok bs).
  { unfold with_header, ber_encode_header. cbn [bind with_length h_class h_constructed h_tag h_length].
    destruct (30 <? h_tag h) eqn:E; [lia|]. unfold encode_length. destruct (nlen c <=? 127); eexists; reflexivity. }
  destruct E as (bs & E). exists bs. split; [exact E|]. intros Hn.
  destruct (with_header_encodes _ _ _ E Hn) as (_ & lb & -> & Hl). exists lb. split; [reflexivity|]. split; [exact Hl|].
  unfold nlen in *. cbn [length] in Hn. rewrite app_length in Hn. lia.
Qed.

Lemma der_wrapped cl t c lb : t < 31 -> definite_length SpecAbstract.Der (N.of_nat (length c)) lb ->
  wrapped SpecAbstract.Der cl t c (leading_octet cl true t :: lb ++ c).
Proof.
  intros Ht Hl. exists [leading_octet cl true t]. split; [left; auto|]. left. exists lb. auto.
Qed.

Lemma made_encode L :
  (forall e n o d, made e n o d -> exists bs, to_vec L o = Ok bs
     /\ (nlen bs < 2 ^ 64 -> encodes_as SpecAbstract.Der false e n d bs))
  /\ (forall fs n os ds, made_fields fs n os ds -> exists c, gen_many (ber_encode_object L) os = Ok c
     /\ (nlen c < 2 ^ 64 -> encodes_fields SpecAbstract.Der false fs n ds c))
  /\ (forall e n os ds, made_each e n os ds -> exists c, gen_many (ber_encode_object L) os = Ok c
     /\ (nlen c < 2 ^ 64 -> encodes_each SpecAbstract.Der false e n ds c)).
Proof.
  unfold to_vec.
  assert (Hcons : forall o os a b, ber_encode_object L o = Ok a -> gen_many (ber_encode_object L) os = Ok b ->
    gen_many (ber_encode_object L) (o :: os) = Ok (a ++ b)).
  { intros o os a b Ha Hb. cbn [gen_many]. change (gen_seq (ber_encode_object L o) (gen_many (ber_encode_object L) os) = Ok (a ++ b)).
    rewrite Ha, Hb. reflexivity. }
  assert (Happ : forall a b : bytes, nlen (a ++ b) < 2 ^ 64 -> nlen a < 2 ^ 64 /\ nlen b < 2 ^ 64).
  { intros a b H. unfold nlen in *. rewrite app_length in H. lia. }
  apply made_schema_ind.
  - intros n o v Hs Hu Hsup. destruct (C85_partial L n o v Hs) as (bs & E & He). exists bs. split; [exact E|].
    intros Hn. apply as_value; auto.
  - intros n fs h os ds Hh Hf (c & Ec & IH). cbn [ber_encode_object ber_encode_object_content]. rewrite Ec.
    destruct (with_header_made _ _ _ _ c Hh ltac:(lia)) as (bs & E & Hb). exists bs. split; [exact E|].
    intros Hn. destruct (Hb Hn) as (lb & -> & Hl & Hc). eapply as_sequence; [exact (IH Hc)|]. now apply der_wrapped.
  - intros n e h os ds Hh Hf (c & Ec & IH). cbn [ber_encode_object ber_encode_object_content]. rewrite Ec.
    destruct (with_header_made _ _ _ _ c Hh ltac:(lia)) as (bs & E & Hb). exists bs. split; [exact E|].
    intros Hn. destruct (Hb Hn) as (lb & -> & Hl & Hc). eapply as_sequence_of; [exact (IH Hc)|]. now apply der_wrapped.
  - intros n e h os ds Hh Hf (c & Ec & IH). cbn [ber_encode_object ber_encode_object_content]. rewrite Ec.
    destruct (with_header_made _ _ _ _ c Hh ltac:(lia)) as (bs & E & Hb). exists bs. split; [exact E|].
    intros Hn. destruct (Hb Hn) as (lb & -> & Hl & Hc). eapply as_set_of; [exact (IH Hc)|]. now apply der_wrapped.
  - intros n fs h os ds Hh Hf (c & Ec & IH). cbn [ber_encode_object ber_encode_object_content]. rewrite Ec.
    destruct (with_header_made _ _ _ _ c Hh ltac:(lia)) as (bs & E & Hb). exists bs. split; [exact E|].
    intros Hn. destruct (Hb Hn) as (lb & -> & Hl & Hc). eapply as_set; [exact (IH Hc)|]. now apply der_wrapped.
  - intros n cl t e h o d Hh Ht Ho (c & Ec & IH). cbn [ber_encode_object ber_encode_object_content]. rewrite Ec.
    destruct (with_header_made _ _ _ _ c Hh Ht) as (bs & E & Hb). exists bs. split; [exact E|].
    intros Hn. destruct (Hb Hn) as (lb & -> & Hl & Hc). eapply as_explicit; [exact (IH Hc)|]. now apply der_wrapped.
  - intros n cl t h k v Hh Ht Hk Hs. destruct (stored_contents SpecAbstract.Der L k v Hk) as (c & Ec & Hcon).
    cbn [ber_encode_object]. rewrite Ec.
    destruct (with_header_made _ _ _ _ c Hh Ht) as (bs & E & Hb). exists bs. split; [exact E|].
    intros Hn. destruct (Hb Hn) as (lb & -> & Hl & Hc).
    apply (as_implicit SpecAbstract.Der false n cl t v c [leading_octet cl false t] lb); auto; [left; auto|discriminate].
  - intros n cl t fs h os ds Hh Ht Hf (c & Ec & IH). cbn [ber_encode_object ber_encode_object_content]. rewrite Ec.
    destruct (with_header_made _ _ _ _ c Hh Ht) as (bs & E & Hb). exists bs. split; [exact E|].
    intros Hn. destruct (Hb Hn) as (lb & -> & Hl & Hc). eapply as_implicit_sequence; [exact (IH Hc)|now apply der_wrapped|discriminate].
  - intros n e1 e2 o d Ho (bs & E & He). exists bs. split; [exact E|]. intros Hn. constructor. auto.
  - intros n e1 e2 o d Ho (bs & E & He). exists bs. split; [exact E|]. intros Hn. constructor. auto.
  - intros n. exists []. split; [reflexivity|constructor].
  - intros n opt e fs o os d ds Ho (a & Ea & IHa) Hf (b & Eb & IHb). exists (a ++ b). split; [auto|].
    intros Hn. apply Happ in Hn as [Ha Hb]. constructor; auto.
  - intros n e fs h h' k os d ds Ho (a & Ea & IHa) Hh Hf (b & Eb & IHb). exists (a ++ b). split.
    + apply Hcons; [|exact Eb]. rewrite <- Ea. cbn [ber_encode_object ber_encode_object_content]. now apply with_header_same.
    + intros Hn. apply Happ in Hn as [Ha Hb]. constructor; auto.
  - intros n e fs os ds Hf (c & Ec & IH). exists c. split; [exact Ec|]. intros Hn. constructor. auto.
  - intros e n. exists []. split; [reflexivity|constructor].
  - intros e n o os d ds Ho (a & Ea & IHa) Hf (b & Eb & IHb). exists (a ++ b). split; [auto|].
    intros Hn. apply Happ in Hn as [Ha Hb]. constructor; auto.
Qed.

(** The octets written are the distinguished encoding of the data (outputs of less
    than 2^64 octets). *)
Theorem C90_writes : forall L e n o d, made e n o d ->
  exists bs, to_vec L o = Ok bs /\ (nlen bs < 2 ^ 64 -> encodes_as SpecAbstract.Der false e n d bs).
Proof. intros L. exact (proj1 (made_encode L)). Qed.
Print Assumptions C90_writes.

(** Both parsers for the type read the data back, whatever follows. *)
Theorem C90_round_trip : forall L e n o d r, made e n o d -> proper e -> (n <= 49)%nat -> accepts_oids L -> bytes_ok r ->
  exists bs, to_vec L o = Ok bs
    /\ (nlen bs < 2 ^ 32 -> exists o1 o2,
          reader (ber_kit L) e (bs ++ r) = Ok (r, o1) /\ decoded SpecAbstract.Der e d o1
          /\ reader (der_kit L) e (bs ++ r) = Ok (r, o2) /\ decoded SpecAbstract.Der e d o2).
Proof.
  intros L e n o d r H Hp Hn HL Hr. destruct (C90_writes L e n o d H) as (bs & E & He). exists bs. split; [exact E|].
  intros Hl. change (2 ^ 32) with 4294967296 in Hl. change (2 ^ 64) with 18446744073709551616 in He. unfold nlen in *.
  specialize (He ltac:(lia)).
  destruct (proj2 (C89_ber L e n d bs r HL Hp Hn Hr ltac:(lia)) He) as (o1 & E1 & D1).
  destruct (C89_der L e n d bs r HL Hp Hn Hr ltac:(lia) He) as (o2 & E2 & D2). eauto 10.
Qed.
Print Assumptions C90_round_trip.

(** What the parser returns for a value with an absent component cannot be written
    back: [COptional None] is written as an element of its own (00 00). *)
Theorem C90_absent_refuted : exists e bs h ho hb o bs' rest,
  proper e /\ encodes_as SpecAbstract.Der false e 2 (DRecord [None; Some (DValue (ABoolean true))]) bs
  /\ o = Obj h (CSequence [Obj ho (COptional None); Obj hb (CBoolean true)])
  /\ reader (der_kit SL) e bs = Ok ([], o) /\ to_vec SL o = Ok bs' /\ bs' <> bs
  /\ (forall x, reader (der_kit SL) e bs' <> Ok x) /\ (forall x, reader (ber_kit SL) e bs' <> Ok x)
  /\ to_vec SL (Obj h (CSequence [Obj hb (CBoolean true)])) = Ok bs
  /\ rest = [0; 0] /\ to_vec SL (Obj ho (COptional None)) = Ok rest.
Proof.
  exists (TSequence (FCons true (TValue 2) (FCons false (TValue 1) FNil))), [48; 3; 1; 1; 255].
  do 4 eexists. exists [48; 5; 0; 0; 1; 1; 255], [0; 0].
  split. { is_proper. }
  split.
  { refine (as_sequence _ _ 1 _ _ [1; 1; 255] _ (as_absent _ _ _ _ _ _ _ _) _).
    - refine (as_present _ _ 1 false _ FNil _ [] [1; 1; 255] [] _ (as_no_field _ _ _)).
      refine (as_value _ _ 1 (ABoolean true) _ _ I _); [|now apply sup_other].
      refine (e_primitive _ 0 (ABoolean true) [255] [1] _ _); [|now apply any_short].
      apply c_boolean; [lia|split; discriminate|right; reflexivity].
    - exists [48]. split; [left; split; reflexivity|]. left. exists [3]. split; [now apply any_short|reflexivity]. }
  split; [reflexivity|]. split; [vm_compute; reflexivity|]. split; [vm_compute; reflexivity|].
  split; [discriminate|]. split; [intros x; vm_compute; discriminate|]. split; [intros x; vm_compute; discriminate|].
  split; [vm_compute; reflexivity|]. split; [reflexivity|vm_compute; reflexivity].
Qed.
Print Assumptions C90_absent_refuted.

(** An object made with the crate's constructors: [0] EXPLICIT INTEGER 2, INTEGER 5, no
    [1], and a list with one string. *)
Definition sample_made : obj :=
  from_seq [Obj (mkHeader ContextSpecific true 0 (Definite 0) None) (CTagged ContextSpecific 0 (from_obj (CInteger [2])));
    from_obj (CInteger [5]); from_seq [from_obj (CStr KUTF8 [195; 169])]].

Example C90_ex : made sample_schema 3 sample_made sample_data
  /\ to_vec SL sample_made = Ok (hx "30 0e a0 03 02 01 02 02 01 05 30 04 0c 02 c3 a9")
  /\ exists o, reader (der_kit SL) sample_schema (hx "30 0e a0 03 02 01 02 02 01 05 30 04 0c 02 c3 a9 aa") = Ok ([170], o).
Proof.
  split; [|split; [vm_compute; reflexivity|eexists; vm_compute; reflexivity]].
  assert (Hint : forall n x, x < 128 -> made (TValue 2) (S n) (from_obj (CInteger [x])) (DValue (AInteger (twos_complement [x])))).
  { intros n x Hx. refine (b_value _ _ (AInteger (twos_complement [x])) _ I _); [|now apply sup_other].
    apply st_primitive; [repeat split|]. apply stored_integer, c_integer; [constructor; [lia|constructor]|exact I]. }
  apply b_sequence; [repeat split|].
  apply b_component; [apply b_explicit; [repeat split|lia|exact (Hint 0%nat 2 eq_refl)]|].
  apply b_component; [exact (Hint 1%nat 5 eq_refl)|]. apply b_absent. apply b_component; [|constructor].
  apply b_sequence_of; [repeat split|]. apply b_element; [|constructor].
  refine (b_value _ _ (AText TUtf8 [233]) _ I _); [|now apply sup_other].
  apply st_primitive; [repeat split|]. refine (stored_text _ TUtf8 [233] _).
  constructor; [left; reflexivity|constructor].
Qed.
