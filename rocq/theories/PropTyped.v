(** * C62-C64: readers of one type, header queries, bit slices *)

From Coq Require Import String.
From Verif Require Import Base Asn1rs Ber Der Combinators Conformance Spec SpecValue SpecComb.
From Verif Require Import Typed SpecTyped.
From Verif Require Import LemBase LemHeader LemSkip LemParse LemDer LemText LemTree LemNode LemComb LemFrame LemVariant.
From Verif Require Import PropFraming PropVariant PropDer PropBits.
Local Open Scope string_scope.
Local Open Scope N_scope.
Local Open Scope list_scope.

(** ** C62 *)

Lemma with_tag_exact L i t r o : bytes_ok i ->
  (parse_ber_with_tag L i t = Ok (r, o)
   <-> exists bs c, i = bs ++ r /\ element 50 (o_header o) c bs /\ h_tag (o_header o) = t
         /\ (forall n, h_length (o_header o) = Definite n -> n <= 4294967295)
         /\ value L 50 (as_universal (o_header o)) c (o_content o)).
Proof.
  intros Hok. split.
  - intros H. apply with_tag_element in H as (bs & c & -> & He & Ht & Hv & Hm); [|assumption].
    exists bs, c. auto.
  - intros (bs & c & -> & (hb & b & -> & Hh & Hb & ->) & Ht & Hm & Hv). destruct o as [h k].
    cbn [o_header o_content] in *. eapply with_tag_intro; [|exact Ht|].
    + rewrite <- app_assoc. now apply header_from_ber_complete.
    + apply value_conv in Hv. subst t. eapply content_as_intro.
      * apply get_content_complete. eapply body_same; [exact Hb|reflexivity|reflexivity].
      * exact Hv.
      * exact Hm.
Qed.

Lemma der_with_tag_exact L i t r o : bytes_ok i ->
  (parse_der_with_tag L i t = Ok (r, o)
   <-> exists bs c, i = bs ++ r /\ definite_element (o_header o) c bs /\ h_tag (o_header o) = t
         /\ (t <> 3 -> N.of_nat (length c) <= 4294967295)
         /\ der_checked t (h_constructed (o_header o)) c
         /\ (t = 3 -> der_bit_string (h_constructed (o_header o)) c)
         /\ value L 50 (as_universal (o_header o)) c (o_content o)).
Proof.
  intros Hok. split.
  - intros H. pose proof H as H'.
    apply der_with_tag_checked in H as (bs & c & -> & He & Ht & Hc & Hb & Hv); [|assumption].
    exists bs, c. split; [reflexivity|]. split; [exact He|]. split; [exact Ht|].
    split; [|auto]. intros H3.
    apply der_with_tag_iff in H' as (h & c' & k & Hh & Hl & Ht' & -> & Hd).
    destruct He as (hb & -> & _ & Hl'). cbn [o_header] in *.
    inv Hd; [congruence|]. unfold nlen in *. rewrite Hl in Hl'. injection Hl' as Hl'. unfold nlen in Hl'.
    rewrite <- Hl'. assumption.
  - intros (bs & c & -> & (hb & -> & Hh & Hl) & Ht & Hm & Hc & Hb & Hv). destruct o as [h k].
    cbn [o_header o_content] in *. apply der_with_tag_iff. exists h, c, k.
    split; [rewrite <- app_assoc; apply header_from_der_complete; congruence|].
    split; [exact Hl|]. split; [exact Ht|]. split; [reflexivity|]. subst t.
    destruct (N.eq_dec (h_tag h) 3) as [H3|H3].
    + destruct (Hb H3) as (Hp & u & data & -> & Hu & Hz). apply dv_bits; auto.
      inv Hv; cbn [as_universal h_tag h_class] in *; try congruence.
      * exfalso. match goal with H : ~ In _ _ |- _ => apply H end. rewrite H3. cbn. tauto.
      * exists u, data. auto.
      * match goal with k0 : strkind |- _ => destruct k0; cbn in *; congruence end.
    + apply dv_ber; auto. now apply value_conv.
Qed.

Ltac in_table H :=
  repeat (destruct H as [H|H]; [injection H as <- <- <-|]); [..|destruct H].

Theorem C62_ber_exact : forall f n shape, In (f, n, shape) ber_readers ->
  forall L i r o, bytes_ok i ->
  (f L i = Ok (r, o)
   <-> exists bs c, i = bs ++ r /\ element 50 (o_header o) c bs /\ h_tag (o_header o) = n
         /\ (forall m, h_length (o_header o) = Definite m -> m <= 4294967295)
         /\ value L 50 (as_universal (o_header o)) c (o_content o)).
Proof.
  intros f n shape H L i r o Hok. unfold ber_readers in H. in_table H; now apply with_tag_exact.
Qed.
Print Assumptions C62_ber_exact.

Theorem C62_der_exact : forall f n shape, In (f, n, shape) der_readers ->
  forall L i r o, bytes_ok i ->
  (f L i = Ok (r, o)
   <-> exists bs c, i = bs ++ r /\ definite_element (o_header o) c bs /\ h_tag (o_header o) = n
         /\ (n <> 3 -> N.of_nat (length c) <= 4294967295)
         /\ der_checked n (h_constructed (o_header o)) c
         /\ (n = 3 -> der_bit_string (h_constructed (o_header o)) c)
         /\ value L 50 (as_universal (o_header o)) c (o_content o)).
Proof.
  intros f n shape H L i r o Hok. unfold der_readers in H. in_table H; now apply der_with_tag_exact.
Qed.
Print Assumptions C62_der_exact.

Lemma reader_shape L h c k : value L 50 (as_universal h) c k ->
  forall f n shape, (In (f, n, shape) ber_readers \/ In (f, n, shape) der_readers) ->
  h_tag h = n -> shape k.
Proof.
  intros Hv f n shape H Ht.
  destruct H as [H|H]; [unfold ber_readers in H|unfold der_readers in H]; in_table H;
    inv Hv; cbn [as_universal h_tag h_class] in *; try congruence; eauto;
    try (exfalso; match goal with H : ~ In _ _ |- _ => apply H end; rewrite Ht; cbn; tauto);
    match goal with k0 : strkind |- _ => destruct k0; cbn in *; try congruence; eauto end.
Qed.

Theorem C62_types : forall f n shape,
  In (f, n, shape) ber_readers \/ In (f, n, shape) der_readers ->
  forall L i r o, bytes_ok i -> f L i = Ok (r, o) ->
  h_tag (o_header o) = n /\ shape (o_content o).
Proof.
  intros f n shape H L i r o Hok E. destruct H as [H|H].
  - pose proof H as H'. eapply C62_ber_exact in H'; [|exact Hok]. apply H' in E as (bs & c & _ & _ & Ht & _ & Hv).
    split; [exact Ht|]. eapply reader_shape; eauto.
  - pose proof H as H'. eapply C62_der_exact in H'; [|exact Hok].
    apply H' in E as (bs & c & _ & _ & Ht & _ & _ & _ & Hv).
    split; [exact Ht|]. eapply reader_shape; eauto.
Qed.
Print Assumptions C62_types.

(** The tables list every reader once per encoding. *)
Example C62_ex : length ber_readers = 25%nat /\ length der_readers = 26%nat
  /\ exists o, parse_ber_utf8string SL (hx "0c 02 c3 a9 00") = Ok ([0], o)
     /\ o_content o = CStr KUTF8 (hx "c3 a9")
     /\ parse_der_utf8string SL (hx "0c 02 c3 a9 00") = Ok ([0], o)
     /\ parse_ber_printablestring SL (hx "0c 02 c3 a9 00") = Err (Error (UnexpectedTag (Some 19) 12)).
Proof. vm_compute. repeat split. eexists. repeat split. Qed.

(** ** C12, the other direction: what the generic parsers read, the readers of
    the tag in question read too. *)

Lemma value_universal L d h c k : value L d h c k -> h_class h = Universal ->
  exists k', value L d (as_universal h) c k' /\ same_content k k'.
Proof.
  intros Hv Hc.
  assert (Hs : same_header h (as_universal h)) by (repeat split; auto).
  inv Hv; try congruence;
    try (eexists; split; [econstructor; eauto|now left]; fail).
  eexists. split; [apply v_unmapped; auto|]. right. exists h, (as_universal h), c. auto.
Qed.

Theorem C12_converse_ber : forall L i r o, bytes_ok i ->
  parse_ber L i = Ok (r, o) -> h_class (o_header o) = Universal ->
  (forall n, h_length (o_header o) = Definite n -> n <= 4294967295) ->
  exists k, parse_ber_with_tag L i (h_tag (o_header o)) = Ok (r, Obj (o_header o) k)
    /\ same_content (o_content o) k.
Proof.
  change 4294967295 with MAX_OBJECT_SIZE.
  intros L i r o Hok H Hc Hm. apply parse_ber_iff in H as (bs & c & -> & He & Hv); [|assumption].
  destruct (value_universal _ _ _ _ _ Hv Hc) as (k & Hk & Hs). exists k. split; [|exact Hs].
  apply with_tag_exact; [assumption|]. exists bs, c. auto 6.
Qed.
Print Assumptions C12_converse_ber.

Theorem C12_converse_der : forall L i r o, no_unknown_tag L -> bytes_ok i ->
  parse_der L i = Ok (r, o) -> h_class (o_header o) = Universal ->
  parse_der_with_tag L i (h_tag (o_header o)) = Ok (r, o).
Proof.
  intros L i r o HL Hok H Hc.
  apply C56_parse_der_exact in H as (bs & c & -> & He & Hm & Hd & Hv); [|assumption..|unfold MAX_RECURSION; lia].
  apply der_with_tag_exact; [assumption|]. exists bs, c. destruct (Hd Hc) as [H1 H2].
  rewrite (der_view_universal _ Hc) in Hv. auto 8.
Qed.
Print Assumptions C12_converse_der.

(** ** C63 *)

Lemma described h hb k : header_octets h hb ->
  exists b hb', hb = b :: hb' /\ b < 256 /\ described_by b (Obj h k).
Proof.
  intros (ib & lb & -> & Hi & _). unfold described_by, is_universal, is_application, is_contextspecific,
    is_private, is_constructed, is_primitive, obj_tag. cbn [o_header].
  inversion Hi; subst; eexists; eexists; (split; [reflexivity|]); unfold leading_octet;
    destruct (h_class h), (h_constructed h); cbn [class_code class_eqb negb]; repeat split; lia.
Qed.

Theorem C63_identifier : forall L b i r o, bytes_ok (b :: i) ->
  parse_ber L (b :: i) = Ok (r, o) \/ parse_der L (b :: i) = Ok (r, o)
  \/ (exists t, parse_ber_with_tag L (b :: i) t = Ok (r, o) \/ parse_der_with_tag L (b :: i) t = Ok (r, o)) ->
  described_by b o.
Proof.
  intros L b i r [h k] Hok H.
  assert (He : exists hb x, b :: i = hb ++ x /\ header_octets h hb).
  { destruct H as [H|[H|(t & [H|H])]].
    - apply parse_ber_iff in H as (bs & c & E & (hb & b' & -> & Hh & _) & _); [|assumption].
      rewrite <- app_assoc in E. cbn [o_header] in Hh. eauto.
    - apply parse_der_element in H as (hb & c & E & Hh & _); [|assumption]. cbn [o_header] in Hh. eauto.
    - apply with_tag_exact in H as (bs & c & E & (hb & b' & -> & Hh & _) & _); [|assumption].
      rewrite <- app_assoc in E. cbn [o_header] in Hh. eauto.
    - apply der_with_tag_exact in H as (bs & c & E & (hb & -> & Hh & _) & _); [|assumption].
      rewrite <- app_assoc in E. cbn [o_header] in Hh. eauto. }
  destruct He as (hb & x & E & Hh). destruct (described h hb k Hh) as (b' & hb' & -> & _ & Hd).
  cbn [app] in E. congruence.
Qed.
Print Assumptions C63_identifier.

(** The [assert_] functions succeed exactly on the value asked for, and their
    error tells the value found. *)
Theorem C63_assertions : forall o,
  (forall c, (obj_assert_class o c = Ok tt <-> obj_class o = c)
     /\ (obj_class o <> c -> obj_assert_class o c = Err (UnexpectedClass (Some c) (obj_class o))))
  /\ (forall t, (obj_assert_tag o t = Ok tt <-> obj_tag o = t)
     /\ (obj_tag o <> t -> obj_assert_tag o t = Err (UnexpectedTag (Some t) (obj_tag o))))
  /\ obj_assert_constructed o = (if is_constructed o then Ok tt else Err ConstructExpected)
  /\ obj_assert_primitive o = (if is_primitive o then Ok tt else Err ConstructUnexpected).
Proof.
  intros [h k]. unfold obj_assert_class, obj_assert_tag, obj_assert_constructed, obj_assert_primitive,
    assert_tag, assert_constructed, assert_primitive, obj_class, obj_tag, is_constructed, is_primitive.
  cbn [o_header]. split; [|split; [|split]].
  - intros c. destruct (h_class h), c; cbn [class_eqb]; split; try split; intros; congruence.
  - intros t. destruct (N.eqb_spec (h_tag h) t); split; try split; intros; congruence.
  - reflexivity.
  - now destruct (h_constructed h).
Qed.
Print Assumptions C63_assertions.

Example C63_ex : exists o, parse_ber SL (hx "b1 80 04 01 61 00 00 ff") = Ok (hx "ff", o)
  /\ is_contextspecific o = true /\ is_universal o = false /\ is_constructed o = true /\ obj_tag o = 17
  /\ obj_assert_class o Private = Err (UnexpectedClass (Some Private) ContextSpecific)
  /\ obj_assert_primitive o = Err ConstructUnexpected.
Proof. eexists. split; [vm_compute; reflexivity|]. vm_compute. auto 9. Qed.

(** ** C64 *)

(** The full claim (the slice holds exactly the declared bits) is false: the
    unused bits are included. *)
Theorem C64_refuted : exists i r o u data l,
  parse_der SL i = Ok (r, o) /\ o_content o = CBitString u data
  /\ as_bitslice (o_content o) = Ok l /\ l <> string_bits u data
  /\ bitstring_as_bitslice data = Some l.
Proof.
  exists (hx "03 02 04 f0"), [], (match parse_der SL (hx "03 02 04 f0") with Ok (_, o) => o | _ => Obj (mkHeader Universal false 0 Indefinite None) CNull end), 4, [240], (bits [240]).
  vm_compute. repeat split. discriminate.
Qed.
Print Assumptions C64_refuted.

(** Proved: the declared bits in order come first, followed by exactly the
    unused bits; the k-th bit is the one [is_set] reports. *)
Theorem C64_partial : forall u data, u <= 8 * N.of_nat (length data) ->
  exists tail, as_bitslice (CBitString u data) = Ok (string_bits u data ++ tail)
    /\ bitstring_as_bitslice data = Some (string_bits u data ++ tail)
    /\ N.of_nat (length tail) = u
    /\ forall n, bit_is_set data n =
         Ok (match nth_error (string_bits u data ++ tail) (N.to_nat n) with Some b => b | None => false end).
Proof.
  intros u data Hu. exists (skipn (8 * length data - N.to_nat u) (bits data)).
  unfold string_bits. rewrite firstn_skipn.
  split; [reflexivity|]. split; [reflexivity|]. split.
  - rewrite skipn_length, bits_length. lia.
  - intros n. apply C18_is_set.
Qed.
Print Assumptions C64_partial.

Example C64_ex : as_bitslice (CBitString 4 [240]) = Ok (string_bits 4 [240] ++ [false; false; false; false])
  /\ string_bits 4 [240] = [true; true; true; true]
  /\ as_bitslice CNull = Err BerTypeError.
Proof. vm_compute. auto. Qed.

(** ** C51 for objects *)

(** The accessors of an object: the stored value for the variants they are for, a type
    error otherwise, whatever the header says; the readers of numbers are those of the
    content. *)
Theorem C51_objects : forall h c, let o := Obj h c in
  (forall b, obj_as_bool o = Ok b <-> c = CBoolean b)
  /\ (forall x, obj_as_oid o = Ok x <-> c = COID x \/ c = CRelativeOID x)
  /\ (forall x, obj_as_oid_val o = Ok x <-> c = COID x \/ c = CRelativeOID x)
  /\ (forall x, obj_as_optional o = Ok x <-> c = COptional x)
  /\ (forall k t x, obj_as_tagged o = Ok (k, t, x) <-> c = CTagged k t x)
  /\ (forall d, obj_as_bitstring o = Ok d <-> exists u, c = CBitString u d)
  /\ (forall l, obj_as_sequence o = Ok l <-> c = CSequence l)
  /\ (forall l, obj_as_set o = Ok l <-> c = CSet l)
  /\ (forall d, obj_as_str o = Ok d <-> exists k, c = CStr k d)
  /\ (obj_as_slice o = as_slice c /\ obj_as_bitslice o = as_bitslice c
     /\ obj_as_i64 o = as_i64 c /\ obj_as_i32 o = as_i32 c
     /\ obj_as_u64 o = as_u64 c /\ obj_as_u32 o = as_u32 c)
  /\ (forall e, obj_as_bool o = Err e \/ obj_as_oid o = Err e \/ obj_as_oid_val o = Err e
        \/ obj_as_optional o = Err e \/ obj_as_tagged o = Err e \/ obj_as_bitstring o = Err e
        \/ obj_as_sequence o = Err e \/ obj_as_set o = Err e \/ obj_as_str o = Err e -> e = BerTypeError).
Proof.
  intros h c o. subst o.
  unfold obj_as_bool, obj_as_oid, obj_as_oid_val, as_oid_val, obj_as_optional, obj_as_tagged, obj_as_bitstring,
    obj_as_sequence, obj_as_set, obj_as_str. cbn [o_content].
  split; [|split; [|split; [|split; [|split; [|split; [|split; [|split; [|split; [|split]]]]]]]]].
  1: intros b. 2-4: intros x. 5: intros k t x. 6-9: intros d.
  1-9: split; [intros H|intros H].
  all: try (destruct c as [| | | | | | | | | | | | | | | |[y|]| |]; cbn in H; inversion H; subst; eauto; fail).
  all: try (destruct H as [-> | ->]; reflexivity). all: try (destruct H as (? & ->); reflexivity).
  all: try (subst c; reflexivity).
  - repeat split.
  - intros e He. destruct c as [| | | | | | | | | | | | | | | |[y|]| |]; cbn in He;
      repeat (destruct He as [He|He]); inversion He; reflexivity.
Qed.
Print Assumptions C51_objects.

Example C51_objects_ex :
  let h := header_new Private false 9 Indefinite in
  obj_as_tagged (Obj h (CTagged ContextSpecific 4 (from_int_slice [5])))
    = Ok (ContextSpecific, 4, from_int_slice [5])
  /\ obj_as_tagged (from_int_slice [5]) = Err BerTypeError
  /\ obj_as_optional (Obj h (COptional None)) = Ok None
  /\ obj_as_oid_val (Obj h (CRelativeOID (mkOid true [7]))) = Ok (mkOid true [7]).
Proof. repeat split. Qed.
