(** * C91: reading an encoding and writing the object *)

From Coq Require Import String.
From Verif Require Import Base Asn1rs Ber Der Combinators Serialize Conformance Spec SpecValue SpecComb SpecSer SpecOid SpecAbstract SpecSchema.
From Verif Require Import LemBase LemHeader LemSkip LemParse LemDer LemTree LemNode LemFrame LemVariant LemSer LemAbstract LemUnique.
From Verif Require Import PropFraming PropDer PropSer PropEnc PropAbstract PropAbstractEnc PropSchema PropSchemaEnc.
Local Open Scope string_scope. Local Open Scope N_scope. Local Open Scope list_scope.

(** ** The octets written for an object are the distinguished encoding *)

Lemma with_header_writes h cl pc t c : header_is h cl pc t -> t < 31 -> nlen c < 2 ^ 64 ->
  exists lb, with_header h (Ok c) = Ok (leading_octet cl pc t :: lb ++ c)
    /\ definite_length SpecAbstract.Der (N.of_nat (length c)) lb.
Proof.
  intros Hh Ht Hc. destruct (with_header_made h cl pc t c Hh Ht) as (bs & E & _). destruct Hh as (<- & <- & <-).
  pose proof E as E'. apply with_header_ok in E' as (v & hb & Ev & Eh & -> & _). injection Ev as <-.
  destruct (C35_shortest (with_length h (Definite (nlen c)))) as (b & lb & Eb & Hi & Hl & Hs).
  - cbn. lia.
  - intros m Em. cbn in Em. injection Em as <-. exact Hc.
  - rewrite Eb in Eh. injection Eh as <-. cbn [with_length h_class h_constructed h_tag h_length] in *.
    exists lb. split; [|split; auto]. rewrite E. cbn [app]. do 2 f_equal. inv Hi; [reflexivity|].
    match goal with H : continued ?ds = [] |- _ => destruct ds as [|? [|? ?]]; try discriminate H end.
    match goal with H : (1 <= length [] <= 5)%nat |- _ => cbn in H; lia end.
Qed.

(** A wrapped distinguished encoding is what the encoder writes around the contents. *)
Lemma wrapped_written h cl t c bs : header_is h cl true t -> t < 31 -> nlen bs < 2 ^ 64 ->
  wrapped SpecAbstract.Der cl t c bs -> nlen c < 2 ^ 64 /\ with_header h (Ok c) = Ok bs.
Proof.
  intros Hh Ht Hn (ib & Hib & [(lb & Hl & ->)|(Hr & _)]); [|contradiction].
  assert (Hc : nlen c < 2 ^ 64) by (unfold nlen in *; rewrite !app_length in Hn; lia). split; [exact Hc|].
  destruct (with_header_writes h cl true t c Hh Ht Hc) as (lb' & E & Hl'). rewrite E.
  destruct Hib as [(_ & ->)|(Hbig & _)]; [|lia]. now rewrite (LemUnique.shortest_unique _ _ _ Hl Hl').
Qed.

Lemma primitive_written h cl t (c ib lb : bytes) : header_is h cl false t -> t < 31 -> nlen (ib ++ lb ++ c) < 2 ^ 64 ->
  identifier cl false t ib -> definite_length SpecAbstract.Der (N.of_nat (length c)) lb ->
  with_header h (Ok c) = Ok (ib ++ lb ++ c).
Proof.
  intros Hh Ht Hn Hib Hl.
  assert (Hc : nlen c < 2 ^ 64) by (unfold nlen in *; rewrite !app_length in Hn; lia).
  destruct (with_header_writes h cl false t c Hh Ht Hc) as (lb' & E & Hl'). rewrite E.
  destruct Hib as [(_ & ->)|(Hbig & _)]; [|lia]. now rewrite (LemUnique.shortest_unique _ _ _ Hl Hl').
Qed.

Lemma gen_many_two L o os a b : ber_encode_object L o = Ok a -> gen_many (ber_encode_object L) os = Ok b ->
  gen_many (ber_encode_object L) (o :: os) = Ok (a ++ b).
Proof.
  intros Ha Hb. cbn [gen_many]. change (gen_seq (ber_encode_object L o) (gen_many (ber_encode_object L) os) = Ok (a ++ b)).
  rewrite Ha, Hb. reflexivity.
Qed.

Lemma nlen_two (a b : bytes) : nlen (a ++ b) < 2 ^ 64 -> nlen a < 2 ^ 64 /\ nlen b < 2 ^ 64.
Proof. unfold nlen. rewrite app_length. lia. Qed.

Lemma stands_writes L :
  (forall n o v, stands SpecAbstract.Der n o v -> forall n' bs, encodes SpecAbstract.Der n' v bs ->
     nlen bs < 2 ^ 64 -> to_vec L o = Ok bs)
  /\ (forall n os vs, stand_all SpecAbstract.Der n os vs -> forall n' c, encode_all SpecAbstract.Der n' vs c ->
     nlen c < 2 ^ 64 -> gen_many (ber_encode_object L) os = Ok c).
Proof.
  unfold to_vec. apply stands_all_ind.
  - intros n h k v Hh Hk n' bs H Hn. destruct (stored_contents SpecAbstract.Der L k v Hk) as (c & Ec & Hcon).
    cbn [ber_encode_object]. rewrite Ec. pose proof (contents_tag _ _ _ Hcon) as Ht.
    inversion H; subst; try discriminate; try (inversion Hcon; fail).
    match goal with H : contents _ _ c0 |- _ => rewrite (der_contents_unique _ _ _ H Hcon) in * end.
    change (leading_octet Universal false (value_tag v) :: lb ++ c) with ([leading_octet Universal false (value_tag v)] ++ lb ++ c).
    eapply primitive_written; eauto. left. split; [exact Ht|reflexivity].
  - intros n h os vs Hh Hs IH n' bs H Hn. cbn [ber_encode_object ber_encode_object_content].
    inversion H; subst; try discriminate; [match goal with H : contents _ _ _ |- _ => inversion H end|].
    match goal with H : wrapped _ _ _ _ _ |- _ => destruct (wrapped_written _ _ _ _ _ Hh ltac:(lia) Hn H) as [Hc E] end.
    rewrite <- E. f_equal. eapply IH; eauto.
  - intros n h os vs Hh Hs IH n' bs H Hn. cbn [ber_encode_object ber_encode_object_content].
    inversion H; subst; try discriminate; [match goal with H : contents _ _ _ |- _ => inversion H end|].
    match goal with H : wrapped _ _ _ _ _ |- _ => destruct (wrapped_written _ _ _ _ _ Hh ltac:(lia) Hn H) as [Hc E] end.
    rewrite <- E. f_equal. eapply IH; eauto.
  - intros n h cl t o v Hh Hcl Hlt Ho IH n' bs H Hn. cbn [ber_encode_object ber_encode_object_content].
    inversion H; subst; try discriminate; [match goal with H : contents _ _ _ |- _ => inversion H end|].
    match goal with H : wrapped _ _ _ _ _ |- _ => destruct (wrapped_written _ _ _ _ _ Hh Hlt Hn H) as [Hc E] end.
    rewrite <- E. f_equal. eapply IH; eauto.
  - intros n h cl t a v Hh Hcl Hlt Ho n' bs H Hn. cbn [ber_encode_object ber_encode_object_content].
    inversion H; subst; try discriminate; [match goal with H : contents _ _ _ |- _ => inversion H end|].
    match goal with H : wrapped _ _ _ _ _ |- _ => destruct (wrapped_written _ _ _ _ _ Hh Hlt Hn H) as [Hc E] end.
    rewrite <- E. do 2 f_equal. eapply (proj1 der_unique); eauto.
  - intros n n' c H _. inversion H; subst. reflexivity.
  - intros n o os v vs Ho IHo Hs IHs n' c H Hn. inversion H; subst. apply nlen_two in Hn as [Ha Hb].
    apply gen_many_two; eauto.
Qed.

Lemma made_writes L :
  (forall e n o d, made e n o d -> forall n' bs, encodes_as SpecAbstract.Der false e n' d bs ->
     nlen bs < 2 ^ 64 -> to_vec L o = Ok bs)
  /\ (forall fs n os ds, made_fields fs n os ds -> forall n' c, encodes_fields SpecAbstract.Der false fs n' ds c ->
     nlen c < 2 ^ 64 -> gen_many (ber_encode_object L) os = Ok c)
  /\ (forall e n os ds, made_each e n os ds -> forall n' c, encodes_each SpecAbstract.Der false e n' ds c ->
     nlen c < 2 ^ 64 -> gen_many (ber_encode_object L) os = Ok c).
Proof.
  unfold to_vec. apply made_schema_ind.
  - intros n o v Hs Hu Hsup n' bs H Hn. inversion H; subst. eapply (proj1 (stands_writes L)); eauto.
  - intros n fs h os ds Hh Hf IH n' bs H Hn. cbn [ber_encode_object ber_encode_object_content]. inversion H; subst.
    match goal with H : wrapped _ _ _ _ _ |- _ => destruct (wrapped_written _ _ _ _ _ Hh ltac:(lia) Hn H) as [Hc E] end.
    rewrite <- E. f_equal. eauto.
  - intros n e h os ds Hh Hf IH n' bs H Hn. cbn [ber_encode_object ber_encode_object_content]. inversion H; subst.
    match goal with H : wrapped _ _ _ _ _ |- _ => destruct (wrapped_written _ _ _ _ _ Hh ltac:(lia) Hn H) as [Hc E] end.
    rewrite <- E. f_equal. eauto.
  - intros n e h os ds Hh Hf IH n' bs H Hn. cbn [ber_encode_object ber_encode_object_content]. inversion H; subst.
    match goal with H : wrapped _ _ _ _ _ |- _ => destruct (wrapped_written _ _ _ _ _ Hh ltac:(lia) Hn H) as [Hc E] end.
    rewrite <- E. f_equal. eauto.
  - intros n fs h os ds Hh Hf IH n' bs H Hn. cbn [ber_encode_object ber_encode_object_content]. inversion H; subst.
    match goal with H : wrapped _ _ _ _ _ |- _ => destruct (wrapped_written _ _ _ _ _ Hh ltac:(lia) Hn H) as [Hc E] end.
    rewrite <- E. f_equal. eauto.
  - intros n cl t e h o d Hh Ht Ho IH n' bs H Hn. cbn [ber_encode_object ber_encode_object_content]. inversion H; subst.
    match goal with H : wrapped _ _ _ _ _ |- _ => destruct (wrapped_written _ _ _ _ _ Hh ltac:(lia) Hn H) as [Hc E] end.
    rewrite <- E. f_equal. eauto.
  - intros n cl t h k v Hh Ht Hk Hs n' bs H Hn. destruct (stored_contents SpecAbstract.Der L k v Hk) as (c & Ec & Hcon).
    cbn [ber_encode_object]. rewrite Ec. inversion H; subst.
    match goal with H : contents _ _ c0 |- _ => rewrite (der_contents_unique _ _ _ H Hcon) in * end.
    eapply primitive_written; eauto.
  - intros n cl t fs h os ds Hh Ht Hf IH n' bs H Hn. cbn [ber_encode_object ber_encode_object_content]. inversion H; subst.
    match goal with H : wrapped _ _ _ _ _ |- _ => destruct (wrapped_written _ _ _ _ _ Hh ltac:(lia) Hn H) as [Hc E] end.
    rewrite <- E. f_equal. eauto.
  - intros n e1 e2 o d Ho IH n' bs H Hn. inversion H; subst. eauto.
  - intros n e1 e2 o d Ho IH n' bs H Hn. inversion H; subst. eauto.
  - intros n n' c H _. inversion H; subst. reflexivity.
  - intros n opt e fs o os d ds Ho IHo Hf IHf n' c H Hn. inversion H; subst. apply nlen_two in Hn as [Ha Hb].
    apply gen_many_two; eauto.
  - intros n e fs h h' k os d ds Ho IHo Hh Hf IHf n' c H Hn. inversion H; subst. apply nlen_two in Hn as [Ha Hb].
    apply gen_many_two; eauto. erewrite <- IHo by eassumption.
    cbn [ber_encode_object ber_encode_object_content]. now apply with_header_same.
  - intros n e fs os ds Hf IH n' c H Hn. inversion H; subst. eauto.
  - intros e n n' c H _. inversion H; subst. reflexivity.
  - intros e n o os d ds Ho IHo Hf IHf n' c H Hn. inversion H; subst. apply nlen_two in Hn as [Ha Hb].
    apply gen_many_two; eauto.
Qed.

(** ** C91 *)

(** A distinguished encoding, read by either reader and written, is unchanged. *)
Theorem C91_der : forall L n v bs r, accepts_oids L -> no_unknown_tag L -> supported v -> writable v ->
  (n <= 49)%nat -> bytes_ok r -> N.of_nat (length bs) <= 4294967295 -> encodes SpecAbstract.Der n v bs ->
  exists o o', parse_der L (bs ++ r) = Ok (r, o) /\ to_vec L o = Ok bs
    /\ parse_ber L (bs ++ r) = Ok (r, o') /\ to_vec L o' = Ok bs.
Proof.
  intros L n v bs r HL HU Hs Hw Hn Hr Hlen H.
  destruct (proj1 (encodes_value_full SpecAbstract.Der L ltac:(discriminate) HL) _ _ _ H Hn Hs)
    as (Hok & h & c & k & He & _ & Hv & Hd & Hder & Hst).
  destruct (Hder eq_refl) as [Hdef Hel]. specialize (Hst Hw).
  assert (Hv50 : value L 50 h c k) by (eapply (proj1 (value_mono_mut L)); [exact Hv|lia]).
  assert (Hto : to_vec L (Obj h k) = Ok bs).
  { eapply (proj1 (stands_writes L)); eauto. unfold nlen. change (2 ^ 64) with 18446744073709551616. lia. }
  exists (Obj h k), (Obj h k). split; [|split; [exact Hto|split; [|exact Hto]]].
  - apply C56_parse_der_exact; auto; [apply bytes_ok_app; auto|change MAX_RECURSION with 50%nat; lia|].
    exists bs, c. cbn [o_header o_content]. split; [reflexivity|]. split; [exact Hdef|]. split.
    { destruct Hdef as (hb & -> & _). rewrite app_length in Hlen. lia. }
    split; [exact Hel|]. change MAX_RECURSION with 50%nat.
    destruct (h_class h) eqn:Ec; try (rewrite der_view_other by congruence; exact Hv50).
    rewrite der_view_universal by exact Ec.
    destruct (value_to_plain _ _ _ _ _ Hv50 Ec) as [[Hp _]|[-> _]]; [exact Hp|].
    exfalso. inversion Hd; subst; [|congruence].
    match goal with E : text_content ?t _ = _ |- _ => destruct t; discriminate end.
  - apply C55_parse_ber_exact; [apply bytes_ok_app; auto|]. exists bs, c. cbn [o_header o_content]. split; [reflexivity|]. split.
    + eapply element_mono; [|exact He]. lia.
    + exact Hv50.
Qed.
Print Assumptions C91_der.

(** A basic encoding (strings unsplit), read and written, becomes an encoding of the
    same value. *)
Theorem C91_ber : forall L n v bs r, accepts_oids L -> supported v -> writable v ->
  (n <= 49)%nat -> bytes_ok r -> encodes Whole n v bs ->
  exists o bs', parse_ber L (bs ++ r) = Ok (r, o) /\ to_vec L o = Ok bs'
    /\ (nlen bs' < 2 ^ 64 -> encodes Whole n v bs'
          /\ exists o', parse_ber L bs' = Ok ([], o') /\ denotes Whole o' v).
Proof.
  intros L n v bs r HL Hs Hw Hn Hr H.
  destruct (proj1 (encodes_value_full Whole L ltac:(discriminate) HL) _ _ _ H Hn Hs)
    as (Hok & h & c & k & He & _ & Hv & Hd & _ & Hst).
  specialize (Hst Hw). destruct (C38_otherwise_ok L (Obj h k)) as (bs' & E).
  { intros (h' & Hwr & Ht). pose proof (proj1 (stands_tags Whole) _ _ _ Hst h' Hwr). lia. }
  exists (Obj h k), bs'. split; [|split; [exact E|]].
  - apply C55_parse_ber_exact; [apply bytes_ok_app; auto|]. exists bs, c. cbn [o_header o_content]. split; [reflexivity|]. split.
    + eapply element_mono; [|exact He]. lia.
    + eapply (proj1 (value_mono_mut L)); [exact Hv|]. change MAX_RECURSION with 50%nat. lia.
  - intros Hl. pose proof (proj1 (stands_encode Whole L) _ _ _ Hst bs' E Hl) as He'. split; [exact He'|].
    destruct (C82_partial L n v bs' [] HL Hs Hn ltac:(constructor) He') as (o' & E' & D'). rewrite app_nil_r in E'. eauto.
Qed.
Print Assumptions C91_ber.

(** The same for the parsers composed for a type (see C89). *)
Theorem C91_schema : forall L e n d bs r, accepts_oids L -> proper e -> (n <= 49)%nat -> bytes_ok r ->
  N.of_nat (length bs) <= 4294967295 -> rewritable e d -> encodes_as SpecAbstract.Der false e n d bs ->
  exists o o', reader (der_kit L) e (bs ++ r) = Ok (r, o) /\ to_vec L o = Ok bs
    /\ reader (ber_kit L) e (bs ++ r) = Ok (r, o') /\ to_vec L o' = Ok bs.
Proof.
  intros L e n d bs r HL Hp Hn Hr Hlen Hw H.
  assert (Hl : nlen bs < 2 ^ 64) by (unfold nlen; change (2 ^ 64) with 18446744073709551616; lia).
  destruct (proj1 (reads SpecAbstract.Der false L definite_element (der_kit L) ltac:(discriminate) ltac:(auto) HL (der_kit_ok L HL) (reader_other L true) ltac:(auto))
    _ _ _ _ H Hn Hp Hlen r Hr) as (o & Ho & _ & Hm).
  destruct (proj1 (reads SpecAbstract.Der false L (element 50) (ber_kit L) ltac:(discriminate) ltac:(auto) HL
    (ber_kit_ok SpecAbstract.Der L ltac:(discriminate) HL) (reader_other L false) ltac:(auto)) _ _ _ _ H Hn Hp Hlen r Hr) as (o' & Ho' & _ & Hm').
  exists o, o'. split; [exact Ho|]. split; [exact (proj1 (made_writes L) _ _ _ _ (Hm eq_refl Hw) _ _ H Hl)|].
  split; [exact Ho'|exact (proj1 (made_writes L) _ _ _ _ (Hm' eq_refl Hw) _ _ H Hl)].
Qed.
Print Assumptions C91_schema.

(** The limits in [writable] are needed: ENUMERATED 0 loses its octet, and a tag
    number above 30 cannot be written. *)
Theorem C91_enum_refuted : exists bs o bs', encodes SpecAbstract.Der 1 (AEnumerated 0) bs /\ supported (AEnumerated 0)
  /\ parse_der SL bs = Ok ([], o) /\ parse_ber SL bs = Ok ([], o) /\ to_vec SL o = Ok bs' /\ bs' <> bs.
Proof.
  exists [10; 1; 0]. eexists. exists [10; 0]. split.
  { refine (e_primitive SpecAbstract.Der 0 (AEnumerated (twos_complement [0])) [0] [1] _ _); [|now apply any_short].
    apply c_enumerated; [repeat constructor|exact I]. }
  split; [constructor; split; reflexivity|]. split; [vm_compute; reflexivity|]. split; [vm_compute; reflexivity|].
  split; [vm_compute; reflexivity|discriminate].
Qed.
Print Assumptions C91_enum_refuted.

Theorem C91_tag_refuted : exists v bs o, encodes SpecAbstract.Der 2 v bs /\ supported v
  /\ parse_der SL bs = Ok ([], o) /\ parse_ber SL bs = Ok ([], o) /\ to_vec SL o = Panic.
Proof.
  exists (AExplicit ContextSpecific 31 ANull), [191; 31; 2; 5; 0]. eexists. split.
  { refine (e_explicit SpecAbstract.Der 1 ContextSpecific 31 ANull [5; 0] _ _ _ _); [discriminate| |].
    - refine (e_primitive SpecAbstract.Der 0 ANull [] [0] _ _); [constructor|now apply any_short].
    - exists [191; 31]. split.
      + right. split; [discriminate|]. exists 31, []. split; [discriminate|]. split; [repeat constructor|]. split; reflexivity.
      + left. exists [2]. split; [now apply any_short|reflexivity]. }
  split; [apply sup_explicit; [reflexivity|now apply sup_other]|].
  split; [vm_compute; reflexivity|]. split; vm_compute; reflexivity.
Qed.
Print Assumptions C91_tag_refuted.

(** SEQUENCE { INTEGER 5, [0] { BOOLEAN TRUE } }; as a basic encoding with indefinite
    lengths and BOOLEAN 01, the contents of the tag are kept as they are. *)
Example C91_ex :
  let v := ASequence [AInteger (twos_complement [5]); ABoolean true; AExplicit ContextSpecific 0 (ABoolean true)] in
  let bs := [48; 11; 2; 1; 5; 1; 1; 255; 160; 3; 1; 1; 255] in
  supported v /\ writable v /\ encodes SpecAbstract.Der 3 v bs
  /\ (exists o, parse_der SL (bs ++ [170]) = Ok ([170], o) /\ to_vec SL o = Ok bs)
  /\ (exists o, parse_ber SL (hx "30 80 02 81 01 05 01 01 01 a0 80 01 01 01 00 00 00 00") = Ok ([], o)
        /\ to_vec SL o = Ok (hx "30 0b 02 01 05 01 01 ff a0 03 01 01 01"))
  /\ rewritable (TSequence (FCons true (TValue 2) (FCons false (TValue 1) (FCons false (TExplicit ContextSpecific 0 (TValue 1)) FNil))))
       (DRecord [Some (DValue (AInteger (twos_complement [5]))); Some (DValue (ABoolean true)); Some (DInside (DValue (ABoolean true)))]).
Proof.
  cbv zeta. split; [|split; [|split; [|split; [|split]]]].
  - apply sup_sequence. repeat constructor.
  - apply wr_sequence. constructor; [now apply wr_other|]. constructor; [now apply wr_other|]. constructor; [now apply wr_explicit|constructor].
  - refine (e_sequence SpecAbstract.Der 2 _ [2; 1; 5; 1; 1; 255; 160; 3; 1; 1; 255] _ _ _).
    + refine (ea_cons _ 2 _ [2; 1; 5] _ [1; 1; 255; 160; 3; 1; 1; 255] _ (ea_cons _ 2 _ [1; 1; 255] _ [160; 3; 1; 1; 255] _
        (ea_cons _ 2 _ [160; 3; 1; 1; 255] _ [] _ (ea_nil _ _)))).
      * refine (e_primitive _ 1 (AInteger (twos_complement [5])) [5] [1] _ _); [|now apply any_short].
        apply c_integer; [repeat constructor|exact I].
      * refine (e_primitive _ 1 (ABoolean true) [255] [1] _ _); [|now apply any_short].
        apply c_boolean; [lia|split; discriminate|right; reflexivity].
      * refine (e_explicit _ 1 ContextSpecific 0 (ABoolean true) [1; 1; 255] _ _ _ _); [discriminate| |].
        -- refine (e_primitive _ 0 (ABoolean true) [255] [1] _ _); [|now apply any_short].
           apply c_boolean; [lia|split; discriminate|right; reflexivity].
        -- exists [160]. split; [left; split; reflexivity|]. left. exists [3]. split; [now apply any_short|reflexivity].
    + exists [48]. split; [left; split; reflexivity|]. left. exists [11]. split; [now apply any_short|reflexivity].
  - eexists. split; vm_compute; reflexivity.
  - eexists. split; vm_compute; reflexivity.
  - apply rw_sequence. apply rw_component; [refine (rw_value (AInteger _) _); now apply wr_other|].
    apply rw_component; [refine (rw_value (ABoolean true) _); now apply wr_other|].
    apply rw_component; [|constructor]. apply rw_explicit; [lia|]. refine (rw_value (ABoolean true) _). now apply wr_other.
Qed.
