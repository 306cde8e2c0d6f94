(** * C82-C84: decoding the encodings X.690 gives to abstract values *)

From Coq Require Import String.
From Verif Require Import Base Asn1rs Ber Der Conformance Spec SpecValue SpecComb SpecOid SpecAbstract.
From Verif Require Import LemBase LemHeader LemSkip LemParse LemDer LemText LemTree LemNode LemComb LemFrame LemVariant LemAbstract.
From Verif Require Import LemInt PropFraming PropDer PropInt.
Local Open Scope string_scope.
Local Open Scope N_scope.
Local Open Scope list_scope.

(** ** C82: every basic encoding decodes to its value

    Full statement: for every value [v] and every basic encoding [bs] of it
    ([encodes Ber n v bs]), [parse_ber] returns an object that denotes [v].
    Proved for encodings that do not split strings into segments, of values
    with ENUMERATED numbers and tag numbers below 2^32 and with at most 49
    levels; false for segmented strings and negative ENUMERATEDs (below). *)
Theorem C82_partial : forall L n v bs r, accepts_oids L -> supported v -> (n <= 49)%nat -> bytes_ok r ->
  encodes Whole n v bs -> exists o, parse_ber L (bs ++ r) = Ok (r, o) /\ denotes Whole o v.
Proof.
  intros L n v bs r HL Hs Hn Hr H.
  destruct (proj1 (encodes_value Whole L ltac:(discriminate) HL) _ _ _ H Hn Hs) as (Hok & h & c & k & He & _ & Hv & Hd & _).
  exists (Obj h k). split; [|exact Hd]. apply C55_parse_ber_exact; [apply bytes_ok_app; auto|].
  exists bs, c. cbn [o_header o_content]. split; [reflexivity|]. split.
  - eapply element_mono; [|exact He]. lia.
  - eapply (proj1 (value_mono_mut L)); [exact Hv|]. change MAX_RECURSION with 50%nat. lia.
Qed.
Print Assumptions C82_partial.

(** ** C83: every distinguished encoding decodes to its value

    Proved within the limits of C82 and the size limit of the DER reader. *)
Theorem C83_partial : forall L n v bs r, accepts_oids L -> no_unknown_tag L -> supported v -> (n <= 49)%nat ->
  bytes_ok r -> N.of_nat (length bs) <= 4294967295 ->
  encodes SpecAbstract.Der n v bs ->
  exists o, parse_der L (bs ++ r) = Ok (r, o) /\ denotes SpecAbstract.Der o v.
Proof.
  intros L n v bs r HL HU Hs Hn Hr Hlen H.
  destruct (proj1 (encodes_value SpecAbstract.Der L ltac:(discriminate) HL) _ _ _ H Hn Hs)
    as (Hok & h & c & k & He & _ & Hv & Hd & Hder).
  destruct (Hder eq_refl) as [Hdef Hel].
  assert (Hv50 : value L 50 h c k) by (eapply (proj1 (value_mono_mut L)); [exact Hv|lia]).
  exists (Obj h k). split; [|exact Hd].
  apply C56_parse_der_exact; auto; [apply bytes_ok_app; auto|change MAX_RECURSION with 50%nat; lia|].
  exists bs, c. cbn [o_header o_content]. split; [reflexivity|]. split; [exact Hdef|]. split.
  { destruct Hdef as (hb & -> & _). rewrite app_length in Hlen. lia. }
  split; [exact Hel|]. change MAX_RECURSION with 50%nat.
  destruct (h_class h) eqn:Ec.
  - rewrite der_view_universal by exact Ec.
    destruct (value_to_plain _ _ _ _ _ Hv50 Ec) as [[Hp _]|[-> _]]; [exact Hp|].
    exfalso. inversion Hd; subst; [|congruence].
    match goal with E : text_content ?t _ = _ |- _ => destruct t; discriminate end.
  - rewrite der_view_other by congruence. exact Hv50.
  - rewrite der_view_other by congruence. exact Hv50.
  - rewrite der_view_other by congruence. exact Hv50.
Qed.
Print Assumptions C83_partial.

(** The hypotheses on the leaf decoders can be met. *)
Lemma SL_accepts_oids : accepts_oids SL.
Proof.
  assert (H : forall comps c, comps <> [] -> relative_oid_contents comps c -> c <> []).
  { intros comps c Hc (parts & -> & HF) E. destruct HF as [|n p l ps Hn HF]; [contradiction|].
    destruct Hn as (ds & -> & _ & Hd & _). destruct ds as [|d [|e ds]]; try discriminate. contradiction. }
  split; intros comps c l Hc Ho; cbn [lf_oid_check lf_reloid_check SL oid_check].
  - destruct comps as [|a [|b comps]]; try contradiction. apply H in Ho; [|discriminate].
    destruct c; [contradiction|reflexivity].
  - apply H in Ho; [|exact Hc]. destruct c; [contradiction|reflexivity].
Qed.

(** SEQUENCE { -129, '101'B, "é", [0] TRUE, 1.2.840 } with an indefinite length. *)
Definition sample_value : asn1 :=
  ASequence [AInteger (-129); ABitString [true; false; true]; AText TUtf8 [233];
             AExplicit ContextSpecific 0 (ABoolean true); AOid [1; 2; 840]].

Lemma sample_parts ru : encode_all ru 2 
  [AInteger (-129); ABitString [true; false; true]; AText TUtf8 [233];
   AExplicit ContextSpecific 0 (ABoolean true); AOid [1; 2; 840]]
  ([2; 2; 255; 127] ++ [3; 2; 5; 160] ++ [12; 2; 195; 169] ++ [160; 3; 1; 1; 255] ++ [6; 3; 42; 134; 72] ++ []).
Proof.
  apply ea_cons; [|apply ea_cons; [|apply ea_cons; [|apply ea_cons; [|apply ea_cons; [|apply ea_nil]]]]].
  - refine (e_primitive ru 1 (AInteger (twos_complement [255; 127])) [255; 127] [2] _ _).
    + apply c_integer; [bok|]. vm_compute. intuition discriminate.
    + split; [apply (length_short 2); reflexivity|]. intros _ lb' Hl. inv Hl; cbn [length]; lia.
  - refine (e_primitive ru 1 (ABitString [true; false; true]) [5; 160] [2] _ _).
    + refine (c_bit_string ru [true; false; true] [false; false; false; false; false] 5 [160] _ _ _ _ _);
        [bok|reflexivity|reflexivity|reflexivity|intros _; repeat constructor].
    + split; [apply (length_short 2); reflexivity|]. intros _ lb' Hl. inv Hl; cbn [length]; lia.
  - refine (e_primitive ru 1 (AText TUtf8 [233]) [195; 169] [2] _ _).
    + refine (c_text ru TUtf8 [233] _). constructor; [left; reflexivity|constructor].
    + split; [apply (length_short 2); reflexivity|]. intros _ lb' Hl. inv Hl; cbn [length]; lia.
  - refine (e_explicit ru 1 ContextSpecific 0 (ABoolean true) [1; 1; 255] _ _ _ _); [discriminate| |].
    + refine (e_primitive ru 0 (ABoolean true) [255] [1] _ _).
      * apply c_boolean; [reflexivity|split; discriminate|auto].
      * split; [apply (length_short 1); reflexivity|]. intros _ lb' Hl. inv Hl; cbn [length]; lia.
    + exists [160]. split; [left; split; [reflexivity|reflexivity]|]. left. exists [3]. split; [|reflexivity].
      split; [apply (length_short 3); reflexivity|]. intros _ lb' Hl. inv Hl; cbn [length]; lia.
  - refine (e_primitive ru 1 (AOid [1; 2; 840]) [42; 134; 72] [3] _ _).
    + apply c_oid; [split; [discriminate|reflexivity]|].
      exists [[42]; [134; 72]]. split; [reflexivity|].
      constructor; [|constructor; [|constructor]].
      * exists [42]. repeat split; try discriminate; auto. repeat constructor.
      * exists [6; 72]. repeat split; try discriminate; auto. repeat constructor. right. discriminate.
    + split; [apply (length_short 3); reflexivity|]. intros _ lb' Hl. inv Hl; cbn [length]; lia.
Qed.

Lemma sample_supported : supported sample_value.
Proof.
  apply sup_sequence. repeat apply Forall_cons; try (apply sup_other; exact I); [|apply Forall_nil].
  apply sup_explicit; [reflexivity|]. apply sup_other. exact I.
Qed.

Example C82_ex : accepts_oids SL /\ supported sample_value
  /\ (exists bs, encodes Whole 3 sample_value bs
       /\ bs = hx "30 80 02 02 ff 7f 03 02 05 a0 0c 02 c3 a9 a0 03 01 01 ff 06 03 2a 86 48 00 00")
  /\ exists o l, parse_ber SL (hx "30 80 02 02 ff 7f 03 02 05 a0 0c 02 c3 a9 a0 03 01 01 ff 06 03 2a 86 48 00 00 aa")
       = Ok ([170], o) /\ o_content o = CSequence l /\ length l = 5%nat.
Proof.
  split; [exact SL_accepts_oids|]. split; [exact sample_supported|]. split.
  - eexists. split.
    + eapply e_sequence; [apply sample_parts|]. exists [48]. split; [left; split; reflexivity|].
      right. split; [discriminate|reflexivity].
    + reflexivity.
  - eexists. eexists. split; [vm_compute; reflexivity|]. split; reflexivity.
Qed.

Example C83_ex : no_unknown_tag SL
  /\ (exists bs, encodes SpecAbstract.Der 3 sample_value bs
       /\ bs = hx "30 16 02 02 ff 7f 03 02 05 a0 0c 02 c3 a9 a0 03 01 01 ff 06 03 2a 86 48")
  /\ exists o l, parse_der SL (hx "30 16 02 02 ff 7f 03 02 05 a0 0c 02 c3 a9 a0 03 01 01 ff 06 03 2a 86 48 aa")
       = Ok ([170], o) /\ o_content o = CSequence l /\ length l = 5%nat.
Proof.
  split; [exact SL_no_unknown_tag|]. split.
  - eexists. split.
    + eapply e_sequence; [apply sample_parts|]. exists [48]. split; [left; split; reflexivity|].
      left. exists [22]. split; [|reflexivity].
      split; [apply (length_short 22); reflexivity|]. intros _ lb' Hl. inv Hl; cbn [length]; lia.
    + reflexivity.
  - eexists. eexists. split; [vm_compute; reflexivity|]. split; reflexivity.
Qed.

(** A segmented OCTET STRING: the segments are returned with their headers, so
    that the object denotes another value. *)
Theorem C82_refuted : exists v bs o, supported v /\ encodes SpecAbstract.Ber 2 v bs
  /\ parse_ber SL bs = Ok ([], o) /\ ~ denotes SpecAbstract.Ber o v.
Proof.
  exists (AOctetString [97; 98]), [36; 6; 4; 1; 97; 4; 1; 98]. eexists.
  split; [apply sup_other; exact I|]. split; [|split; [vm_compute; reflexivity|intros H; inv H]].
  eapply (e_segmented SpecAbstract.Ber 1 (AOctetString [97; 98]) [AOctetString [97]; AOctetString [98]] [4; 1; 97; 4; 1; 98]).
  - reflexivity.
  - exact (joins_octets [[97]; [98]]).
  - refine (ea_cons SpecAbstract.Ber 1 (AOctetString [97]) [4; 1; 97] [AOctetString [98]] [4; 1; 98] _ _).
    + refine (e_primitive SpecAbstract.Ber 0 (AOctetString [97]) [97] [1] _ _); [apply c_octet_string; bok|].
      split; [apply (length_short 1); reflexivity|discriminate].
    + refine (ea_cons SpecAbstract.Ber 1 (AOctetString [98]) [4; 1; 98] [] [] _ _); [|apply ea_nil].
      refine (e_primitive SpecAbstract.Ber 0 (AOctetString [98]) [98] [1] _ _); [apply c_octet_string; bok|].
      split; [apply (length_short 1); reflexivity|discriminate].
  - exists [36]. split; [left; split; reflexivity|]. left. exists [6]. split; [|reflexivity].
    split; [apply (length_short 6); reflexivity|discriminate].
Qed.
Print Assumptions C82_refuted.

(** A segmented BIT STRING is refused. *)
Theorem C82_bit_string_refuted : exists v bs e, supported v /\ encodes SpecAbstract.Ber 2 v bs
  /\ parse_ber SL bs = Err e.
Proof.
  exists (ABitString [true]), [35; 4; 3; 2; 7; 128]. eexists.
  split; [apply sup_other; exact I|]. split; [|vm_compute; reflexivity].
  eapply (e_segmented SpecAbstract.Ber 1 (ABitString [true]) [ABitString [true]] [3; 2; 7; 128]).
  - reflexivity.
  - exact (joins_bits [] [true] (Forall_nil _)).
  - refine (ea_cons SpecAbstract.Ber 1 (ABitString [true]) [3; 2; 7; 128] [] [] _ _); [|apply ea_nil].
    refine (e_primitive SpecAbstract.Ber 0 (ABitString [true]) [7; 128] [2] _ _).
    + refine (c_bit_string SpecAbstract.Ber [true] [false; false; false; false; false; false; false] 7 [128] _ _ _ _ _);
        [bok|reflexivity|reflexivity|reflexivity|discriminate].
    + split; [apply (length_short 2); reflexivity|discriminate].
  - exists [35]. split; [left; split; reflexivity|]. left. exists [4]. split; [|reflexivity].
    split; [apply (length_short 4); reflexivity|discriminate].
Qed.
Print Assumptions C82_bit_string_refuted.

(** The distinguished encoding of ENUMERATED -1 is decoded as 255. *)
Theorem C83_refuted : exists v bs o, encodes SpecAbstract.Der 1 v bs
  /\ parse_der SL bs = Ok ([], o) /\ parse_ber SL bs = Ok ([], o) /\ denotes SpecAbstract.Der o (AEnumerated 255)
  /\ v = AEnumerated (-1).
Proof.
  exists (AEnumerated (-1)), [10; 1; 255]. eexists.
  split; [|split; [vm_compute; reflexivity|split; [vm_compute; reflexivity|split; [apply (den_enumerated _ _ 255)|reflexivity]]]].
  refine (e_primitive SpecAbstract.Der 0 (AEnumerated (twos_complement [255])) [255] [1] _ _).
  - apply c_enumerated; [bok|exact I].
  - split; [apply (length_short 1); reflexivity|]. intros _ lb' Hl. inv Hl; cbn [length]; lia.
Qed.
Print Assumptions C83_refuted.

(** ** C84: all the ways of reading an INTEGER agree on its value *)

Definition unsigned_ways : list (Z * (bytes -> iresult berror N) * (bytes -> iresult berror N) * (content -> res berror N)) :=
  [(32, parse_ber_u32, parse_der_u32, as_u32); (64, parse_ber_u64, parse_der_u64, as_u64)]%Z.
Definition signed_ways : list (Z * (bytes -> iresult berror Z) * (bytes -> iresult berror Z) * (content -> res berror Z)) :=
  [(32, parse_ber_i32, parse_der_i32, as_i32); (64, parse_ber_i64, parse_der_i64, as_i64)]%Z.

Lemma integer_encoding n z bs : encodes SpecAbstract.Ber n (AInteger z) bs ->
  exists h c, definite_element h c bs /\ h_class h = Universal /\ h_tag h = 2 /\ h_constructed h = false
    /\ bytes_ok c /\ bytes_ok bs /\ minimal_integer c /\ twos_complement c = z.
Proof.
  intros H. inv H.
  - match goal with H : definite_length _ _ _ |- _ => destruct H as [Hl _] end.
    match goal with H : contents _ _ _ |- _ => inv H end.
    exists (mkHeader Universal false 2 (Definite (N.of_nat (length c))) (Some [2])), c.
    split; [|repeat split; auto].
    + exists (2 :: lb). split; [reflexivity|]. split; [|reflexivity].
      exists [2], lb. cbn. repeat split; auto; try discriminate. apply (ident_low Universal false 2). lia.
    + constructor; [cbn; lia|]. apply bytes_ok_app. split; [eapply length_ok; eauto|assumption].
  - exfalso. match goal with H : joins _ _ |- _ => inv H end.
Qed.

Lemma integer_encoding_read L n z bs r : encodes SpecAbstract.Ber n (AInteger z) bs -> bytes_ok r ->
  exists o c, parse_ber L (bs ++ r) = Ok (r, o) /\ o_content o = CInteger c /\ integer_element (bs ++ r) r c
    /\ bytes_ok c /\ bytes_ok (bs ++ r) /\ minimal_integer c /\ twos_complement c = z.
Proof.
  intros H Hr. apply integer_encoding in H as (h & c & He & H1 & H2 & H3 & Hc & Hb & Hm & E).
  exists (Obj h (CInteger c)), c. assert (Hok : bytes_ok (bs ++ r)) by (apply bytes_ok_app; auto).
  split.
  - apply C55_parse_ber_exact; [exact Hok|]. exists bs, c. cbn [o_header o_content].
    split; [reflexivity|]. split; [now apply definite_is_element|]. now apply v_integer.
  - split; [reflexivity|]. split; [exists h, bs; auto|]. auto.
Qed.

Theorem C84_unsigned : forall L n z bs r w ber der acc, encodes SpecAbstract.Ber n (AInteger z) bs -> bytes_ok r ->
  In (w, ber, der, acc) unsigned_ways ->
  exists o, parse_ber L (bs ++ r) = Ok (r, o)
    /\ ((0 <= z < 2 ^ w)%Z ->
          ber (bs ++ r) = Ok (r, Z.to_N z) /\ der (bs ++ r) = Ok (r, Z.to_N z) /\ acc (o_content o) = Ok (Z.to_N z))
    /\ ((z < 0)%Z -> ber (bs ++ r) = Err (Error IntegerNegative) /\ (forall x, der (bs ++ r) <> Ok x)
          /\ acc (o_content o) = Err IntegerNegative)
    /\ ((2 ^ w <= z)%Z -> ber (bs ++ r) = Err (Error IntegerTooLarge) /\ (forall x, der (bs ++ r) <> Ok x)
          /\ acc (o_content o) = Err IntegerTooLarge).
Proof.
  intros L n z bs r w ber der acc H Hr Hin.
  destruct (integer_encoding_read L _ _ _ _ H Hr) as (o & c & Ho & Ec & Hi & Hc & Hok & Hm & Ez).
  assert (Hw : exists m, w = Z.of_N m /\ unsigned_reader m ber /\ der_unsigned_reader m der
    /\ unsigned_outcomes m (twos_complement c) (fun e => e) (acc (CInteger c))).
  { destruct Hin as [E|[E|[]]]; injection E as <- <- <- <-.
    - exists 32. auto using C19_u32, C20_u32, C14_u32.
    - exists 64. auto using C19_u64, C20_u64, C14_u64. }
  destruct Hw as (m & -> & Hb & Hd & Ha). exists o. rewrite Ec. split; [exact Ho|].
  destruct Ha as (Ha1 & Ha2 & Ha3). destruct (Hb _ r Hok) as [Hb1 Hb2]. destruct (Hb2 c Hi) as [Hb3 Hb4].
  destruct Hd as [Hd1 _]. rewrite Ez in *.
  assert (Hpow : (2 ^ Z.of_N m)%Z = Z.of_N (2 ^ m)) by (rewrite N2Z.inj_pow; reflexivity).
  assert (Hder : ~ (0 <= z < 2 ^ Z.of_N m)%Z -> forall x, der (bs ++ r) <> Ok x).
  { intros Hn (r', v) E. pose proof E as E2. apply Hd1 in E2 as (c' & Hi' & _ & Ev & Hv); [|exact Hok].
    apply Hn. destruct Hi as (h & b & E1 & He & _). destruct Hi' as (h' & b' & E1' & He' & _).
    pose proof (any_from_ber_definite _ _ _ r He) as A. rewrite <- E1, E1' in A.
    rewrite (any_from_ber_definite _ _ _ r' He') in A. injection A as -> -> ->. lia. }
  split; [|split].
  - intros Hz. split; [|split].
    + apply Hb1. exists c. split; [exact Hi|]. lia.
    + apply Hd1; [exact Hok|]. exists c. split; [exact Hi|]. split; [exact Hm|]. lia.
    + apply Ha1. lia.
  - intros Hz. split; [auto|]. split; [apply Hder; lia|]. now apply Ha2.
  - intros Hz. split; [auto|]. split; [apply Hder; lia|]. now apply Ha3.
Qed.
Print Assumptions C84_unsigned.

Lemma fits_range k c : (0 < k)%nat -> bytes_ok c -> (length c <= k)%nat ->
  (- 2 ^ (Z.of_N (8 * N.of_nat k) - 1) <= twos_complement c)%Z.
Proof.
  intros Hk Hc Hl. pose proof (pw_half_Z k Hk) as Hh. pose proof (tc_range c Hc).
  assert (pw (length c) <= pw k) by (apply pw_mono; lia). lia.
Qed.

(** The accessors return a wrapped value instead of an error from [2^(w-1)] to
    [2^w - 1]; otherwise everything agrees. *)
Theorem C84_signed_partial : forall L n z bs r w ber der acc, encodes SpecAbstract.Ber n (AInteger z) bs -> bytes_ok r ->
  In (w, ber, der, acc) signed_ways ->
  exists o, parse_ber L (bs ++ r) = Ok (r, o)
    /\ ((- 2 ^ (w - 1) <= z < 2 ^ (w - 1))%Z ->
          ber (bs ++ r) = Ok (r, z) /\ der (bs ++ r) = Ok (r, z) /\ acc (o_content o) = Ok z)
    /\ (~ (- 2 ^ (w - 1) <= z < 2 ^ (w - 1))%Z ->
          ber (bs ++ r) = Err (Error IntegerTooLarge) /\ (forall x, der (bs ++ r) <> Ok x)
          /\ ((z < - 2 ^ (w - 1) \/ 2 ^ w <= z)%Z -> acc (o_content o) = Err IntegerTooLarge)
          /\ ((2 ^ (w - 1) <= z < 2 ^ w)%Z -> acc (o_content o) = Ok (z - 2 ^ w)%Z))
    /\ as_bigint (o_content o) = Ok z
    /\ (forall v, as_biguint (o_content o) = Ok v <-> z = Z.of_N v).
Proof.
  intros L n z bs r w ber der acc H Hr Hin.
  destruct (integer_encoding_read L _ _ _ _ H Hr) as (o & c & Ho & Ec & Hi & Hc & Hok & Hm & Ez).
  assert (Hw : exists k, (0 < k)%nat /\ w = Z.of_N (8 * N.of_nat k) /\ signed_reader (8 * N.of_nat k) ber
    /\ der_signed_reader (8 * N.of_nat k) der
    /\ signed_accessor_outcomes (8 * N.of_nat k) c (acc (CInteger c))).
  { destruct Hin as [E|[E|[]]]; injection E as <- <- <- <-.
    - exists 4%nat. split; [lia|]. split; [reflexivity|]. change (8 * N.of_nat 4) with 32. auto using C19_i32, C20_i32, C15_i32_partial.
    - exists 8%nat. split; [lia|]. split; [reflexivity|]. change (8 * N.of_nat 8) with 64. auto using C19_i64, C20_i64, C15_i64_partial. }
  destruct Hw as (k & Hk & -> & Hb & Hd & Ha). exists o. rewrite Ec. split; [exact Ho|].
  destruct (Hb _ r Hok) as [Hb1 Hb2]. specialize (Hb2 c Hi). destruct Hd as [Hd1 _].
  pose proof (minimal_fits k c Hk Hc Hm) as Hfit. pose proof (fits_range k c Hk Hc) as Hrange.
  destruct Ha as (Ha1 & Ha2 & Ha3 & Ha4 & Ha5).
  pose proof (C16_bigint c Hc) as Hbig. pose proof (C16_biguint c Hc) as [Hbigu _].
  pose proof (pw_half_Z k Hk) as Hh. rewrite pw_two_Z in *. rewrite Ez in *.
  set (p := (2 ^ (Z.of_N (8 * N.of_nat k) - 1))%Z) in *. clearbody p.
  split; [|split; [|split; [exact Hbig|exact Hbigu]]].
  - intros Hz. specialize (Hfit Hz). split; [|split].
    + apply Hb1. exists c. split; [exact Hi|]. split; [auto|]. split; [exact Hz|]. lia.
    + apply Hd1; [exact Hok|]. exists c. auto.
    + destruct (Z.lt_ge_cases z 0); [apply Ha4; lia|apply Ha1; lia].
  - intros Hz. split; [auto|]. split.
    + intros (r', v) E. pose proof E as E2. apply Hd1 in E2 as (c' & Hi' & _ & Ev & Hv); [|exact Hok].
      apply Hz. destruct Hi as (h & b & E1 & He & _). destruct Hi' as (h' & b' & E1' & He' & _).
      pose proof (any_from_ber_definite _ _ _ r He) as A. rewrite <- E1, E1' in A.
      rewrite (any_from_ber_definite _ _ _ r' He') in A. injection A as -> -> ->. lia.
    + split; [|intros Hz'; apply Ha2; lia].
      intros [Hz'|Hz']; [|apply Ha3; lia]. pose proof (pw_pos k). apply Ha5; [lia|].
      destruct (le_gt_dec (length c) k) as [Hle|Hgt]; [|lia]. specialize (Hrange Hle). lia.
Qed.
Print Assumptions C84_signed_partial.

(** 2^63 has the (distinguished) encoding 02 09 00 80 00 ... 00; [as_i64]
    answers -2^63, [parse_ber_i64] refuses. *)
Theorem C84_refuted : exists bs o v, encodes SpecAbstract.Der 1 (AInteger (2 ^ 63)) bs
  /\ parse_ber SL bs = Ok ([], o) /\ as_i64 (o_content o) = Ok v /\ v <> (2 ^ 63)%Z
  /\ parse_ber_i64 bs = Err (Error IntegerTooLarge).
Proof.
  exists [2; 9; 0; 128; 0; 0; 0; 0; 0; 0; 0]. eexists. exists (- 2 ^ 63)%Z.
  split; [|split; [vm_compute; reflexivity|split; [vm_compute; reflexivity|split; [discriminate|vm_compute; reflexivity]]]].
  change (2 ^ 63)%Z with (twos_complement [0; 128; 0; 0; 0; 0; 0; 0; 0]).
  refine (e_primitive SpecAbstract.Der 0 (AInteger (twos_complement [0; 128; 0; 0; 0; 0; 0; 0; 0]))
            [0; 128; 0; 0; 0; 0; 0; 0; 0] [9] _ _).
  - apply c_integer; [bok|]. vm_compute. intuition discriminate.
  - split; [apply (length_short 9); reflexivity|]. intros _ lb' Hl. inv Hl; cbn [length]; lia.
Qed.
Print Assumptions C84_refuted.

Example C84_ex : encodes SpecAbstract.Ber 1 (AInteger (-129)) [2; 129; 2; 255; 127]
  /\ (exists o, parse_ber SL (hx "02 81 02 ff 7f aa") = Ok ([170], o) /\ as_i32 (o_content o) = Ok (-129)%Z)
  /\ parse_ber_i32 (hx "02 81 02 ff 7f aa") = Ok ([170], (-129)%Z)
  /\ parse_ber_u32 (hx "02 81 02 ff 7f aa") = Err (Error IntegerNegative).
Proof.
  split; [|split; [eexists; split; [vm_compute; reflexivity|reflexivity]|split; vm_compute; reflexivity]].
  change (-129)%Z with (twos_complement [255; 127]).
  refine (e_primitive SpecAbstract.Ber 0 (AInteger (twos_complement [255; 127])) [255; 127] [129; 2] _ _).
  - apply c_integer; [bok|]. vm_compute. intuition discriminate.
  - split; [|discriminate]. apply (length_long [2]); [cbn; lia|bok|reflexivity].
Qed.
