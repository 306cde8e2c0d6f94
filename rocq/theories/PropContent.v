(** * C69-C71: writing with a given header, reading contents under a given
    header, the stored identifier octets *)

From Coq Require Import String.
From Verif Require Import Base Asn1rs Ber Der Combinators Serialize Conformance Spec SpecValue SpecComb SpecSer.
From Verif Require Import Typed SpecTyped.
From Verif Require Import LemBase LemHeader LemSkip LemParse LemDer LemText LemTree LemNode LemComb LemFrame LemVariant.
From Verif Require Import LemSer PropFraming PropVariant PropComb PropDer PropBits PropTyped PropSer.
Local Open Scope string_scope.
Local Open Scope N_scope.
Local Open Scope list_scope.

(** ** C69: the raw encoder *)

(** The header is written as given: the header readers find it again, true or
    not of what follows, and what follows is what [to_vec] writes after its own
    header.  As in [C35_read_back_partial], not for a primitive header of
    indefinite length. *)
Theorem C69_header_kept_partial : forall L h k bs, h_tag h <= 30 -> usize_length (h_length h) ->
  (h_length h = Indefinite -> h_constructed h = true) ->
  ber_encode_object_raw L h k = Ok bs ->
  exists c h' hb, ber_read_element_header bs = Ok (c, h')
    /\ h_class h' = h_class h /\ h_constructed h' = h_constructed h
    /\ h_tag h' = h_tag h /\ h_length h' = h_length h
    /\ to_vec L (Obj h k) = Ok (hb ++ c)
    /\ (N.of_nat (length c) < 2 ^ 64 -> exists h'', header_octets h'' hb
          /\ h_length h'' = Definite (N.of_nat (length c))).
Proof.
  intros L h k bs Ht Hl Hp H. unfold ber_encode_object_raw, gen_seq in H.
  bind_inv H. bind_inv H. inv H. rename a into hb0, a0 into c.
  destruct (C35_read_back_partial h c Ht Hl Hp) as (hb & h' & E1 & E2 & _ & Hs).
  assert (hb = hb0) as -> by congruence.
  exists c, h'.
  assert (Hw : exists hb, ber_encode_header (with_length h (Definite (nlen c))) = Ok hb
    /\ (nlen c < 2 ^ 64 -> exists h'', header_octets h'' hb /\ h_length h'' = Definite (nlen c))).
  { destruct (N.lt_ge_cases (nlen c) (2 ^ 64)) as [Hc|Hc].
    - destruct (C35_shortest (with_length h (Definite (nlen c)))) as (b & lb & E3 & Hi & Hlb & _).
      + exact Ht.
      + intros n En. inv En. exact Hc.
      + exists (b :: lb). split; [exact E3|]. intros _.
        exists (mkHeader (h_class h) (h_constructed h) (h_tag h) (Definite (nlen c)) (Some [b])).
        split; [|reflexivity]. exists [b], lb. repeat split; try assumption. discriminate.
    - unfold ber_encode_header. cbn [with_length h_tag h_class h_constructed h_length].
      destruct (30 <? h_tag h) eqn:Et; [lia|]. unfold encode_length.
      destruct (nlen c <=? 127); cbn [gen_seq bind]; eexists; (split; [reflexivity|]); lia. }
  destruct Hw as (hb1 & E4 & Hw). exists hb1. split; [exact E2|].
  destruct Hs as (S1 & S2 & S3 & S4). repeat (split; [assumption|]). split; [|exact Hw].
  change (to_vec L (Obj h k)) with (with_header h (ber_encode_object_content L k)). unfold with_header.
  rewrite E0. cbn [bind]. rewrite E4. reflexivity.
Qed.
Print Assumptions C69_header_kept_partial.

Lemma length_octets_fun l l' lb : length_octets l lb -> length_octets l' lb -> l = l'.
Proof.
  intros H H'. remember lb as lb' eqn:El in H'. revert El.
  destruct H as [n Hn|ds H1 H2 H3|], H' as [n' Hn'|ds' H1' H2' H3'|]; intros El;
    try reflexivity; injection El; intros; subst; try reflexivity; exfalso; cbn [length] in *; lia.
Qed.

(** It agrees with [to_vec] exactly when the header announces the length of the
    contents. *)
Theorem C69_agrees : forall L h k bs c, h_tag h <= 30 -> usize_length (h_length h) ->
  ber_encode_object_content L k = Ok c -> N.of_nat (length c) < 2 ^ 64 ->
  ber_encode_object_raw L h k = Ok bs ->
  (to_vec L (Obj h k) = Ok bs <-> h_length h = Definite (N.of_nat (length c))).
Proof.
  intros L h k bs c Ht Hl E Hc H. unfold ber_encode_object_raw, gen_seq in H.
  bind_inv H. rewrite E in H. cbn [bind] in H. inv H. rename a into hb.
  change (to_vec L (Obj h k)) with (with_header h (ber_encode_object_content L k)). unfold with_header.
  rewrite E. cbn [bind].
  destruct (C35_shortest h Ht Hl) as (b & lb & E1 & _ & Hlb & _).
  assert (hb = b :: lb) as -> by congruence.
  destruct (C35_shortest (with_length h (Definite (nlen c)))) as (b2 & lb2 & E2 & _ & Hlb2 & _);
    [exact Ht|intros n En; inv En; exact Hc|].
  rewrite E2. cbn [bind]. split.
  - intros H. injection H as -> H. apply app_inv_tail in H. subst lb2.
    exact (length_octets_fun _ _ _ Hlb Hlb2).
  - intros Hh. unfold nlen in E2. rewrite <- Hh in E2.
    assert (Ew : with_length h (h_length h) = h) by (destruct h; reflexivity).
    rewrite Ew, E1 in E2. injection E2 as -> ->. reflexivity.
Qed.
Print Assumptions C69_agrees.

(** A header of indefinite length is written without end-of-contents octets: what
    was read from an element of indefinite length is not written back by the
    raw encoder as an element. *)
Theorem C69_refuted : exists i o bs, parse_ber SL i = Ok ([], o)
  /\ ber_encode_object_raw SL (o_header o) (o_content o) = Ok bs
  /\ bs <> i /\ exists e, parse_ber SL bs = Err e.
Proof.
  exists (hx "30 80 02 01 05 00 00"). eexists. exists (hx "30 80 02 01 05").
  split; [vm_compute; reflexivity|]. split; [vm_compute; reflexivity|].
  split; [discriminate|]. eexists. vm_compute. reflexivity.
Qed.
Print Assumptions C69_refuted.

(** A header that announces four octets before one octet of content, and one that
    announces the right number. *)
Example C69_ex :
  ber_encode_object_raw SL (header_new Universal false 2 (Definite 4)) (CInteger [5]) = Ok (hx "02 04 05")
  /\ to_vec SL (Obj (header_new Universal false 2 (Definite 4)) (CInteger [5])) = Ok (hx "02 01 05")
  /\ ber_encode_object_raw SL (header_new Universal false 2 (Definite 1)) (CInteger [5]) = Ok (hx "02 01 05").
Proof. repeat split. Qed.

(** ** C70: contents read under a given header *)

(** [parse_ber_content] and [parse_ber_content2] are told a tag number and take
    length and form from the header, nothing else. *)
Theorem C70_ber_content : forall L t i hdr d r k, bytes_ok i ->
  let h := mkHeader Universal (h_constructed hdr) t (h_length hdr) None in
  (parse_ber_content L t i hdr d = Ok (r, k)
   <-> exists b, i = b ++ r /\ body d h b
         /\ (forall n, h_length hdr = Definite n -> n <= 4294967295)
         /\ value L d h (content_octets h b) k)
  /\ parse_ber_content2 L t i hdr d = parse_ber_content L t i hdr d.
Proof.
  intros L t i hdr d r k Hok h. split; [|reflexivity]. unfold parse_ber_content. split.
  - intros H. apply content_as_inv in H as (data & Hg & Hv & Hm). cbn zeta in *.
    pose proof (get_content_any_ok _ _ _ _ _ Hg) as Ha.
    apply get_content_sound in Hg as (b & -> & Hb & ->); [|assumption].
    exists b. split; [reflexivity|]. split; [exact Hb|]. split; [exact Hm|].
    apply conv_value in Hv; [exact Hv|exact Ha|].
    apply bytes_ok_app in Hok as [Hok _]. cbn [a_data].
    unfold content_octets. destruct (h_length _); [exact Hok|]. now apply bytes_ok_firstn.
  - intros (b & -> & Hb & Hm & Hv). eapply content_as_intro; [|apply value_conv, Hv|exact Hm].
    now apply get_content_complete.
Qed.
Print Assumptions C70_ber_content.

Lemma der_value_spec L d h c k : bytes_ok c -> (1 <= d)%nat -> h_length h = Definite (nlen c) ->
  (der_value L d h c k
   <-> (h_tag h <> 3 -> N.of_nat (length c) <= 4294967295)
       /\ der_checked (h_tag h) (h_constructed h) c
       /\ (h_tag h = 3 -> der_bit_string (h_constructed h) c)
       /\ value L d (as_universal h) c k).
Proof.
  intros Hok Hd Hl. split.
  - intros H. pose proof H as H'. apply der_value_value in H as [(Hb & H3 & Hp)|(Hv & H3 & Hc)]; auto.
    + split; [contradiction|]. split.
      { rewrite H3. repeat split; intros Ht; try discriminate; [|destruct Ht; discriminate].
        exfalso. cbn in Ht. intuition discriminate. }
      split; [|destruct d; [lia|]; now apply der_bits_value].
      intros _. split; [assumption|]. destruct Hb as (u & data & E1 & E2 & _ & E3). eauto.
    + split; [inv H'; [contradiction|]; intros _; assumption|]. split; [assumption|]. split; [contradiction|exact Hv].
  - intros (Hm & Hc & Hb & Hv). destruct (N.eq_dec (h_tag h) 3) as [H3|H3].
    + destruct (Hb H3) as (Hp & u & data & -> & Hu & Hz). apply dv_bits; auto.
      inv Hv; cbn [as_universal h_tag h_class] in *; try congruence.
      * exfalso. match goal with H : ~ In _ _ |- _ => apply H end. rewrite H3. cbn. tauto.
      * exists u, data. auto.
      * match goal with k0 : strkind |- _ => destruct k0; cbn in *; congruence end.
    + apply dv_ber; auto. now apply value_conv.
Qed.

(** The DER ones check in addition what DER asks of the type they are told. *)
Theorem C70_der_content : forall L t i hdr d r k, bytes_ok i -> (1 <= d)%nat ->
  let h := mkHeader Universal (h_constructed hdr) t (h_length hdr) None in
  (parse_der_content L t i hdr d = Ok (r, k)
   <-> exists c, i = c ++ r /\ h_length hdr = Definite (N.of_nat (length c))
         /\ (t <> 3 -> N.of_nat (length c) <= 4294967295)
         /\ der_checked t (h_constructed hdr) c
         /\ (t = 3 -> der_bit_string (h_constructed hdr) c)
         /\ value L d h c k)
  /\ parse_der_content2 L t i hdr d = parse_der_content L t i hdr d.
Proof.
  intros L t i hdr d r k Hok Hd h. split; [|reflexivity]. unfold parse_der_content.
  pose proof (der_content_ok L i h d r k) as Hk. cbn [h h_tag h_length h_constructed] in Hk. rewrite Hk. split.
  - intros (c & -> & Hl & Hv). apply bytes_ok_app in Hok as [Hok _].
    apply der_value_spec in Hv; auto. exists c. split; [reflexivity|]. split; [exact Hl|]. exact Hv.
  - intros (c & -> & Hl & Hv). apply bytes_ok_app in Hok as [Hok _].
    exists c. split; [reflexivity|]. split; [exact Hl|]. apply der_value_spec; auto.
Qed.
Print Assumptions C70_der_content.

Lemma der_element_content_cases L i hdr r o : no_unknown_tag L -> bytes_ok i ->
  (der_read_element_content L i hdr = Ok (r, o)
   <-> o_header o = hdr
       /\ (h_class hdr = Universal /\ parse_der_content L (h_tag hdr) i hdr 50 = Ok (r, o_content o)
           \/ h_class hdr <> Universal
              /\ exists b, i = b ++ r /\ body 50 hdr b
                   /\ o_content o = CUnknown (mkAny hdr (content_octets hdr b)))).
Proof.
  intros HL Hok. unfold der_read_element_content, der_read_element_content_recursive.
  change MAX_RECURSION with 50%nat.
  assert (Hunk : (let* (r0, data) := ber_get_object_content i hdr 50 in
                  Ok (r0, Obj hdr (CUnknown (mkAny hdr data)))) = Ok (r, o)
    <-> o_header o = hdr /\ exists b, i = b ++ r /\ body 50 hdr b
                   /\ o_content o = CUnknown (mkAny hdr (content_octets hdr b))).
  { split.
    - intros H. bind_inv H. destruct a as [r0 data]. inv H.
      apply get_content_sound in E as (b & -> & Hb & ->); [|assumption]. eauto.
    - intros (Ho & b & -> & Hb & Hc). rewrite (get_content_complete _ _ _ _ Hb). cbn [bind].
      destruct o; cbn in *; subst; reflexivity. }
  destruct (h_class hdr) eqn:Ec.
  2-4: rewrite Hunk; split; [intros [H1 H2]; split; [exact H1|right; split; [discriminate|exact H2]]
    |intros [H1 [[H2 _]|[_ H2]]]; [discriminate|auto]].
  unfold parse_der_content.
  destruct (der_read_element_content_as L i (h_tag hdr) (h_length hdr) (h_constructed hdr) 50)
    as [[r' k]|e| |] eqn:E.
  - split.
    + intros H. inv H. auto.
    + intros (H1 & [(_ & H2)|(H2 & _)]); [|congruence]. inv H2. destruct o; cbn in *; subst; reflexivity.
  - assert (He : forall t, e <> Error (UnknownTag t)).
    { intros t ->. pose proof (der_content_as_inv L i (h_tag hdr) (h_length hdr) (h_constructed hdr) 50) as Hi.
      cbn zeta in Hi. rewrite E in Hi. destruct Hi as (c & r0 & Ei & Hl & [(_ & _ & Hb)|(_ & _ & Hb)]).
      - right. eauto.
      - symmetry in Hb. now apply der_bitstring_not_unknown in Hb.
      - symmetry in Hb. apply (content_as_err_unknown L _ c r0) in Hb as (_ & _ & Hb); auto.
        now apply (conv_errs L HL _ _ _ Hb t). }
    split; [|intros (_ & [(_ & H)|(H & _)]); congruence].
    intros H. exfalso. destruct e as [|e|]; try discriminate. destruct e; try discriminate. now apply (He t).
  - split; [discriminate|]. intros (_ & [(_ & H)|(H & _)]); congruence.
  - split; [discriminate|]. intros (_ & [(_ & H)|(H & _)]); congruence.
Qed.

(** [der_read_element_content]: the header decides.  A universal one is read as
    above; under any other class the contents are kept unread, of whatever
    length. *)
Theorem C70_der_element_content : forall L i hdr r o, no_unknown_tag L -> bytes_ok i ->
  (der_read_element_content L i hdr = Ok (r, o)
   <-> o_header o = hdr
       /\ (h_class hdr = Universal
            /\ (exists c, i = c ++ r /\ h_length hdr = Definite (N.of_nat (length c))
                 /\ (h_tag hdr <> 3 -> N.of_nat (length c) <= 4294967295)
                 /\ der_checked (h_tag hdr) (h_constructed hdr) c
                 /\ (h_tag hdr = 3 -> der_bit_string (h_constructed hdr) c)
                 /\ value L 50 (as_universal hdr) c (o_content o))
           \/ h_class hdr <> Universal
              /\ exists b, i = b ++ r /\ body 50 hdr b
                   /\ o_content o = CUnknown (mkAny hdr (content_octets hdr b)))).
Proof.
  intros L i hdr r o HL Hok. rewrite der_element_content_cases by assumption.
  destruct (C70_der_content L (h_tag hdr) i hdr 50 r (o_content o) Hok ltac:(lia)) as [-> _]. reflexivity.
Qed.
Print Assumptions C70_der_element_content.

(** So a DER function takes contents of indefinite length, under a header that
    the DER header reader never returns. *)
Theorem C24_content_refuted : forall L, exists hdr i o, h_length hdr = Indefinite
  /\ der_read_element_content L i hdr = Ok ([], o).
Proof.
  intros L. exists (mkHeader ContextSpecific true 0 Indefinite None), (hx "02 01 05 00 00").
  eexists. split; [reflexivity|]. reflexivity.
Qed.
Print Assumptions C24_content_refuted.

(** IMPLICIT tags read with the content readers: the contents of an element of
    definite length are read as those of the type told. *)
Theorem C70_implicit_der : forall L t u i r o, bytes_ok i ->
  (parse_der_tagged_implicit t (parse_der_content L u) i = Ok (r, o)
   <-> exists bs c, i = bs ++ r /\ definite_element (o_header o) c bs /\ h_tag (o_header o) = t
         /\ (u <> 3 -> N.of_nat (length c) <= 4294967295)
         /\ der_checked u (h_constructed (o_header o)) c
         /\ (u = 3 -> der_bit_string (h_constructed (o_header o)) c)
         /\ value L 50 (mkHeader Universal (h_constructed (o_header o)) u (h_length (o_header o)) None)
              c (o_content o)).
Proof.
  intros L t u i r o Hok. destruct (C31_objects t (parse_der_content L u) i r o Hok) as (_ & -> & _).
  split.
  - intros (h & c & bs & x & k & -> & He & Ht & Hf & ->). exists bs, c.
    split; [reflexivity|]. split; [exact He|]. split; [exact Ht|].
    assert (Hc : bytes_ok c).
    { destruct He as (hb & -> & _). rewrite <- app_assoc in Hok. apply bytes_ok_app in Hok as [_ Hok].
      now apply bytes_ok_app in Hok as [Hok _]. }
    apply C70_der_content in Hf as (c' & E & Hl & Hv); [|assumption|lia].
    destruct He as (hb & _ & _ & Hl'). rewrite Hl in Hl'. injection Hl' as Hl'.
    assert (x = []) as ->.
    { apply length_zero_iff_nil. apply (f_equal (@length N)) in E. rewrite app_length in E. lia. }
    rewrite app_nil_r in E. subst c'. exact Hv.
  - intros (bs & c & -> & He & Ht & Hv). destruct o as [h k]. cbn [o_header o_content] in *.
    exists h, c, bs, [], k. repeat (split; [first [reflexivity|assumption]|]). split; [|reflexivity].
    assert (Hc : bytes_ok c).
    { destruct He as (hb & -> & _). rewrite <- app_assoc in Hok. apply bytes_ok_app in Hok as [_ Hok].
      now apply bytes_ok_app in Hok as [Hok _]. }
    apply C70_der_content; [assumption|lia|]. exists c. split; [now rewrite app_nil_r|].
    destruct He as (hb & _ & _ & Hl'). split; [exact Hl'|exact Hv].
Qed.
Print Assumptions C70_implicit_der.

(** What is left of contents without their end-of-contents octets has no end. *)
Lemma stripped_has_no_end d b b' x :
  until_eoc d b -> until_eoc d b' -> firstn (length b - 2) b = b' ++ x -> False.
Proof.
  intros Hb Hb' E.
  assert (Hl : (2 <= length b)%nat) by (inversion Hb as [d0 h hb Hh|d0 h hb b0 rest Hh]; subst;
    pose proof (header_octets_len _ _ Hh); rewrite ?app_length; lia).
  assert (Eb : b = b' ++ x ++ skipn (length b - 2) b)
    by (rewrite app_assoc, <- E, firstn_skipn; reflexivity).
  pose proof (proj2 body_complete_mut _ _ Hb (S (length b)) [] ltac:(lia)) as H1.
  pose proof (proj2 body_complete_mut _ _ Hb' (S (length b)) (x ++ skipn (length b - 2) b)) as H2.
  rewrite <- Eb in H2. rewrite app_nil_r in H1.
  rewrite H1 in H2. assert (Hx : [] = x ++ skipn (length b - 2) b).
  { assert (Hf : (length b' < S (length b))%nat) by (rewrite Eb, app_length; lia). specialize (H2 Hf). now injection H2. }
  apply (f_equal (@length N)) in Hx. rewrite app_length, skipn_length in Hx. cbn [length] in Hx. lia.
Qed.

(** The BER combinator strips the end-of-contents octets, but the content reader
    looks for them again: elements of indefinite length are never read, and
    elements of definite length as they should be. *)
Theorem C70_implicit_ber_partial : forall L t u i r o, bytes_ok i ->
  (parse_ber_tagged_implicit t (parse_ber_content L u) i = Ok (r, o)
   <-> exists bs c, i = bs ++ r /\ definite_element (o_header o) c bs /\ h_tag (o_header o) = t
         /\ N.of_nat (length c) <= 4294967295
         /\ value L 50 (mkHeader Universal (h_constructed (o_header o)) u (h_length (o_header o)) None)
              c (o_content o)).
Proof.
  intros L t u i r o Hok. destruct (C31_objects t (parse_ber_content L u) i r o Hok) as (-> & _ & _).
  split.
  - intros (h & c & bs & x & k & -> & He & Ht & Hf & ->). cbn [o_header o_content] in *.
    destruct He as (hb & b & -> & Hh & Hb & ->).
    assert (Hc : bytes_ok (content_octets h b)).
    { rewrite <- app_assoc in Hok. apply bytes_ok_app in Hok as [_ Hok]. apply bytes_ok_app in Hok as [Hok _].
      unfold content_octets. destruct (h_length h); [exact Hok|now apply bytes_ok_firstn]. }
    apply C70_ber_content in Hf as (b' & E & Hb' & Hm & Hv); [|exact Hc].
    inversion Hb as [d0 h0 n b0 Hn En|d0 h0 b0 Hi Hcs Hu]; subst.
    + unfold content_octets in *. rewrite Hn in *. exists (hb ++ b), b.
      split; [reflexivity|]. split; [exists hb; repeat split; auto|]. split; [reflexivity|]. split; [now apply Hm|].
      inversion Hb' as [d0 h0 n b0 Hn' En|]; [|cbn [h_length] in *; congruence]. cbn [h_length] in *. injection Hn' as Hn'.
      assert (x = []) as ->.
      { apply length_zero_iff_nil. apply (f_equal (@length N)) in E. rewrite app_length in E. lia. }
      rewrite app_nil_r in E. subst b'. exact Hv.
    + exfalso. inversion Hb' as [d1 h1 n b1 Hn' En|d1 h1 b1 _ _ Hu']; [cbn [h_length] in *; congruence|]. subst.
      unfold content_octets in E. rewrite Hi in E. exact (stripped_has_no_end _ _ _ _ Hu Hu' E).
  - intros (bs & c & -> & He & Ht & Hm & Hv). destruct o as [h k]. cbn [o_header o_content] in *.
    destruct He as (hb & -> & Hh & Hl).
    exists h, c, (hb ++ c), [], k. split; [reflexivity|]. split.
    { exists hb, c. repeat split; auto; [eapply body_definite; eauto|]. unfold content_octets. now rewrite Hl. }
    split; [exact Ht|]. split; [|reflexivity].
    rewrite <- app_assoc in Hok. apply bytes_ok_app in Hok as [_ Hok]. apply bytes_ok_app in Hok as [Hok _].
    apply C70_ber_content; [assumption|]. exists c. split; [now rewrite app_nil_r|].
    split; [eapply body_definite; [exact Hl|reflexivity]|].
    split; [intros n Hn; rewrite Hl in Hn; inv Hn; exact Hm|].
    unfold content_octets. cbn [h_length]. rewrite Hl in *. exact Hv.
Qed.
Print Assumptions C70_implicit_ber_partial.

(** An IMPLICIT OCTET STRING [1] of indefinite length is not read, although the
    same element with its universal tag is. *)
Theorem C70_implicit_refuted : exists i j o e,
  i = 161 :: skipn 1 j /\ j = 36 :: skipn 1 i
  /\ parse_ber_octetstring SL j = Ok ([], o)
  /\ parse_ber_tagged_implicit 1 (parse_ber_content SL 4) i = Err e.
Proof.
  exists (hx "a1 80 04 01 05 00 00"), (hx "24 80 04 01 05 00 00"). do 2 eexists.
  split; [reflexivity|]. split; [reflexivity|]. split; vm_compute; reflexivity.
Qed.
Print Assumptions C70_implicit_refuted.

Example C70_ex : bytes_ok (hx "81 02 01 05 ff")
  /\ parse_der_tagged_implicit 1 (parse_der_content SL 2) (hx "81 02 01 05 ff")
     = Ok ([255], Obj (mkHeader ContextSpecific false 1 (Definite 2) (Some [129])) (CInteger [1; 5]))
  /\ (exists e, parse_der_tagged_implicit 1 (parse_der_content SL 2) (hx "81 02 00 05 ff") = Err e)
  /\ parse_ber_tagged_implicit 1 (parse_ber_content SL 2) (hx "81 02 00 05 ff")
     = Ok ([255], Obj (mkHeader ContextSpecific false 1 (Definite 2) (Some [129])) (CInteger [0; 5]))
  /\ parse_der_content SL 3 (hx "04 f0 aa") (header_new Universal false 9 (Definite 2)) 50
     = Ok ([170], CBitString 4 [240]).
Proof.
  split; [repeat constructor|]. split; [vm_compute; reflexivity|]. split; [eexists; vm_compute; reflexivity|].
  split; vm_compute; reflexivity.
Qed.

(** ** C71: the stored identifier octets *)

(** Replacing the stored identifier octets of an object changes neither what is
    written nor any query; they can be put back. *)
Theorem C71_invisible : forall L o x, let o' := set_raw_tag o x in
  to_vec L o' = to_vec L o
  /\ (forall t c, ber_encode_tagged_explicit L t c o' = ber_encode_tagged_explicit L t c o
        /\ ber_encode_tagged_implicit L t c o' = ber_encode_tagged_implicit L t c o)
  /\ h_raw_tag (o_header o') = x /\ o_content o' = o_content o
  /\ obj_class o' = obj_class o /\ obj_tag o' = obj_tag o /\ obj_length o' = obj_length o
  /\ is_constructed o' = is_constructed o /\ set_raw_tag o' (h_raw_tag (o_header o)) = o.
Proof.
  intros L [h k] x o'. unfold o', set_raw_tag, with_raw_tag. cbn [o_header o_content].
  assert (E : to_vec L (Obj (mkHeader (h_class h) (h_constructed h) (h_tag h) (h_length h) x) k) = to_vec L (Obj h k))
    by (apply C38_independent; reflexivity).
  split; [exact E|]. split.
  - intros t c. split; [|reflexivity]. unfold ber_encode_tagged_explicit. unfold to_vec in E. now rewrite E.
  - repeat split. destruct h; reflexivity.
Qed.
Print Assumptions C71_invisible.

(** What the parser stores are the identifier octets it read. *)
Theorem C71_stored : forall L d i r o, bytes_ok i -> parse_ber_recursive L i d = Ok (r, o) ->
  exists ib rest, i = ib ++ rest /\ h_raw_tag (o_header o) = Some ib
    /\ ident_octets (h_class (o_header o)) (h_constructed (o_header o)) (h_tag (o_header o)) ib.
Proof.
  intros L d i r o Hok H. apply parse_ber_inv in H as (a & Ha & Hc).
  pose proof (conv_header _ _ _ _ Hc) as Hh. apply any_from_ber_sound in Ha as (bs & -> & He); [|assumption].
  destruct He as (hb & b & -> & (ib & lb & -> & Hi & _ & Hr & _) & _). rewrite Hh.
  exists ib, (lb ++ b ++ r). rewrite <- !app_assoc. auto.
Qed.
Print Assumptions C71_stored.

(** The header [h] is that of an element found in [i], which begins with the
    stored octets. *)
Definition read_from (i : bytes) (h : header) : Prop :=
  exists bs c ib rest, subslice bs i /\ element 50 h c bs /\ bs = ib ++ rest
    /\ h_raw_tag h = Some ib /\ ident_octets (h_class h) (h_constructed h) (h_tag h) ib.

Lemma element_read_from h c bs i : element 50 h c bs -> subslice bs i -> read_from i h.
Proof.
  intros He Hs. pose proof He as (hb & b & -> & (ib & lb & -> & Hi & _ & Hr & _) & _).
  exists ((ib ++ lb) ++ b), c, ib, (lb ++ b). split; [exact Hs|]. split; [exact He|]. split; [now rewrite app_assoc|]. auto.
Qed.

Lemma value_read_from L d h h' c k bs i n : element 50 h c bs -> value L d h' c k -> subslice bs i ->
  node n (Obj h k) -> read_from i (o_header n).
Proof.
  intros He Hv Hs Hn. destruct (node_inv _ _ _ Hn) as [->|(x & Hx & Hnx)].
  - eapply element_read_from; eassumption.
  - destruct (value_below _ _ _ _ _ _ _ Hv Hx Hnx) as (bs' & c' & d' & Hsub & He' & _).
    eapply element_read_from; [exact He'|]. eapply subslice_trans; [exact Hsub|].
    eapply subslice_trans; [eapply element_content_sub, He|exact Hs].
Qed.

(** Every object in the tree, whichever reader made it. *)
Theorem C71_tree : forall L d t i r o n, bytes_ok i ->
  parse_ber_recursive L i d = Ok (r, o) \/ parse_der_recursive L i d = Ok (r, o)
  \/ parse_ber_with_tag L i t = Ok (r, o) \/ parse_der_with_tag L i t = Ok (r, o) ->
  node n o -> exists bs, i = bs ++ r /\ read_from bs (o_header n).
Proof.
  intros L d t i r [h k] n Hok H Hn. destruct H as [H|[H|[H|H]]].
  - apply C55_parse_ber_exact in H as (bs & c & -> & He & Hv); [|exact Hok]. exists bs. split; [reflexivity|].
    eapply value_read_from; eauto using subslice_refl.
  - apply parse_der_element in H as (hb & c & -> & Hh & Hl & Hm & Ho); [|assumption]. cbn [o_header] in *.
    exists (hb ++ c). split; [now rewrite app_assoc|].
    assert (He : element 50 h c (hb ++ c)) by (apply definite_is_element; exists hb; auto).
    apply bytes_ok_app in Hok as [_ Hok]. apply bytes_ok_app in Hok as [Hok _].
    destruct (node_inv _ _ _ Hn) as [->|(x & Hx & Hnx)].
    + eapply element_read_from; [exact He|apply subslice_refl].
    + destruct (der_object_below _ _ _ _ _ _ _ Hok Hl Ho Hx Hnx) as (bs & c' & d' & Hsub & He' & _).
      eapply element_read_from; [exact He'|]. eapply subslice_trans; [exact Hsub|apply subslice_app_r].
  - apply with_tag_exact in H as (bs & c & -> & He & _ & _ & Hv); [|exact Hok]. exists bs. split; [reflexivity|].
    eapply value_read_from; eauto using subslice_refl.
  - apply der_with_tag_exact in H as (bs & c & -> & He & _ & _ & _ & _ & Hv); [|exact Hok]. exists bs. split; [reflexivity|].
    eapply value_read_from; [apply definite_is_element; exact He|exact Hv|apply subslice_refl|exact Hn].
Qed.
Print Assumptions C71_tree.

(** The inner object of SEQUENCE { [APPLICATION 82] AA }, read by the DER reader. *)
Example C71_tree_ex : exists o n, parse_der SL (hx "30 04 5f 52 01 aa 07") = Ok ([7], o)
  /\ node n o /\ h_raw_tag (o_header n) = Some (hx "5f 52") /\ h_tag (o_header n) = 82.
Proof.
  do 2 eexists. split; [vm_compute; reflexivity|]. split; [|split].
  - eapply node_seq; [left; reflexivity|apply node_self].
  - reflexivity.
  - reflexivity.
Qed.

Example C71_ex : exists o, parse_ber SL (hx "5f 52 01 aa") = Ok ([], o)
  /\ h_raw_tag (o_header o) = Some (hx "5f 52") /\ obj_tag o = 82.
Proof. eexists. split; [vm_compute; reflexivity|]. split; reflexivity. Qed.
