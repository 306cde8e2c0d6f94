(** * C35-C40: the serializer and its round trips *)

From Coq Require Import String.
From Verif Require Import Base Asn1rs Ber Der Combinators Serialize Conformance Spec SpecValue SpecComb SpecSer.
From Verif Require Import LemBase LemHeader LemSkip LemParse LemText LemTree LemNode LemComb LemInt LemSer PropComb.
Local Open Scope string_scope.
Local Open Scope N_scope.
Local Open Scope list_scope.

(** ** C35: headers *)

(** The length fits in a usize. *)
Definition usize_length (l : blen) : Prop := forall n, l = Definite n -> n < 2 ^ 64.

Theorem C35_shortest : forall h, h_tag h <= 30 -> usize_length (h_length h) ->
  exists b lb, ber_encode_header h = Ok (b :: lb)
    /\ ident_octets (h_class h) (h_constructed h) (h_tag h) [b]
    /\ length_octets (h_length h) lb
    /\ forall lb', length_octets (h_length h) lb' -> (length lb <= length lb')%nat.
Proof.
  intros h Ht Hl. exists (leading_octet (h_class h) (h_constructed h) (h_tag h)).
  assert (Hw : forall lb, encode_length (h_length h) = Ok lb ->
    ber_encode_header h = Ok (leading_octet (h_class h) (h_constructed h) (h_tag h) :: lb)).
  { intros lb E. unfold ber_encode_header. destruct (30 <? h_tag h) eqn:Et; [lia|].
    rewrite (proj1 (leading_octet_eq _ _ _ Ht)), E. reflexivity. }
  destruct (h_length h) as [n|] eqn:El.
  - destruct (encode_length_spec n (Hl n eq_refl)) as (lb & E & H1 & _ & H2). exists lb.
    split; [auto|]. split; [apply ident_low; lia|]. auto.
  - exists [128]. split; [auto|]. split; [apply ident_low; lia|]. split; [constructor|].
    intros lb' H. inv H. reflexivity.
Qed.
Print Assumptions C35_shortest.

(** Read back by the header readers: same class, form, tag and length, and
    nothing else consumed.  Missing: a primitive header of indefinite length,
    see [C35_refuted]. *)
Theorem C35_read_back_partial : forall h rest, h_tag h <= 30 -> usize_length (h_length h) ->
  (h_length h = Indefinite -> h_constructed h = true) ->
  exists hb h', ber_encode_header h = Ok hb
    /\ ber_read_element_header (hb ++ rest) = Ok (rest, h')
    /\ (h_length h <> Indefinite -> der_read_element_header (hb ++ rest) = Ok (rest, h'))
    /\ h_class h' = h_class h /\ h_constructed h' = h_constructed h
    /\ h_tag h' = h_tag h /\ h_length h' = h_length h.
Proof.
  intros h rest Ht Hl Hc. destruct (C35_shortest h Ht Hl) as (b & lb & E & Hi & Hlb & _).
  set (h' := mkHeader (h_class h) (h_constructed h) (h_tag h) (h_length h) (Some [b])).
  assert (Hh : header_octets h' (b :: lb)) by (exists [b], lb; repeat split; assumption).
  exists (b :: lb), h'. split; [assumption|]. split; [now apply header_from_ber_complete|].
  split; [intros Hn; now apply header_from_der_complete|]. repeat split.
Qed.
Print Assumptions C35_read_back_partial.

(** A primitive header with indefinite length is written, but not read back. *)
Theorem C35_refuted : exists h hb, h_tag h <= 30 /\ usize_length (h_length h)
  /\ ber_encode_header h = Ok hb
  /\ forall rest, exists e, ber_read_element_header (hb ++ rest) = Err e.
Proof.
  exists (mkHeader Universal false 4 Indefinite None), (hx "04 80"). split; [cbn; lia|].
  split; [intros n; discriminate|]. split; [reflexivity|]. intros rest. eexists. reflexivity.
Qed.
Print Assumptions C35_refuted.

Example C35_ex : ber_encode_header (mkHeader Application true 30 (Definite 70000) None) = Ok (hx "7e 83 01 11 70")
  /\ ber_encode_header (mkHeader Universal true 16 Indefinite None) = Ok (hx "30 80")
  /\ ber_encode_header (mkHeader Private false 0 (Definite 127) None) = Ok (hx "c0 7f")
  /\ ber_encode_header (mkHeader Private false 0 (Definite (2 ^ 64 - 1)) None) = Ok (hx "c0 88 ff ff ff ff ff ff ff ff").
Proof. repeat split; vm_compute; reflexivity. Qed.

(** ** Round trip of well-formed objects *)

Lemma round_trip L d o bs : well_formed L d o -> to_vec L o = Ok bs -> nlen bs < 2 ^ 64 ->
  exists o', parse_ber_recursive L bs d = Ok ([], o') /\ erase o' = erase o /\ to_vec L o' = Ok bs /\ bytes_ok bs.
Proof.
  intros Hw H Hn. destruct (encode_reads_back L d o bs Hw H Hn) as (o' & c & He & Hv & Ee & Hok).
  exists o'. split.
  - apply parse_ber_iff; [assumption|]. exists bs, c. split; [now rewrite app_nil_r|].
    split; [now apply definite_is_element|assumption].
  - split; [assumption|]. split; [|assumption]. unfold to_vec. rewrite (encode_same L o' o Ee). exact H.
Qed.

(** [to_vec] returns bytes, except when a header it has to write has a tag
    number above 30. *)
Definition tag_too_large (o : obj) : Prop := exists h, written h o /\ 30 < h_tag h.

(** ** C38 *)

Theorem C38_panics : forall L o, to_vec L o = Panic <-> tag_too_large o.
Proof. intros L o. apply panic_iff. Qed.
Print Assumptions C38_panics.

Theorem C38_otherwise_ok : forall L o, ~ tag_too_large o -> exists bs, to_vec L o = Ok bs.
Proof.
  intros L o H. destruct (proj1 (gen_total L) o) as [E|E]; [exact E|]. exfalso. apply H. now apply (C38_panics L).
Qed.
Print Assumptions C38_otherwise_ok.

(** Length fields and raw tags, at any level, do not influence the output. *)
Theorem C38_independent : forall L o o', erase o = erase o' -> to_vec L o = to_vec L o'.
Proof. exact encode_same. Qed.
Print Assumptions C38_independent.

Example C38_ex :
  let deep h := Obj (header_new Universal true 16 Indefinite) (CSequence [from_obj CNull; Obj h (COctetString [1])]) in
  let h t := mkHeader ContextSpecific false t (Definite 77) (Some [1; 2; 3]) in
  tag_too_large (deep (h 31)) /\ to_vec SL (deep (h 31)) = Panic
  /\ ~ tag_too_large (deep (h 30)) /\ to_vec SL (deep (h 30)) = Ok (hx "30 05 05 00 9e 01 01")
  /\ ~ tag_too_large (from_obj (COptional (Some (Obj (h 99) CNull)))).
Proof.
  cbv zeta.
  assert (Hp : forall o, to_vec SL o <> Panic -> ~ tag_too_large o) by (intros o H Ht; apply H; now apply C38_panics).
  split; [|split; [vm_compute; reflexivity|split; [|split; [vm_compute; reflexivity|]]]].
  - exists (mkHeader ContextSpecific false 31 (Definite 77) (Some [1; 2; 3])). split; [|reflexivity].
    apply written_inside. eapply written_seq; [right; left; reflexivity|]. constructor.
  - apply Hp. vm_compute. discriminate.
  - apply Hp. vm_compute. discriminate.
Qed.

(** ** C36 *)

(** Decode, encode, decode, at any recursion limit.  The bytes written are
    assumed to fit in the address space. *)
Theorem C36_round_trip : forall L d i r o, length_blind L -> bytes_ok i ->
  parse_ber_recursive L i d = Ok (r, o) -> no_times o ->
  (tag_too_large o /\ to_vec L o = Panic)
  \/ exists bs, to_vec L o = Ok bs
     /\ (nlen bs < 2 ^ 64 -> exists o', parse_ber_recursive L bs d = Ok ([], o')
           /\ erase o' = erase o /\ to_vec L o' = Ok bs).
Proof.
  intros L d i r o HL Hok H Hn. apply parse_ber_iff in H as (bs & c & -> & He & Hv); [|assumption].
  apply bytes_ok_app in Hok as [Hok _].
  assert (Hw : well_formed L d o).
  { destruct o as [h k]. eapply value_well_formed; eauto. eapply subslice_ok; [|exact Hok].
    eapply element_content_sub, He. }
  destruct (proj1 (gen_total L) o) as [(bs' & E)|E].
  - right. exists bs'. split; [exact E|]. intros Hlt.
    destruct (round_trip L d o bs' Hw E Hlt) as (o' & H1 & H2 & H3 & _). eauto.
  - left. split; [now apply (C38_panics L)|exact E].
Qed.
Print Assumptions C36_round_trip.

(** [parse_ber] itself. *)
Theorem C36_parse_ber : forall L i r o, length_blind L -> bytes_ok i ->
  parse_ber L i = Ok (r, o) -> no_times o ->
  (tag_too_large o /\ to_vec L o = Panic)
  \/ exists bs, to_vec L o = Ok bs
     /\ (nlen bs < 2 ^ 64 -> exists o', parse_ber L bs = Ok ([], o')
           /\ erase o' = erase o /\ to_vec L o' = Ok bs).
Proof. intros L i r o. exact (C36_round_trip L MAX_RECURSION i r o). Qed.
Print Assumptions C36_parse_ber.

Lemma SL_length_blind : length_blind SL.
Proof. intros pc l c. split; intros H; exact H. Qed.

(** Non-minimal lengths, an indefinite length and a non-canonical BOOLEAN; and
    a tag number above 30. *)
Example C36_ex : exists o, length_blind SL
  /\ parse_ber SL (hx "30 80 01 81 01 07 a1 80 05 00 00 00 31 82 00 02 05 00 00 00 ff") = Ok ([255], o)
  /\ to_vec SL o = Ok (hx "30 0b 01 01 ff a1 02 05 00 31 02 05 00")
  /\ exists o', parse_ber SL (hx "30 0b 01 01 ff a1 02 05 00 31 02 05 00") = Ok ([], o').
Proof.
  eexists. split; [exact SL_length_blind|]. split; [vm_compute; reflexivity|]. split; [vm_compute; reflexivity|].
  eexists. vm_compute. reflexivity.
Qed.
Example C36_ex_panic : exists o, parse_ber SL (hx "30 04 9f 1f 01 00") = Ok ([], o) /\ to_vec SL o = Panic.
Proof. eexists. split; vm_compute; reflexivity. Qed.

(** ** C37: constructed objects *)

(** Objects built with the constructors from contents valid for their type; at
    most [d] levels. *)
Inductive built (L : leaves) : nat -> obj -> Prop :=
| built_leaf d k : leaf_ok L false k -> built L (S d) (from_obj k)
| built_int d s : bytes_ok s -> built L (S d) (from_int_slice s)
| built_seq d l : Forall (built L d) l -> built L (S d) (from_seq l)
| built_set d l : Forall (built L d) l -> built L (S d) (from_set l).

Lemma built_well_formed L d : forall o, built L d o -> well_formed L d o /\ h_tag (o_header o) <= 30.
Proof.
  induction d as [|d IH]; intros o H; inversion H as [d0 k H2|d0 s H2|d0 l H2|d0 l H2]; subst.
  - split.
    + unfold from_obj. apply wf_leaf.
      * reflexivity.
      * destruct k as [| | | | | | | | |sk| | | | | | | | |]; try contradiction; reflexivity.
      * destruct k as [| | | | | | | | |sk| | | | | | | | |]; try contradiction; try exact H2. destruct sk; exact H2.
    + destruct k as [| | | | | | | | |sk| | | | | | | | |]; try contradiction; try (vm_compute; discriminate). destruct sk; vm_compute; discriminate.
  - split; [|vm_compute; discriminate]. apply wf_leaf; [reflexivity|reflexivity|assumption].
  - split; [|vm_compute; discriminate]. apply wf_sequence; [reflexivity..|]. eapply Forall_impl; [|exact H2]. intros o Ho. now apply IH.
  - split; [|vm_compute; discriminate]. apply wf_set; [reflexivity..|]. eapply Forall_impl; [|exact H2]. intros o Ho. now apply IH.
Qed.

Lemma built_tags L d : forall o, built L d o -> forall h, written h o -> h_tag h <= 30.
Proof.
  induction d as [|d IH]; intros o H h Hw; [inversion H|].
  pose proof (proj2 (built_well_formed _ _ _ H)) as Ht. inv Hw; [exact Ht|].
  inversion H as [d0 k Hk|d0 s Hs|d0 l Hl|d0 l Hl]; subst;
    match goal with Hi : written_in _ _ |- _ => inv Hi end; try contradiction;
    rewrite Forall_forall in Hl; eapply IH; eauto.
Qed.

(** Missing: [Tagged] and [Unknown] contents, for which the claim is false
    ([C37_refuted]); time values must be ones that the decoder reads from their
    printed form, which no UTCTime is ([C37_utctime_refuted]); ENUMERATED below
    2^32 ([C37_enum_refuted]). *)
Theorem C37_partial : forall L d o, built L d o ->
  exists bs, to_vec L o = Ok bs
    /\ (nlen bs < 2 ^ 64 -> exists o', parse_ber_recursive L bs d = Ok ([], o') /\ erase o' = erase o).
Proof.
  intros L d o H. destruct (C38_otherwise_ok L o) as (bs & E).
  { intros (h & Hw & Ht). pose proof (built_tags _ _ _ H _ Hw). lia. }
  exists bs. split; [assumption|]. intros Hn.
  destruct (round_trip L d o bs) as (o' & H1 & H2 & _); auto; [|eauto]. now apply built_well_formed.
Qed.
Print Assumptions C37_partial.

(** The class of a tagged value is lost: it is written as a universal element
    with the same tag number. *)
Theorem C37_refuted : forall L, exists bs,
  to_vec L (from_obj (CTagged ContextSpecific 1 (from_obj CNull))) = Ok bs
  /\ exists e, parse_ber L bs = Err e.
Proof. intros L. exists (hx "01 02 05 00"). split; [vm_compute; reflexivity|]. eexists. vm_compute. reflexivity. Qed.
Print Assumptions C37_refuted.

Theorem C37_enum_refuted : forall L, exists n bs, n < 2 ^ 64 /\ to_vec L (from_obj (CEnum n)) = Ok bs
  /\ exists e, parse_ber L bs = Err e.
Proof.
  intros L. exists (2 ^ 32), (hx "0a 05 01 00 00 00 00"). split; [reflexivity|]. split; [vm_compute; reflexivity|].
  eexists. vm_compute. reflexivity.
Qed.
Print Assumptions C37_enum_refuted.

(** A UTCTime (here 910506234540Z) is written with a four-digit year and cannot
    be read back. *)
Theorem C37_utctime_refuted : exists t bs,
  lf_utctime SL false (Definite 13) (hx "39 31 30 35 30 36 32 33 34 35 34 30 5a") = inr t
  /\ to_vec SL (from_obj (CUTCTime t)) = Ok bs
  /\ exists e, parse_ber SL bs = Err e.
Proof.
  eexists. eexists. split; [vm_compute; reflexivity|]. split; [vm_compute; reflexivity|].
  eexists. vm_compute. reflexivity.
Qed.
Print Assumptions C37_utctime_refuted.

Example C37_ex : built SL 3 (from_seq [from_int_slice [5]; from_set [from_obj (CStr KPrintable (hx "41 42")); from_obj (CBitString 3 [8])];
                                      from_obj (COID (mkOid false (hx "2a 03"))); from_obj (CEnum 3)])
  /\ to_vec SL (from_seq [from_int_slice [5]; from_set [from_obj (CStr KPrintable (hx "41 42")); from_obj (CBitString 3 [8])];
                                      from_obj (COID (mkOid false (hx "2a 03"))); from_obj (CEnum 3)])
     = Ok (hx "30 14 02 01 05 31 08 13 02 41 42 03 02 03 08 06 02 2a 03 0a 01 03").
Proof.
  split; [|vm_compute; reflexivity]. apply built_seq. constructor; [|constructor; [|constructor; [|constructor; [|constructor]]]].
  - apply built_int. bok.
  - apply built_set. constructor; [|constructor; [|constructor]]; apply built_leaf; cbn [leaf_ok].
    + split; [reflexivity|]. split; [bok|]. split.
      * cbn [repertoire]. apply (charset_iff SL KPrintable). vm_compute. reflexivity.
      * apply utf8_valid_iff. vm_compute. reflexivity.
    + split; [reflexivity|]. split; [reflexivity|bok].
  - apply built_leaf. cbn [leaf_ok]. split; [reflexivity|]. split; [bok|reflexivity].
  - apply built_leaf. cbn [leaf_ok]. split; [reflexivity|reflexivity].
Qed.

(** ** C39: EXPLICIT *)

(** With any inner parser [f] that decodes the encoding of [o]. *)
Theorem C39_any_parser : forall L t c o f v bs u inner, c <> Universal ->
  ber_encode_tagged_explicit L t c o = Ok bs -> nlen bs < 2 ^ 64 ->
  to_vec L o = Ok v -> bytes_ok v -> f v = Ok (u, inner) ->
  exists h, parse_ber_tagged_explicit t f bs = Ok ([], Obj h (CTagged c t inner))
    /\ parse_der_tagged_explicit t f bs = Ok ([], Obj h (CTagged c t inner))
    /\ h_class h = c /\ h_tag h = t /\ h_constructed h = true
    /\ (to_vec L inner = Ok v -> to_vec L (Obj h (CTagged c t inner)) = Ok bs).
Proof.
  intros L t c o f v bs u inner Hc H Hn Ev Hv Hf.
  assert (Hw : with_header (header_new c true t (Definite 0)) (to_vec L o) = Ok bs) by exact H.
  destruct (with_header_element _ _ _ Hw Hn) as (v' & Ev' & _ & He & Hok).
  rewrite Ev in Ev'. injection Ev' as <-. specialize (Hok Hv).
  exists (read_back (header_new c true t (Definite 0)) (Definite (nlen v))).
  split; [|split; [|split; [reflexivity|split; [reflexivity|split; [reflexivity|]]]]].
  - apply C30_objects; [assumption|].
    exists (read_back (header_new c true t (Definite 0)) (Definite (nlen v))), v, bs, u, inner.
    split; [now rewrite app_nil_r|]. split; [now apply definite_is_element|]. repeat split; assumption.
  - apply C30_objects; [assumption|].
    exists (read_back (header_new c true t (Definite 0)) (Definite (nlen v))), v, bs, u, inner.
    split; [now rewrite app_nil_r|]. split; [assumption|]. repeat split; assumption.
  - intros Ei. unfold to_vec in *. cbn [ber_encode_object ber_encode_object_content]. rewrite Ei.
    rewrite Ev in Hw. exact Hw.
Qed.
Print Assumptions C39_any_parser.

(** With [parse_ber], for objects whose contents agree with their headers (all
    those that [parse_ber] yields, see C36). *)
Theorem C39_explicit : forall L t c o bs, c <> Universal -> well_formed L 50%nat o ->
  ber_encode_tagged_explicit L t c o = Ok bs -> nlen bs < 2 ^ 64 ->
  exists h o', parse_ber_tagged_explicit t (parse_ber L) bs = Ok ([], Obj h (CTagged c t o'))
    /\ h_class h = c /\ h_tag h = t /\ h_constructed h = true
    /\ erase o' = erase o
    /\ to_vec L (Obj h (CTagged c t o')) = Ok bs.
Proof.
  change 50%nat with MAX_RECURSION.
  intros L t c o bs Hc Hw H Hn.
  assert (Hh : with_header (header_new c true t (Definite 0)) (to_vec L o) = Ok bs) by exact H.
  destruct (with_header_ok _ _ _ Hh) as (v & hb & Ev & _ & -> & _).
  unfold nlen in Hn. rewrite app_length in Hn.
  destruct (round_trip L MAX_RECURSION o v Hw Ev) as (o' & Hp & Ee & Hv & Hok); [unfold nlen; lia|].
  destruct (C39_any_parser L t c o (parse_ber L) v (hb ++ v) [] o' Hc H) as (h & H1 & _ & H2 & H3 & H4 & H5); auto.
  { unfold nlen. rewrite app_length. lia. }
  exists h, o'. split; [assumption|]. repeat split; auto.
Qed.
Print Assumptions C39_explicit.

(** When it encodes. *)
Theorem C39_encodes : forall L t c o,
  (ber_encode_tagged_explicit L t c o = Panic <-> 30 < t \/ tag_too_large o)
  /\ (t <= 30 -> ~ tag_too_large o -> exists bs, ber_encode_tagged_explicit L t c o = Ok bs).
Proof.
  intros L t c o.
  assert (E : ber_encode_tagged_explicit L t c o = to_vec L (Obj (header_new c true t (Definite 0)) (CTagged c t o))) by reflexivity.
  assert (Ht : tag_too_large (Obj (header_new c true t (Definite 0)) (CTagged c t o)) <-> 30 < t \/ tag_too_large o).
  { split.
    - intros (h & Hw & Ht). inv Hw; [left; exact Ht|]. right. exists h. split; [|exact Ht].
      match goal with Hi : written_in _ _ |- _ => now inv Hi end.
    - intros [Ht|(h & Hw & Ht)].
      + exists (header_new c true t (Definite 0)). split; [constructor|exact Ht].
      + exists h. split; [|exact Ht]. apply written_inside. now constructor. }
  rewrite E. split; [rewrite C38_panics; exact Ht|]. intros H1 H2. apply C38_otherwise_ok. rewrite Ht. intros [H|H]; [lia|auto].
Qed.
Print Assumptions C39_encodes.

Example C39_ex : well_formed SL MAX_RECURSION (from_seq [from_int_slice [5]])
  /\ ber_encode_tagged_explicit SL 3 Application (from_seq [from_int_slice [5]]) = Ok (hx "63 05 30 03 02 01 05").
Proof.
  split; [|vm_compute; reflexivity]. apply built_well_formed. apply (built_seq SL 49). constructor; [|constructor].
  apply (built_int SL 48). bok.
Qed.
(** Nested tags, with the inner parser to match. *)
Example C39_ex_nested : exists v u inner,
  to_vec SL (Obj (header_new ContextSpecific true 2 (Definite 0)) (CTagged ContextSpecific 2 (from_int_slice [5]))) = Ok v
  /\ parse_ber_tagged_explicit 2 (parse_ber SL) v = Ok (u, inner).
Proof. exists (hx "a2 03 02 01 05"). eexists. eexists. split; vm_compute; reflexivity. Qed.

(** ** C40: IMPLICIT *)

Lemma content_read_back L d t h c k : h_length h = Definite (N.of_nat (length c)) -> N.of_nat (length c) <= MAX_OBJECT_SIZE ->
  value L (S d) (header_new Universal (h_constructed h) t (h_length h)) c k ->
  parse_ber_content L t c h (S d) = Ok ([], k).
Proof.
  intros Hl Hm Hv. unfold parse_ber_content, ber_read_element_content_as, try_read_berobjectcontent_as. rewrite Hl in *.
  destruct (MAX_OBJECT_SIZE <? N.of_nat (length c)) eqn:E; [lia|].
  unfold nlen. destruct (N.of_nat (length c) <? N.of_nat (length c)) eqn:E2; [lia|].
  pose proof (get_content_complete (S d) (header_new Universal (h_constructed h) t (Definite (N.of_nat (length c)))) c []) as Hg.
  rewrite app_nil_r in Hg. rewrite Hg by (eapply body_definite; reflexivity). cbn [bind content_octets header_new h_length].
  rewrite (value_conv _ _ _ _ _ Hv). reflexivity.
Qed.

(** [o]: universal class (the callback is told the tag only), contents that
    agree with the header; contents octets within the size limit of the crate. *)
Theorem C40_implicit : forall L t c o bs, well_formed L 50%nat o -> h_class (o_header o) = Universal ->
  ber_encode_tagged_implicit L t c o = Ok bs -> nlen bs <= 4294967295 ->
  exists h k, parse_ber_tagged_implicit t (parse_ber_content L (h_tag (o_header o))) bs = Ok ([], Obj h k)
    /\ h_class h = c /\ h_tag h = t /\ h_constructed h = h_constructed (o_header o)
    /\ erase_content k = erase_content (o_content o).
Proof.
  change 4294967295 with MAX_OBJECT_SIZE. change 50%nat with MAX_RECURSION.
  intros L t c [h0 k0] bs Hw Hc H Hn. cbn [o_header o_content] in *.
  assert (Hh : with_header (header_new c (h_constructed h0) t (Definite 0)) (ber_encode_object_content L k0) = Ok bs) by exact H.
  assert (H64 : nlen bs < 2 ^ 64) by (unfold MAX_OBJECT_SIZE in Hn; eapply N.le_lt_trans; [exact Hn|reflexivity]).
  destruct (with_header_element _ _ _ Hh H64) as (v & Ev & Hv64 & He & Hok).
  assert (Hvl : nlen v <= MAX_OBJECT_SIZE).
  { destruct He as (hb & -> & _). unfold nlen in *. rewrite app_length in Hn. lia. }
  assert (Hval : exists k, value L 50 (header_new Universal (h_constructed h0) (h_tag h0) (Definite (nlen v))) v k
             /\ bytes_ok v /\ erase_content k = erase_content k0).
  { change MAX_RECURSION with (S 49) in Hw.
    inversion Hw as [d1 h1 k1 Hc1 Ht1 Hk1|d1 h1 a Hc1 Ha Hb|d1 h1 l Hc1 Ht1 Hp Hl|d1 h1 l Hc1 Ht1 Hp Hl]; subst.
    - destruct (leaf_value L 49 (header_new Universal (h_constructed h0) (h_tag h0) (Definite (nlen v))) k0 v)
        as [Hv Hvo]; auto. exists k0. auto.
    - cbn in Ev. inv Ev. eexists. split; [apply v_unmapped; [reflexivity|]|].
      + destruct Hc1 as [Hc1|Hc1]; [contradiction|exact Hc1].
      + split; [assumption|]. cbn [erase_content a_header a_data]. rewrite Ha. unfold erase_h. cbn. now rewrite Hc.
    - cbn [ber_encode_object_content] in Ev. apply gen_many_series with (d := 49%nat) in Ev as (l' & Hs & Em & Hvo); [| |assumption].
      + exists (CSequence l'). split; [apply v_sequence; auto|]. split; [assumption|]. cbn. now rewrite Em.
      + intros o bs' Hi Hb Hbn. rewrite Forall_forall in Hl. apply encode_reads_back; auto.
    - cbn [ber_encode_object_content] in Ev. apply gen_many_series with (d := 49%nat) in Ev as (l' & Hs & Em & Hvo); [| |assumption].
      + exists (CSet l'). split; [apply v_set; auto|]. split; [assumption|]. cbn. now rewrite Em.
      + intros o bs' Hi Hb Hbn. rewrite Forall_forall in Hl. apply encode_reads_back; auto. }
  destruct Hval as (k & Hv & Hvo & Ek). specialize (Hok Hvo).
  exists (read_back (header_new c (h_constructed h0) t (Definite 0)) (Definite (nlen v))), k.
  split; [|repeat split; assumption].
  apply C31_objects; [assumption|].
  eexists _, v, bs, [], k. split; [now rewrite app_nil_r|]. split; [apply definite_is_element, He|].
  split; [reflexivity|]. split; [|reflexivity].
  apply (content_read_back L 49); [reflexivity|exact Hvl|exact Hv].
Qed.
Print Assumptions C40_implicit.

Theorem C40_encodes : forall L t c o,
  (ber_encode_tagged_implicit L t c o = Panic <-> 30 < t \/ exists h, written_in h (o_content o) /\ 30 < h_tag h).
Proof.
  intros L t c o.
  assert (E : ber_encode_tagged_implicit L t c o = to_vec L (Obj (header_new c (h_constructed (o_header o)) t (Definite 0)) (o_content o))) by reflexivity.
  rewrite E, C38_panics. split.
  - intros (h & Hw & Ht). inv Hw; [left; exact Ht|]. right. eauto.
  - intros [Ht|(h & Hw & Ht)].
    + eexists. split; [constructor|exact Ht].
    + exists h. split; [now apply written_inside|exact Ht].
Qed.
Print Assumptions C40_encodes.

Example C40_ex : well_formed SL MAX_RECURSION (from_seq [from_int_slice [5]])
  /\ ber_encode_tagged_implicit SL 3 ContextSpecific (from_seq [from_int_slice [5]]) = Ok (hx "a3 03 02 01 05").
Proof. split; [apply C39_ex|vm_compute; reflexivity]. Qed.
