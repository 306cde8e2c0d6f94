(** * Properties C11 to C13 and C47 to C50: content variants, tags, strings,
    size limit, conversion from [Any]. *)

From Coq Require Import String.
From Verif Require Import Base Asn1rs Ber Der Combinators Spec SpecValue SpecComb
  LemBase LemHeader LemSkip LemParse LemDer LemText LemTree LemNode LemComb LemFrame LemVariant
  Conformance PropFraming.
Local Open Scope string_scope.
Local Open Scope N_scope.
Local Open Scope list_scope.

(** ** C11 *)

(** What C11 says of one object [n] found in the octets [bs]. *)
Definition variant_ok (n : obj) (bs : bytes) : Prop :=
  let h := o_header n in
  (h_class h = Universal -> In (h_tag h) mapped_tags ->
     variant_tag (o_content n) = Some (h_tag h))
  /\ (~ (h_class h = Universal /\ In (h_tag h) mapped_tags) ->
      exists h' c ebs, o_content n = CUnknown (mkAny h' c) /\ same_header h h'
        /\ element 50 h c ebs /\ subslice ebs bs).

Lemma value_variant_ok L d h c k ebs bs : value L d h c k -> element 50 h c ebs -> subslice ebs bs ->
  variant_ok (Obj h k) bs.
Proof.
  intros Hv He Hs. destruct (value_variant _ _ _ _ _ Hv) as [H1 H2]. split; cbn [o_header o_content]; auto.
  intros Hn. specialize (H2 Hn). subst k. exists h, c, ebs. repeat split; auto.
Qed.

Theorem C11_parse_ber : forall L i d r o n, bytes_ok i ->
  parse_ber_recursive L i d = Ok (r, o) -> node n o ->
  exists bs, i = bs ++ r /\ variant_ok n bs.
Proof.
  intros L i d r o n Hok H Hn. apply parse_ber_iff in H as (bs & c & -> & He & Hv); [|assumption].
  exists bs. split; [reflexivity|]. destruct o as [h k]. cbn [o_header o_content] in *.
  destruct (value_nodes _ _ _ _ _ _ Hv Hn) as [->|(bs2 & c2 & d2 & Hs2 & He2 & Hv2 & _)].
  - eapply value_variant_ok; eauto using subslice_refl.
  - destruct n as [hn kn]. eapply value_variant_ok; eauto.
    eapply subslice_trans; [exact Hs2|]. eapply element_content_sub; eauto.
Qed.
Print Assumptions C11_parse_ber.

Theorem C11_parse_der : forall L i d r o n, no_unknown_tag L -> bytes_ok i ->
  parse_der_recursive L i d = Ok (r, o) -> node n o ->
  exists bs, i = bs ++ r /\ variant_ok n bs.
Proof.
  intros L i d r o n HL Hok H Hn.
  apply parse_der_element in H as (hb & c & -> & Hh & Hl & Hm & Ho); [|assumption].
  exists (hb ++ c). split; [now rewrite app_assoc|].
  apply bytes_ok_app in Hok as [_ Hok]. apply bytes_ok_app in Hok as [Hok _].
  assert (He : element 50 (o_header o) c (hb ++ c)) by now apply (definite_makes_element 49).
  destruct o as [h k]. cbn [o_header] in *.
  destruct (node_inv _ _ _ Hn) as [->|(x & Hx & Hnx)].
  - destruct (der_object_cases _ _ _ _ _ HL Ho) as [(k' & Hc & Hv & E)|(Hc & _ & E)]; inv E.
    + destruct (der_value_value _ _ _ _ _ Hok Hl Hv) as [(Hb & H3 & Hp)|(Hv' & _)].
      * destruct Hb as (u & data & -> & _ & -> & _). split; cbn [o_header o_content]; intros.
        -- now rewrite H3.
        -- exfalso. apply H. rewrite H3. split; [assumption|]. cbn; tauto.
      * destruct (value_variant _ _ _ _ _ Hv') as [H1 H2].
        cbn [plain header_new h_class h_tag] in H1, H2. split; cbn [o_header o_content]; intros.
        -- now apply H1.
        -- exists (plain h), c, (hb ++ c). rewrite H2 by tauto.
           repeat split; auto using subslice_refl.
    + split; cbn [o_header o_content]; intros; [congruence|].
      exists h, c, (hb ++ c). repeat split; auto using subslice_refl.
  - destruct (der_object_below _ _ _ _ _ _ _ Hok Hl Ho Hx Hnx) as (bs2 & c2 & d2 & Hs2 & He2 & Hv2 & _).
    destruct n as [hn kn]. eapply value_variant_ok; eauto.
    eapply subslice_trans; [exact Hs2|]. apply subslice_app_r.
Qed.
Print Assumptions C11_parse_der.

(** [Optional] and [Tagged] never come out of the generic parsers. *)
Theorem C11_no_wrappers : forall n bs, variant_ok n bs ->
  (forall x, o_content n <> COptional x) /\ (forall c t x, o_content n <> CTagged c t x).
Proof.
  intros n bs [H1 H2].
  assert (D : h_class (o_header n) = Universal /\ In (h_tag (o_header n)) mapped_tags
              \/ ~ (h_class (o_header n) = Universal /\ In (h_tag (o_header n)) mapped_tags)).
  { destruct (in_dec N.eq_dec (h_tag (o_header n)) mapped_tags) as [Hi|Hi]; [|right; tauto].
    destruct (h_class (o_header n)); [left|right; intros [? _]..]; try discriminate; auto. }
  split; intros; intros E; (destruct D as [[Hc Hi]|D];
    [specialize (H1 Hc Hi); rewrite E in H1; discriminate
    |destruct (H2 D) as (h' & c' & _ & E' & _); congruence]).
Qed.
Print Assumptions C11_no_wrappers.

(** A private-class element and the unmapped universal tag 8 inside a SEQUENCE;
    the same under parse_der. *)
Example C11_ex : exists h1 h2 h3 r,
  parse_ber SL (hx "30 08 c1 01 05 08 00 02 01 07") = Ok (r, Obj h1 (CSequence
    [Obj h2 (CUnknown (mkAny h2 [5])); Obj h3 (CUnknown (mkAny h3 []));
     Obj (mkHeader Universal false 2 (Definite 1) (Some [2])) (CInteger [7])]))
  /\ h_class h2 = Private /\ h_tag h3 = 8.
Proof. do 4 eexists. vm_compute. auto. Qed.
Example C11_ex_der : exists h h',
  parse_der SL (hx "28 02 05 00") = Ok ([], Obj h (CUnknown (mkAny h' [5; 0])))
  /\ h_raw_tag h = Some [40] /\ h_raw_tag h' = None.
Proof. do 2 eexists. split; [vm_compute; reflexivity|]. split; vm_compute; reflexivity. Qed.

(** ** C12 *)

Theorem C12_tag_requested : forall L i t r o,
  (parse_ber_with_tag L i t = Ok (r, o) -> h_tag (o_header o) = t)
  /\ (parse_der_with_tag L i t = Ok (r, o) -> h_tag (o_header o) = t).
Proof.
  intros. split; intros H.
  - apply with_tag_inv in H as (i1 & h & c & _ & Ht & -> & _). exact Ht.
  - apply der_with_tag_iff in H as (h & c & k & _ & _ & Ht & -> & _). exact Ht.
Qed.
Print Assumptions C12_tag_requested.

Theorem C12_other_tag : forall L h hb r t, header_octets h hb -> h_tag h <> t ->
  parse_ber_with_tag L (hb ++ r) t = Err (Error (UnexpectedTag (Some t) (h_tag h)))
  /\ (h_length h <> Indefinite ->
      parse_der_with_tag L (hb ++ r) t = Err (Error (UnexpectedTag (Some t) (h_tag h)))).
Proof.
  intros L h hb r t Hh Ht. apply N.eqb_neq in Ht. split; intros.
  - unfold parse_ber_with_tag, ber_read_element_header.
    rewrite (header_from_ber_complete _ _ _ Hh). cbn [bind]. unfold assert_tag. now rewrite Ht.
  - unfold parse_der_with_tag, der_read_element_header.
    rewrite (header_from_der_complete _ _ _ Hh H). cbn [bind]. unfold assert_tag. now rewrite Ht.
Qed.
Print Assumptions C12_other_tag.

Theorem C12_agrees_ber : forall L i t r o, bytes_ok i ->
  parse_ber_with_tag L i t = Ok (r, o) -> h_class (o_header o) = Universal ->
  exists k, parse_ber L i = Ok (r, Obj (o_header o) k) /\ same_content k (o_content o).
Proof.
  intros L i t r o Hok H Hc. apply with_tag_element in H as (bs & c & -> & He & Ht & Hv & _); [|assumption].
  destruct (value_plain_same _ _ _ _ _ Hv Hc) as (k & Hv' & Hs). exists k. split; [|exact Hs].
  apply parse_ber_iff; [assumption|]. exists bs, c. auto.
Qed.
Print Assumptions C12_agrees_ber.

(** For DER the sizes above the limit have to be excluded: [parse_der] rejects
    them, [parse_der_with_tag] does not check the size of a BIT STRING (C49). *)
Theorem C12_agrees_der : forall L i t r o n, bytes_ok i ->
  parse_der_with_tag L i t = Ok (r, o) -> h_class (o_header o) = Universal ->
  h_length (o_header o) = Definite n -> n <= 4294967295 ->
  parse_der L i = Ok (r, o).
Proof.
  change 4294967295 with MAX_OBJECT_SIZE.
  intros L i t r o n Hok H Hc Hl Hm. apply der_with_tag_iff in H as (h & c & k & Hh & Hl' & Ht & -> & Hv).
  cbn [o_header] in *. apply parse_der_iff. exists h, c. repeat split; auto; [congruence|].
  now apply do_value.
Qed.
Print Assumptions C12_agrees_der.

Example C12_ex : exists o, parse_ber_with_tag SL sample 16 = Ok (hx "ff 00", o)
  /\ h_class (o_header o) = Universal /\ parse_ber SL sample = Ok (hx "ff 00", o)
  /\ parse_der_with_tag SL sample 16 = Ok (hx "ff 00", o)
  /\ parse_ber_with_tag SL sample 17 = Err (Error (UnexpectedTag (Some 17) 16)).
Proof. eexists. vm_compute. auto. Qed.

(** ** C13 is false: [parse_*_with_tag] and everything built on it ignore the class *)

Theorem C13_refuted : exists i o1 o2 o3 o4 v,
  bytes_ok i
  /\ parse_ber_integer SL i = Ok ([], o1) /\ h_class (o_header o1) <> Universal
  /\ parse_der_integer SL i = Ok ([], o1)
  /\ parse_ber_u32 i = Ok ([], v)
  /\ parse_ber_sequence SL (hx "b0 00") = Ok ([], o2) /\ h_class (o_header o2) <> Universal
  /\ parse_ber_sequence_of (parse_ber SL) (hx "b0 00") = Ok ([], o3)
  /\ parse_der_sequence_of (parse_der SL) (hx "b0 00") = Ok ([], o4).
Proof.
  exists (hx "82 01 05"). do 5 eexists.
  split; [bok|]. vm_compute. repeat split; discriminate.
Qed.
Print Assumptions C13_refuted.

(** What holds: the returned header carries the class of the identifier octet, so
    a caller can check it; the container combinators pass that header to the
    callback (C33). *)
Theorem C13_partial : forall L b i t r o, bytes_ok (b :: i) ->
  parse_ber_with_tag L (b :: i) t = Ok (r, o) \/ parse_der_with_tag L (b :: i) t = Ok (r, o) ->
  b / 64 = class_code (h_class (o_header o)).
Proof.
  intros L b i t r o Hok H.
  assert (Hh : exists hb rest, b :: i = hb ++ rest /\ header_octets (o_header o) hb).
  { destruct H as [H|H].
    - apply with_tag_element in H as (bs & c & E & (hb & bb & -> & Hh & _) & _); [|assumption].
      exists hb, (bb ++ r). rewrite app_assoc. auto.
    - apply der_with_tag_element in H as (bs & c & E & (hb & -> & Hh & _) & _); [|assumption].
      exists hb, (c ++ r). rewrite app_assoc. auto. }
  destruct Hh as (hb & rest & E & ib & lb & -> & Hi & _).
  assert (Hl : forall low, low < 32 ->
     leading_octet (h_class (o_header o)) (h_constructed (o_header o)) low / 64
     = class_code (h_class (o_header o))).
  { intros low Hlow. unfold leading_octet.
    destruct (h_class (o_header o)), (h_constructed (o_header o)); cbn [class_code]; lia. }
  inv Hi; cbn [app] in E; injection E as -> _; apply Hl; lia.
Qed.
Print Assumptions C13_partial.

(** ** C47 *)

Definition charset_ok (n : obj) : Prop :=
  match o_content n with
  | CStr KNumeric s => h_constructed (o_header n) = false /\ Forall numeric_permitted s
  | CStr KPrintable s => h_constructed (o_header n) = false /\ Forall printable_permitted s
  | CStr KVisible s => h_constructed (o_header n) = false /\ Forall visible_permitted s
  | CStr KIA5 s => h_constructed (o_header n) = false /\ Forall ia5_permitted s
  | CStr _ _ => h_constructed (o_header n) = false
  | _ => True
  end.

Lemma value_charset L d h h' c k : value L d h' c k -> h_constructed h = h_constructed h' ->
  charset_ok (Obj h k).
Proof.
  intros Hv Hc. inv Hv; cbn; auto.
  match goal with k0 : strkind |- _ => destruct k0; cbn in *; try split; try congruence; auto end.
Qed.

(** Any predicate that holds of every value, and of undecoded elements, holds at
    every node. *)
Lemma parse_ber_nodes L (P : obj -> Prop) :
  (forall d h h' c k, value L d h' c k -> h_constructed h = h_constructed h' -> P (Obj h k)) ->
  forall i d r o n, bytes_ok i -> parse_ber_recursive L i d = Ok (r, o) -> node n o -> P n.
Proof.
  intros HP i d r o n Hok H Hn. apply parse_ber_iff in H as (bs & c & -> & He & Hv); [|assumption].
  destruct o as [h k]. cbn [o_header o_content] in *.
  destruct (value_nodes _ _ _ _ _ _ Hv Hn) as [->|(bs2 & c2 & d2 & Hs2 & He2 & Hv2 & _)]; eauto.
  destruct n as [hn kn]. eauto.
Qed.

Lemma parse_der_nodes L (P : obj -> Prop) :
  (forall d h h' c k, value L d h' c k -> h_constructed h = h_constructed h' -> P (Obj h k)) ->
  (forall h a, P (Obj h (CUnknown a))) ->
  forall i d r o n, bytes_ok i -> parse_der_recursive L i d = Ok (r, o) -> node n o -> P n.
Proof.
  intros HP HU i d r o n Hok H Hn.
  apply parse_der_element in H as (hb & c & -> & Hh & Hl & Hm & Ho); [|assumption].
  apply bytes_ok_app in Hok as [_ Hok]. apply bytes_ok_app in Hok as [Hok _].
  destruct o as [h k]. cbn [o_header] in *.
  destruct (node_inv _ _ _ Hn) as [->|(x & Hx & Hnx)].
  - inv Ho; auto. match goal with Hv : der_value _ _ _ _ _ |- _ =>
      destruct (der_value_value _ _ _ _ _ Hok Hl Hv) as [(Hb & H3 & Hp)|(Hv' & _)] end.
    + apply (HP 1%nat h h c); [|reflexivity]. now apply der_bits_value.
    + apply (HP d h (plain h) c); auto.
  - destruct (der_object_below _ _ _ _ _ _ _ Hok Hl Ho Hx Hnx) as (bs2 & c2 & d2 & _ & _ & Hv2 & _).
    destruct n as [hn kn]. eauto.
Qed.

(** [visible_permitted] includes DEL (7F), which is not a character of
    VisibleString (X.680 table 8: graphic characters and space); hence [_partial]. *)
Theorem C47_charset_partial : forall L i d r o n, bytes_ok i ->
  parse_ber_recursive L i d = Ok (r, o) \/ parse_der_recursive L i d = Ok (r, o) ->
  node n o -> charset_ok n.
Proof.
  intros L i d r o n Hok [H|H] Hn.
  - eapply parse_ber_nodes; eauto using value_charset.
  - eapply parse_der_nodes; eauto using value_charset. intros. exact I.
Qed.
Print Assumptions C47_charset_partial.

Theorem C47_refuted : exists i o, parse_ber SL i = Ok ([], o) /\ parse_der SL i = Ok ([], o)
  /\ o_content o = CStr KVisible [127].
Proof. exists (hx "1a 01 7f"). eexists. repeat split; vm_compute; reflexivity. Qed.
Print Assumptions C47_refuted.

(** A PrintableString and a NumericString in a SEQUENCE; '*' and 'a' are not
    permitted in them. *)
Example C47_ex : (exists o, parse_ber SL (hx "30 07 13 02 41 2e 12 01 37") = Ok ([], o))
  /\ parse_ber SL (hx "13 01 2a") = Err (Error StringInvalidCharset)
  /\ parse_der SL (hx "12 01 61") = Err (Error StringInvalidCharset)
  /\ parse_ber SL (hx "33 00") = Err (Error Unsupported).
Proof. split; [eexists|]; vm_compute; auto. Qed.

(** ** C48 *)

Definition text_ok (n : obj) : Prop :=
  (forall s, as_str (o_content n) = Ok s -> utf8_text s)
  /\ (forall s, o_content n = CBmpString s -> utf16be_text s /\ Nat.even (length s) = true).

Lemma utf16be_even s : utf16be_text s -> Nat.even (length s) = true.
Proof.
  intros (cps & _ & ->). induction (flat_map utf16_encode cps) as [|u l IH]; [reflexivity|exact IH].
Qed.

Lemma value_text L d h h' c k : value L d h' c k -> h_constructed h = h_constructed h' ->
  text_ok (Obj h k).
Proof.
  intros Hv _. inv Hv; split; cbn; intros s E; try discriminate; inv E; auto using utf16be_even.
Qed.

Theorem C48_text : forall L i d r o n, bytes_ok i ->
  parse_ber_recursive L i d = Ok (r, o) \/ parse_der_recursive L i d = Ok (r, o) ->
  node n o -> text_ok n.
Proof.
  intros L i d r o n Hok [H|H] Hn.
  - eapply parse_ber_nodes; eauto using value_text.
  - eapply parse_der_nodes; eauto using value_text. intros h a; split; cbn; discriminate.
Qed.
Print Assumptions C48_text.

(** Every well-formed UTF8String and BMPString is accepted. *)
Theorem C48_accepts : forall L d h c bs r, bytes_ok (bs ++ r) -> definite_element h c bs ->
  h_class h = Universal -> h_constructed h = false ->
  (h_tag h = 12 -> utf8_text c ->
     parse_ber_recursive L (bs ++ r) (S d) = Ok (r, Obj h (CStr KUTF8 c)))
  /\ (h_tag h = 30 -> utf16be_text c ->
     parse_ber_recursive L (bs ++ r) (S d) = Ok (r, Obj h (CBmpString c)))
  /\ (h_tag h = 12 -> utf8_text c -> nlen c <= 4294967295 ->
     parse_der_recursive L (bs ++ r) (S d) = Ok (r, Obj h (CStr KUTF8 c))).
Proof.
  change 4294967295 with MAX_OBJECT_SIZE.
  intros L d h c bs r Hok He Hc Hp. repeat split; intros Ht Hu.
  - apply parse_ber_iff; [assumption|]. exists bs, c. split; [reflexivity|]. cbn [o_header o_content].
    split; [now apply definite_is_element|]. now apply v_string.
  - apply parse_ber_iff; [assumption|]. exists bs, c. split; [reflexivity|]. cbn [o_header o_content].
    split; [now apply definite_is_element|]. now apply v_bmp_string.
  - intros Hm. apply parse_der_iff. destruct He as (hb & -> & Hh & Hl). exists h, c.
    split; [rewrite <- app_assoc; apply header_from_der_complete; congruence|]. repeat split; auto.
    apply do_value; [assumption|]. apply dv_ber; auto.
    + rewrite Ht. discriminate.
    + rewrite Ht, Hp. repeat split; intros; try discriminate. destruct H; discriminate.
    + apply value_conv. apply v_string; auto.
Qed.
Print Assumptions C48_accepts.

(** "é€😀" accepted; overlong, surrogate and truncated sequences are not; BMP with
    a surrogate pair accepted, a lone surrogate or an odd length is not. *)
Example C48_ex : (exists o, parse_ber SL (hx "0c 09 c3 a9 e2 82 ac f0 9f 98 80") = Ok ([], o))
  /\ map (fun s => parse_ber SL (hx s)) ["0c 02 c0 80"; "0c 03 ed a0 80"; "0c 01 c3"]%string
     = repeat (Err (Error StringInvalidCharset)) 3
  /\ (exists o, parse_ber SL (hx "1e 04 d8 3d de 00") = Ok ([], o))
  /\ parse_ber SL (hx "1e 02 d8 00") = Err (Error StringInvalidCharset)
  /\ parse_ber SL (hx "1e 01 41") = Err (Error Unsupported).
Proof. repeat split; try eexists; vm_compute; reflexivity. Qed.

(** ** C49 *)

Theorem C49_limit_partial : forall L i d t r o n pc k,
  4294967295 < n ->
  (h_length (o_header o) = Definite n ->
     parse_ber_with_tag L i t <> Ok (r, o) /\ parse_der_recursive L i d <> Ok (r, o))
  /\ ber_read_element_content_as L i t (Definite n) pc d <> Ok (r, k)
  /\ (t <> 3 -> der_read_element_content_as L i t (Definite n) pc d <> Ok (r, k)).
Proof.
  change 4294967295 with MAX_OBJECT_SIZE.
  intros L i d t r o n pc k Hn. split; [|split].
  - intros Hl. split; intros H.
    + apply with_tag_inv in H as (i1 & h & c & _ & _ & -> & Hc).
      apply content_as_inv in Hc as (data & _ & _ & Hm). specialize (Hm _ Hl). lia.
    + apply parse_der_iff in H as (h & c & _ & Hl' & Hm & Ho).
      rewrite (der_object_header _ _ _ _ _ Ho), Hl' in Hl. inv Hl. lia.
  - intros H. apply content_as_inv in H as (data & _ & _ & Hm). specialize (Hm _ eq_refl). lia.
  - intros Ht H.
    destruct (der_content_as_inv L i t (Definite n) pc d) as (c & r' & -> & Hl & [[? _]|(_ & _ & E)]);
      [left; eauto|congruence|].
    rewrite E in H. apply content_as_inv in H as (data & _ & _ & Hm). specialize (Hm _ eq_refl). lia.
Qed.
Print Assumptions C49_limit_partial.

(** The error reported is [InvalidLength], whatever follows the header. *)
Theorem C49_error_partial : forall L h hb r d n t pc i, header_octets h hb ->
  h_length h = Definite n -> 4294967295 < n ->
  parse_ber_with_tag L (hb ++ r) (h_tag h) = Err (Error InvalidLength)
  /\ parse_der_recursive L (hb ++ r) d = Err (Error InvalidLength)
  /\ ber_read_element_content_as L i t (Definite n) pc d = Err (Error InvalidLength).
Proof.
  change 4294967295 with MAX_OBJECT_SIZE.
  intros L h hb r d n t pc i Hh Hl Hn.
  assert (Hc : forall i t pc d, ber_read_element_content_as L i t (Definite n) pc d = Err (Error InvalidLength)).
  { intros. unfold ber_read_element_content_as, try_read_berobjectcontent_as.
    now replace (MAX_OBJECT_SIZE <? n) with true by lia. }
  split; [|split; [|apply Hc]].
  - unfold parse_ber_with_tag, ber_read_element_header.
    rewrite (header_from_ber_complete _ _ _ Hh). cbn [bind]. unfold assert_tag.
    rewrite N.eqb_refl. cbn [map_err bind]. now rewrite Hl, Hc.
  - unfold parse_der_recursive, der_read_element_header.
    rewrite (header_from_der_complete _ _ _ Hh) by congruence. cbn [bind]. rewrite Hl.
    now replace (MAX_OBJECT_SIZE <? n) with true by lia.
Qed.
Print Assumptions C49_error_partial.

(** The DER content reader does not check the size of a BIT STRING: a content of
    2^32 octets is accepted (so the claim is false for
    [der_read_element_content_as] and [parse_der_bitstring]). *)
Theorem C49_refuted : exists n c k, 4294967295 < n /\ nlen c = n
  /\ der_read_element_content_as SL c 3 (Definite n) false 50 = Ok ([], k)
  /\ exists hb o, parse_der_bitstring SL (hb ++ c) = Ok ([], o).
Proof.
  change 4294967295 with MAX_OBJECT_SIZE.
  assert (Hcons : exists c data, nlen c = 2 ^ 32 /\ c = 0 :: data /\ Forall (fun b => b = 0) data).
  { assert (Hm : exists m, m = 2 ^ 32 /\ 0 < m) by (eexists; split; reflexivity).
    destruct Hm as (m & <- & Hm).
    exists (0 :: repeat 0 (N.to_nat (m - 1))), (repeat 0 (N.to_nat (m - 1))).
    split; [unfold nlen; cbn [length]; rewrite repeat_length; lia|]. split; [reflexivity|].
    apply Forall_forall. intros x Hx. now apply repeat_spec in Hx. }
  destruct Hcons as (c & data & Hlen & Ec & Hz).
  assert (Hbits : der_bits c (CBitString 0 data)).
  { exists 0, data. repeat split; auto; [lia|]. intros _.
    assert (Hlast : last data 0 = 0).
    { clear -Hz. induction Hz as [|x l Hx Hl IH]; [reflexivity|]. cbn. destruct l; auto. }
    rewrite Hlast. reflexivity. }
  assert (Hd : forall h, h_tag h = 3 -> h_constructed h = false -> h_length h = Definite (2 ^ 32) ->
    der_read_element_content_as SL c (h_tag h) (h_length h) (h_constructed h) 50 = Ok ([], CBitString 0 data)).
  { intros h Ht Hp Hl. apply der_content_ok. exists c. split; [now rewrite app_nil_r|].
    split; [congruence|]. now apply dv_bits. }
  exists (2 ^ 32), c, (CBitString 0 data). split; [reflexivity|]. split; [exact Hlen|]. split.
  - exact (Hd (header_new Universal false 3 (Definite (2 ^ 32))) eq_refl eq_refl eq_refl).
  - exists (hx "03 85 01 00 00 00 00"). eexists. unfold parse_der_bitstring. apply der_with_tag_iff.
    eexists (mkHeader Universal false 3 (Definite (2 ^ 32)) (Some [3])), c, (CBitString 0 data).
    split.
    + rewrite app_nil_r. apply header_from_der_complete; [|discriminate].
      exists [3], (hx "85 01 00 00 00 00"). split; [reflexivity|]. cbn [h_class h_constructed h_tag h_length h_raw_tag].
      split; [exact (ident_low Universal false 3 eq_refl)|]. split; [|split; [reflexivity|discriminate]].
      exact (length_long (hx "01 00 00 00 00") ltac:(vm_compute; lia) ltac:(bok) ltac:(vm_compute; reflexivity)).
    + cbn [h_length h_tag]. rewrite Hlen. repeat split. now apply dv_bits.
Qed.
Print Assumptions C49_refuted.

Example C49_ex : exists h, header_octets h (hx "04 85 01 00 00 00 00") /\ h_length h = Definite (2 ^ 32).
Proof.
  eexists (mkHeader Universal false 4 (Definite (2 ^ 32)) (Some [4])). split; [|reflexivity].
  exists [4], (hx "85 01 00 00 00 00"). split; [reflexivity|]. cbn [h_class h_constructed h_tag h_length h_raw_tag].
  split; [exact (ident_low Universal false 4 eq_refl)|]. split; [|split; [reflexivity|discriminate]].
  exact (length_long (hx "01 00 00 00 00") ltac:(vm_compute; lia) ltac:(bok) ltac:(vm_compute; reflexivity)).
Qed.

(** ** C50 is false: the class is ignored, and the content of an
    indefinite-length [Any] no longer has its end-of-contents *)

Theorem C50_refuted : exists i a o j b o',
  any_from_ber i = Ok ([], a) /\ parse_ber SL i = Ok ([], o) /\ (exists e, try_from_any SL a = Err e)
  /\ any_from_ber j = Ok ([], b) /\ parse_ber SL j = Ok ([], o')
  /\ exists o'', try_from_any SL b = Ok o'' /\ o_content o'' <> o_content o'.
Proof.
  exists (hx "30 80 02 01 05 00 00"). do 2 eexists. exists (hx "82 01 05"). do 2 eexists.
  split; [vm_compute; reflexivity|]. split; [vm_compute; reflexivity|].
  split; [eexists; vm_compute; reflexivity|]. split; [vm_compute; reflexivity|].
  split; [vm_compute; reflexivity|]. eexists. split; [vm_compute; reflexivity|]. vm_compute. discriminate.
Qed.
Print Assumptions C50_refuted.

(** What holds: agreement on universal-class elements of definite length within
    the size limit. *)
Theorem C50_partial : forall L i r a, bytes_ok i -> any_from_ber i = Ok (r, a) ->
  h_class (a_header a) = Universal -> (exists n, h_length (a_header a) = Definite n /\ n <= 4294967295) ->
  (forall o, try_from_any L a = Ok o ->
     exists k, parse_ber L i = Ok (r, Obj (a_header a) k) /\ o_header o = a_header a
       /\ same_content k (o_content o))
  /\ (forall o, parse_ber L i = Ok (r, o) ->
     exists k, try_from_any L a = Ok (Obj (a_header a) k) /\ o_header o = a_header a
       /\ same_content (o_content o) k).
Proof.
  change 4294967295 with MAX_OBJECT_SIZE.
  intros L i r a Hok Ha Hc (n & Hl & Hm).
  pose proof (any_from_ber_ok _ _ _ Ha) as Hany. specialize (Hany _ Hl).
  pose proof Ha as Ha'. apply any_from_ber_sub in Ha' as (bs & -> & Hsub & _).
  apply bytes_ok_app in Hok as [Hok _].
  assert (Hokd : bytes_ok (a_data a)) by (eapply subslice_ok; eauto).
  destruct a as [h data]. cbn [a_header a_data] in *.
  assert (Hread : forall k, ber_read_element_content_as L data (h_tag h) (h_length h) (h_constructed h) MAX_RECURSION
                    = Ok ([], k) <-> value L 50 (plain h) data k).
  { intros k. split; intros H.
    - apply content_as_inv in H as (data' & Hg & Hv & _).
      rewrite Hl in *.
      apply (get_content_definite_inv _ _ _ _ _ n) in Hg as (E & _ & _); [|reflexivity].
      rewrite app_nil_r in E. subst data'.
      apply conv_value in Hv; [|intros m Em; cbn [a_header a_data h_length header_new] in Em |- *; congruence|exact Hokd].
      unfold plain. rewrite Hl. exact Hv.
    - eapply (content_as_intro _ _ _ _ _ _ _ _ data).
      + rewrite <- (app_nil_r data) at 1. apply get_content_definite. cbn [h_length header_new]. congruence.
      + apply value_conv in H. exact H.
      + intros m Em. congruence. }
  assert (Hrem : forall r' k, ber_read_element_content_as L data (h_tag h) (h_length h) (h_constructed h) MAX_RECURSION
                    = Ok (r', k) -> r' = []).
  { intros r' k H. apply content_as_inv in H as (data' & Hg & _ & _). rewrite Hl in Hg.
    apply (get_content_definite_inv _ _ _ _ _ n) in Hg as (E & Hn & _); [|reflexivity].
    apply (f_equal nlen) in E. rewrite nlen_app in E. destruct r'; [reflexivity|].
    rewrite nlen_cons in E. lia. }
  split; intros o H.
  - unfold try_from_any in H. cbn [a_header a_data] in H.
    destruct (ber_read_element_content_as L data (h_tag h) (h_length h) (h_constructed h) MAX_RECURSION)
      as [[r' k]| | |] eqn:E; try discriminate. cbn [map_err bind] in H. inv H.
    pose proof (Hrem _ _ eq_refl) as ->. clear E. pose proof (proj1 (Hread k) eq_refl) as E. cbn [o_header o_content].
    destruct (value_plain_same _ _ _ _ _ E Hc) as (k' & Hv & Hs). exists k'. split; [|auto].
    eapply parse_ber_intro; [exact Ha|]. apply value_conv. exact Hv.
  - apply parse_ber_inv in H as (a' & Ha' & Hv). rewrite Ha in Ha'. inv Ha'.
    pose proof (conv_header _ _ _ _ Hv) as Hh. cbn [a_header] in Hh.
    apply conv_value in Hv; [|intros m Em; cbn [a_header a_data h_length header_new] in Em |- *; congruence|exact Hokd].
    cbn [a_header a_data] in Hv.
    destruct (value_to_plain _ _ _ _ _ Hv Hc) as [[Hv' _]|[E Hv']]; apply Hread in Hv'.
    + eexists. unfold try_from_any. cbn [a_header a_data]. rewrite Hv'. cbn [map_err bind].
      split; [reflexivity|]. split; [auto|]. now left.
    + eexists. unfold try_from_any. cbn [a_header a_data]. rewrite Hv'. cbn [map_err bind].
      split; [reflexivity|]. split; [auto|]. right. exists h, (plain h), data. auto using plain_same.
Qed.
Print Assumptions C50_partial.

Example C50_ex : exists a o, any_from_ber (hx "30 03 02 01 05 ff") = Ok ([255], a)
  /\ try_from_any SL a = Ok o /\ parse_ber SL (hx "30 03 02 01 05 ff") = Ok ([255], o).
Proof. do 2 eexists. split; [vm_compute; reflexivity|]. split; vm_compute; reflexivity. Qed.
