(** * C119: implicitly tagged values in the documentation and in the tests *)

From Coq Require Import String.
From Verif Require Import Base Asn1rs Ber Der Combinators Typed ImplicitPrograms Conformance Spec SpecValue SpecComb SpecTyped SpecAbstract SpecSchema SpecError.
From Verif Require Import LemBase LemHeader LemSkip LemParse LemDer LemComb LemTree LemNode LemAbstract.
From Verif Require Import PropTotal PropComb PropTyped PropContent PropSchema.
From Verif Require Import SpecAccept PropAccept PropPrograms PropDoc.
Local Open Scope string_scope. Local Open Scope N_scope. Local Open Scope list_scope.

(** An element of definite length with tag number [t], of any class, is at the front of
    [i]; its contents are [c]. *)
Definition implicit_at (t : tag) (i r : bytes) (h : header) (c : bytes) : Prop :=
  exists bs, i = bs ++ r /\ definite_element h c bs /\ h_tag h = t /\ N.of_nat (length c) <= 4294967295.

(** ** Reading by hand *)

(** Header and contents read one after the other: the element may have any class, tag
    number and length form; its contents are taken as the type told. *)
Theorem C119_by_hand : forall L u i r k, bytes_ok i ->
  (implicit_by_hand L u i = Ok (r, k)
   <-> exists bs h c, i = bs ++ r /\ element 50 h c bs
         /\ (forall n, h_length h = Definite n -> n <= 4294967295)
         /\ value L 50 (mkHeader Universal (h_constructed h) u (h_length h) None) c k).
Proof.
  intros L u i r k Hok. unfold implicit_by_hand. split.
  - intros H. bind_inv H. destruct a as [i1 h].
    apply header_from_ber_sound in E as (hb & -> & Hh); [|exact Hok]. apply bytes_ok_app in Hok as [_ Hok].
    apply C70_ber_content in H as (b & -> & Hb & Hm & Hv); [|exact Hok].
    exists (hb ++ b), h, (content_octets h b). split; [now rewrite app_assoc|]. split; [|split; assumption].
    exists hb, b. split; [reflexivity|]. split; [exact Hh|]. split; [|reflexivity].
    inversion Hb; subst; [eapply body_definite|eapply body_indefinite]; eauto.
  - intros (bs & h & c & -> & (hb & b & -> & Hh & Hb & ->) & Hm & Hv).
    rewrite <- app_assoc. unfold ber_read_element_header. rewrite (header_from_ber_complete _ _ _ Hh). cbn [bind].
    apply C70_ber_content.
    + rewrite <- app_assoc in Hok. now apply bytes_ok_app in Hok as [_ Hok].
    + exists b. split; [reflexivity|]. split; [|split; assumption].
      inversion Hb; subst; [eapply body_definite|eapply body_indefinite]; eauto.
Qed.
Print Assumptions C119_by_hand.

(** The combinator returns the same contents and rest, for elements of definite length
    with the tag number it is given, and nothing else. *)
Theorem C119_combinator : forall L t u i r h k, bytes_ok i ->
  (parse_ber_implicit i t (parse_ber_content L u) = Ok (r, Obj h k)
   <-> implicit_by_hand L u i = Ok (r, k)
       /\ h_tag h = t /\ h_length h <> Indefinite /\ exists c, ber_read_element_header i = Ok (c, h)).
Proof.
  intros L t u i r h k Hok. unfold parse_ber_implicit. rewrite (C70_implicit_ber_partial L t u i r (Obj h k) Hok).
  cbn [o_header o_content]. rewrite (C119_by_hand L u i r k Hok). split.
  - intros (bs & c & -> & He & Ht & Hn & Hv). pose proof He as (hb & -> & Hh & Hl).
    split.
    + exists (hb ++ c), h, c. split; [reflexivity|]. split.
      { exists hb, c. split; [reflexivity|]. split; [exact Hh|]. split; [eapply body_definite; eauto|].
        unfold content_octets. now rewrite Hl. }
      split; [|exact Hv]. intros n En. rewrite Hl in En. now inv En.
    + split; [exact Ht|]. split; [congruence|]. exists (c ++ r). rewrite <- app_assoc.
      exact (header_from_ber_complete _ _ _ Hh).
  - intros ((bs & h' & c & -> & He & Hm & Hv) & Ht & Hl & x & Hr).
    destruct He as (hb & b & -> & Hh & Hb & ->).
    rewrite <- app_assoc in Hr. unfold ber_read_element_header in Hr. rewrite (header_from_ber_complete _ _ _ Hh) in Hr. inv Hr.
    inversion Hb as [d0 h0 n b0 Hn En|]; [subst|congruence].
    exists (hb ++ b), b. unfold content_octets in *. rewrite Hn in *.
    split; [reflexivity|]. split; [exists hb; auto|]. split; [reflexivity|]. split; [now apply Hm|exact Hv].
Qed.
Print Assumptions C119_combinator.

(** ** The parsers *)

Lemma implicit_same t f i r o : bytes_ok i ->
  (parse_ber_implicit i t f = Ok (r, o)
   <-> exists h c bs u k, i = bs ++ r /\ element 50 h c bs /\ h_tag h = t /\ f c h 50%nat = Ok (u, k) /\ o = Obj h k).
Proof. intros Hok. exact (proj1 (C31_objects t f i r o Hok)). Qed.

(** With a callback that agrees with [parse_ber_content] on elements of definite length,
    and fails where the length is indefinite. *)
Lemma implicit_octets_iff L u t i r h k (Q : header -> bytes -> Prop) (K : bytes -> content) : bytes_ok i ->
  (forall h c k, value L 50 (mkHeader Universal (h_constructed h) u (h_length h) None) c k <-> Q h c /\ k = K c) ->
  (parse_ber_implicit i t (parse_ber_content L u) = Ok (r, Obj h k)
   <-> exists c, implicit_at t i r h c /\ Q h c /\ k = K c).
Proof.
  intros Hok HQ. unfold parse_ber_implicit. rewrite (C70_implicit_ber_partial L t u i r (Obj h k) Hok).
  cbn [o_header o_content]. unfold implicit_at. split.
  - intros (bs & c & -> & He & Ht & Hn & Hv). apply HQ in Hv. exists c. split; [|exact Hv]. exists bs. auto.
  - intros (c & (bs & -> & He & Ht & Hn) & Hv). apply HQ in Hv. exists bs, c. auto.
Qed.

Lemma value_ia5 L h c k :
  value L 50 (mkHeader Universal (h_constructed h) 22 (h_length h) None) c k
  <-> (h_constructed h = false /\ Forall (fun b => b <= 127) c) /\ k = CStr KIA5 c.
Proof.
  split.
  - intros H. pose proof (value_variant L 50 (taken_as 22 h) c k eq_refl H) as (s & ->).
    inversion H; subst. cbn [h_constructed repertoire] in *. auto.
  - intros ((Hc & Hf) & ->). apply v_string; auto. apply ascii_text. eapply Forall_impl; [|exact Hf]. cbn. intros. lia.
Qed.

(** The IA5String reader of the tests. *)
Theorem C119_ia5 : forall L t i r o, bytes_ok i ->
  (implicit_ia5 L t i = Ok (r, o)
   <-> exists h c, implicit_at t i r h c /\ (h_constructed h = false /\ Forall (fun b => b <= 127) c)
         /\ o = Obj h (CStr KIA5 c)).
Proof.
  intros L t i r [h k] Hok.
  change (implicit_ia5 L t i) with (parse_ber_implicit i t (parse_ber_content L 22)).
  rewrite (implicit_octets_iff L 22 t i r h k _ _ Hok (value_ia5 L)). split.
  - intros (c & Ha & Hq & ->). exists h, c. auto.
  - intros (h' & c & Ha & Hq & E). inv E. eauto.
Qed.
Print Assumptions C119_ia5.

(** The INTEGER readers: that of the tests takes a constructed element too, like the
    documented one for BER.  The documented DER parser, although it calls the BER
    combinator, reads elements of definite length only, with DER contents. *)
Theorem C119_integers : forall L t i r o, bytes_ok i ->
  (implicit_integer_test L t i = Ok (r, o) <-> exists h c, implicit_at t i r h c /\ o = Obj h (CInteger c))
  /\ (doc_int_implicit L false i = Ok (r, o) <-> exists h c, implicit_at 3 i r h c /\ o = Obj h (CInteger c))
  /\ (doc_int_implicit L true i = Ok (r, o)
      <-> exists h c, implicit_at 3 i r h c /\ no_leading_zero c /\ o = Obj h (CInteger c)).
Proof.
  intros L t i r o Hok.
  assert (Hb : forall t, parse_ber_implicit i t (parse_ber_content L 2) = Ok (r, o)
    <-> exists h c, implicit_at t i r h c /\ o = Obj h (CInteger c)).
  { intros t'. destruct o as [h k].
    rewrite (implicit_octets_iff L 2 t' i r h k (fun _ _ => True) CInteger Hok).
    - split; [intros (c & Ha & _ & ->); eauto|intros (h' & c & Ha & E); inv E; eauto].
    - intros h' c' k'. pose proof (value_integer L h' c' k') as H. unfold taken_as in H. tauto. }
  split; [|split; [exact (Hb 3)|]].
  - unfold implicit_integer_test. rewrite implicit_same by exact Hok.
    set (prim := fun h => mkHeader (h_class h) false (h_tag h) (h_length h) None).
    assert (Hf : forall c h, integer_content L c h 50 = parse_ber_content L 2 c (prim h) 50) by reflexivity.
    split.
    + intros (h & c & bs & u & k & -> & He & Ht & H & ->). rewrite Hf in H.
      assert (Hc : bytes_ok c) by now apply (an_element_ok false _ _ _ _ He) in Hok.
      apply C70_ber_content in H as (b & E & Hbd & Hm & Hv); [|exact Hc].
      cbn [prim h_constructed h_length] in *.
      inversion Hbd as [d0 h0 n b0 Hn En|d0 h0 b0 Hi Hcs]; [subst d0 h0 b0|discriminate]. cbn [h_length] in Hn.
      pose proof (element_definite _ _ _ _ He Hn) as El.
      assert (u = []) as ->.
      { apply length_zero_iff_nil. apply (f_equal (@length N)) in E. rewrite app_length in E. lia. }
      rewrite app_nil_r in E. subst b. unfold content_octets in Hv. cbn [h_length] in Hv. rewrite Hn in *.
      apply (value_integer L (mkHeader Universal false 2 (Definite n) None)) in Hv as ->.
      exists h, c. split; [|reflexivity]. exists bs. split; [reflexivity|]. split.
      { destruct He as (hb & b1 & -> & Hh & _ & E). unfold content_octets in E. rewrite Hn in E. subst b1.
        exists hb. rewrite Hn, El. auto. }
      split; [exact Ht|]. rewrite <- El. now apply Hm.
    + intros (h & c & (bs & -> & He & Ht & Hn) & ->). pose proof He as (hb & -> & Hh & Hl).
      exists h, c, (hb ++ c), [], (CInteger c). split; [reflexivity|]. split.
      { exists hb, c. split; [reflexivity|]. split; [exact Hh|]. split; [eapply body_definite; eauto|].
        unfold content_octets. now rewrite Hl. }
      split; [exact Ht|]. split; [|reflexivity]. rewrite Hf.
      apply C70_ber_content; [eapply definite_content_ok; eauto|].
      exists c. cbn [prim h_constructed h_length]. rewrite app_nil_r. split; [reflexivity|].
      split; [eapply body_definite; [exact Hl|reflexivity]|].
      split; [intros n En; rewrite Hl in En; now inv En|].
      unfold content_octets. cbn [h_length]. rewrite Hl.
      now apply (value_integer L (mkHeader Universal false 2 (Definite (N.of_nat (length c))) None)).
  - unfold doc_int_implicit, parse_der_implicit. rewrite implicit_same by exact Hok. split.
    + intros (h & c & bs & u & k & -> & He & Ht & H & ->).
      assert (Hc : bytes_ok c) by now apply (an_element_ok false _ _ _ _ He) in Hok.
      apply C70_der_content in H as (c' & E & Hl & Hn & Hk & _ & Hv); [|exact Hc|lia].
      pose proof (element_definite _ _ _ _ He Hl) as El. apply Nnat.Nat2N.inj in El.
      assert (u = []) as ->.
      { apply length_zero_iff_nil. apply (f_equal (@length N)) in E. rewrite app_length in E. lia. }
      rewrite app_nil_r in E. subst c'. apply (value_integer L h) in Hv as ->.
      exists h, c. split; [|split; [|reflexivity]].
      * exists bs. split; [reflexivity|]. split.
        { destruct He as (hb & b1 & -> & Hh & _ & E). unfold content_octets in E. rewrite Hl in E. subst b1. exists hb. auto. }
        split; [exact Ht|]. apply Hn. discriminate.
      * destruct Hk as (_ & Hk & _). now apply Hk.
    + intros (h & c & (bs & -> & He & Ht & Hn) & Hz & ->). pose proof He as (hb & -> & Hh & Hl).
      exists h, c, (hb ++ c), [], (CInteger c). split; [reflexivity|]. split.
      { exists hb, c. split; [reflexivity|]. split; [exact Hh|]. split; [eapply body_definite; eauto|].
        unfold content_octets. now rewrite Hl. }
      split; [exact Ht|]. split; [|reflexivity].
      apply C70_der_content; [eapply definite_content_ok; eauto|lia|].
      exists c. rewrite app_nil_r. split; [reflexivity|]. split; [exact Hl|].
      assert (Hi : contents_as L true 2 h c (CInteger c)) by (apply contents_integer; repeat split; auto).
      destruct Hi as ((H1 & H2 & H3) & H4). auto 6.
Qed.
Print Assumptions C119_integers.

(** The documented parser of an OCTET STRING returns the octets; it does not look at the
    class, nor at the form. *)
Theorem C119_octets : forall L der i r k, bytes_ok i ->
  (doc_implicit_octets L der i = Ok (r, k) <-> exists h c, implicit_at 2 i r h c /\ k = COctetString c).
Proof.
  intros L der i r k Hok.
  assert (He' : forall h c bs, definite_element h c bs -> element 50 h c bs).
  { intros h c bs (hb & -> & Hh & Hl). exists hb, c. split; [reflexivity|]. split; [exact Hh|].
    split; [eapply body_definite; eauto|]. unfold content_octets. now rewrite Hl. }
  assert (Hx : forall h c bs, an_element der h c bs -> bytes_ok c ->
    ((exists x, (if der then parse_der_content2 L 4 else parse_ber_content2 L 4) c h 50%nat = Ok (x, k))
     <-> h_length h <> Indefinite /\ N.of_nat (length c) <= 4294967295 /\ k = COctetString c)).
  { intros h c bs He Hc. pose proof (contents_exact L der 4 h c bs k Hc He) as H.
    assert (E : (if der then parse_der_content2 L 4 else parse_ber_content2 L 4) = k_content (kit_of L der) 4) by now destruct der.
    rewrite E, H. unfold implicit_contents, contents_as. rewrite value_octets. destruct der.
    - split.
      + intros (Hn & (Hl & _) & ->). split; [exact Hn|]. split; [now apply Hl|reflexivity].
      + intros (Hn & Hl & ->). split; [exact Hn|]. split; [|reflexivity]. split; [auto|]. split; [|discriminate].
        split; [discriminate|]. split; [discriminate|]. split; [cbn; intuition discriminate|intros [|]; discriminate].
    - split.
      + intros (Hn & Hl & ->). split; [exact Hn|]. split; [|reflexivity].
        destruct (h_length h) as [n|] eqn:El; [|congruence]. rewrite <- (element_definite _ _ _ _ He El). now apply Hl.
      + intros (Hn & Hl & ->). split; [exact Hn|]. split; [|reflexivity].
        intros n El. now rewrite (element_definite _ _ _ _ He El). }
  assert (Hi : doc_implicit_octets L der i = Ok (r, k)
    <-> exists h c bs x, i = bs ++ r /\ an_element der h c bs /\ h_tag h = 2
        /\ (if der then parse_der_content2 L 4 else parse_ber_content2 L 4) c h 50%nat = Ok (x, k)).
  { unfold doc_implicit_octets. destruct der; [rewrite C31_der_iff by exact Hok|rewrite C31_ber_iff by exact Hok]; reflexivity. }
  rewrite Hi. split.
  - intros (h & c & bs & x & -> & He & Ht & Hf). destruct (an_element_ok _ _ _ _ _ He Hok) as [Hc _].
    destruct (proj1 (Hx h c bs He Hc)) as (Hn & Hl & ->); [eauto|]. exists h, c. split; [|reflexivity].
    exists bs. split; [reflexivity|]. split; [|auto]. destruct der; [exact He|].
    destruct (h_length h) as [n|] eqn:El; [|congruence]. pose proof (element_definite _ _ _ _ He El) as En.
    destruct He as (hb & b1 & -> & Hh & _ & E). unfold content_octets in E. rewrite El in E. subst b1.
    exists hb. rewrite El, En. auto.
  - intros (h & c & (bs & -> & He & Ht & Hn) & E).
    assert (Ha : an_element der h c bs) by (destruct der; [exact He|now apply He']).
    destruct (an_element_ok _ _ _ _ _ Ha Hok) as [Hc _].
    destruct (proj2 (Hx h c bs Ha Hc)) as (x & Hf); [|exists h, c, bs, x; auto].
    destruct He as (_ & _ & _ & Hl). split; [congruence|auto].
Qed.
Print Assumptions C119_octets.

(** A BMPString with an implicit tag as in issue 76; an OCTET STRING of indefinite length
    that is read by hand and not by the combinator; the test bytes of the documentation,
    which have the universal class; a constructed INTEGER. *)
Example C119_ex :
  bytes_ok (hx "80 04 00 4c 00 65 ff")
  /\ implicit_by_hand SL 30 (hx "80 04 00 4c 00 65 ff") = Ok (hx "ff", CBmpString (hx "00 4c 00 65"))
  /\ implicit_by_hand SL 4 (hx "a1 80 04 01 05 00 00") = Ok ([], COctetString (hx "04 01 05"))
  /\ (exists e, parse_ber_implicit (hx "a1 80 04 01 05 00 00") 1 (parse_ber_content SL 4) = Err e)
  /\ doc_implicit_octets SL false (hx "02 05 68 65 6c 6c 6f") = Ok ([], COctetString (hx "68 65 6c 6c 6f"))
  /\ (exists h, implicit_ia5 SL 82 (hx "5f 52 04 70 61 73 73") = Ok ([], Obj h (CStr KIA5 (hx "70 61 73 73"))))
  /\ (exists h, implicit_integer_test SL 3 (hx "a3 01 02") = Ok ([], Obj h (CInteger [2])))
  /\ (exists h, doc_int_implicit SL false (hx "83 02 00 05") = Ok ([], Obj h (CInteger [0; 5])))
  /\ (exists e, doc_int_implicit SL true (hx "83 02 00 05") = Err e).
Proof.
  split; [repeat constructor|]. repeat match goal with |- _ /\ _ => split | |- exists _, _ => eexists end; vm_compute; reflexivity.
Qed.
