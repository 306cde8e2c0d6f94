(** * C24, C29-C34: containers, SEQUENCE OF, tagged and optional combinators *)

From Coq Require Import String.
From Verif Require Import Base Asn1rs Ber Der Combinators Conformance Spec SpecValue SpecComb.
From Verif Require Import LemBase LemHeader LemSkip LemParse LemDer LemText LemTree LemNode LemComb LemFrame LemVariant.
From Verif Require Import PropTotal PropFraming.
Local Open Scope string_scope.
Local Open Scope N_scope.
Local Open Scope list_scope.

Section Generic.
Context {E A : Type} (ops : err_ops E).

(** ** C33: the callback gets exactly the content octets and the header; its
    value and what follows the element are returned, or its failure. *)

Definition outcome (x : iresult E A) (r : bytes) : iresult E A :=
  match x with Ok (_, v) => Ok (r, v) | Err e => Err e | Panic => Panic | Diverge => Diverge end.

Lemma outcome_bind (x : iresult E A) r : (let* (_, v) := x in Ok (r, v)) = outcome x r.
Proof. destruct x as [[u v]| | |]; reflexivity. Qed.

Theorem C33_ber_container : forall i, bytes_ok i ->
  (exists h c bs r, i = bs ++ r /\ element 50 h c bs
     /\ forall f : bytes -> header -> iresult E A, parse_ber_container ops f i = outcome (f c h) r)
  \/ ((forall h c bs r, i = bs ++ r -> ~ element 50 h c bs)
      /\ exists e, forall f : bytes -> header -> iresult E A, parse_ber_container ops f i = Err e).
Proof.
  intros i Hok.
  destruct (ber_container_sound ops (fun _ _ => Panic : iresult E A) i Hok) as [(h & c & bs & r & -> & He)|(e & He)].
  - left. exists h, c, bs, r. repeat split; auto. intros f. rewrite (ber_container_complete ops f _ _ _ r He).
    apply outcome_bind.
  - right. split; [|eauto]. intros h c bs r -> He'. specialize (He (fun _ _ => Panic)).
    rewrite (ber_container_complete ops _ _ _ _ r He') in He. discriminate.
Qed.

Theorem C33_der_container : forall i, bytes_ok i ->
  (exists h c bs r, i = bs ++ r /\ definite_element h c bs
     /\ forall f : bytes -> header -> iresult E A, parse_der_container ops f i = outcome (f c h) r)
  \/ ((forall h c bs r, i = bs ++ r -> ~ definite_element h c bs)
      /\ exists e, forall f : bytes -> header -> iresult E A, parse_der_container ops f i = Err e).
Proof.
  intros i Hok.
  destruct (der_container_sound ops (fun _ _ => Panic : iresult E A) i Hok) as [(h & c & bs & r & -> & He)|(e & He)].
  - left. exists h, c, bs, r. repeat split; auto. intros f. rewrite (der_container_complete ops f _ _ _ r He).
    apply outcome_bind.
  - right. split; [|eauto]. intros h c bs r -> He'. specialize (He (fun _ _ => Panic)).
    rewrite (der_container_complete ops _ _ _ _ r He') in He. discriminate.
Qed.

(** SEQUENCE and SET add the test of the tag number. *)
Theorem C33_defined : forall (f : bytes -> header -> iresult E A) h c bs r,
  let wrong t := Err (Error (from_ber_error ops (UnexpectedTag (Some t) (h_tag h)))) in
  (element 50 h c bs ->
     parse_ber_sequence_defined_g ops f (bs ++ r)
     = (if h_tag h =? 16 then outcome (f c h) r else wrong 16)
     /\ parse_ber_set_defined_g ops f (bs ++ r)
     = (if h_tag h =? 17 then outcome (f c h) r else wrong 17))
  /\ (definite_element h c bs ->
     parse_der_sequence_defined_g ops f (bs ++ r)
     = (if h_tag h =? 16 then outcome (f c h) r else wrong 16)
     /\ parse_der_set_defined_g ops f (bs ++ r)
     = (if h_tag h =? 17 then outcome (f c h) r else wrong 17)).
Proof.
  intros f h c bs r wrong. unfold wrong. split; intros He; split;
    unfold parse_ber_sequence_defined_g, parse_ber_set_defined_g, parse_der_sequence_defined_g, parse_der_set_defined_g.
  all: first [rewrite (ber_container_complete ops _ _ _ _ r He)
             |rewrite (der_container_complete ops _ _ _ _ r He)]; rewrite outcome_bind;
    unfold assert_tag, err_into; change T_Sequence with 16; change T_Set with 17;
    destruct (h_tag h =? _); reflexivity.
Qed.

(** Without an element at the front they fail. *)
Theorem C33_no_element : forall (f : bytes -> header -> iresult E A) i, bytes_ok i ->
  ((forall h c bs r, i = bs ++ r -> ~ element 50 h c bs) ->
   exists e, parse_ber_sequence_defined_g ops f i = Err e /\ parse_ber_set_defined_g ops f i = Err e)
  /\ ((forall h c bs r, i = bs ++ r -> ~ definite_element h c bs) ->
   exists e, parse_der_sequence_defined_g ops f i = Err e /\ parse_der_set_defined_g ops f i = Err e).
Proof.
  intros f i Hok. split; intros Hno.
  - destruct (C33_ber_container i Hok) as [(h & c & bs & r & E1 & He & _)|(_ & e & He)].
    + now destruct (Hno _ _ _ _ E1 He).
    + exists e. split; apply He.
  - destruct (C33_der_container i Hok) as [(h & c & bs & r & E1 & He & _)|(_ & e & He)].
    + now destruct (Hno _ _ _ _ E1 He).
    + exists e. split; apply He.
Qed.

(** ** C30: EXPLICIT *)

Theorem C30_ber_iff : forall t (f : bytes -> header -> iresult E A) i r v, bytes_ok i ->
  (parse_ber_tagged_explicit_g ops t f i = Ok (r, v)
   <-> exists h c bs u, i = bs ++ r /\ element 50 h c bs
         /\ h_class h <> Universal /\ h_tag h = t /\ h_constructed h = true /\ f c h = Ok (u, v)).
Proof.
  intros t f i r v Hok. unfold parse_ber_tagged_explicit_g. rewrite ber_container_iff by assumption.
  split; intros (h & c & bs & u & -> & He & H); exists h, c, bs, u; (split; [reflexivity|]); (split; [assumption|]).
  - destruct (class_eqb (h_class h) Universal) eqn:Ec; [discriminate|].
    unfold assert_tag in H. destruct (h_tag h =? t) eqn:Et; cbn [map_err bind] in H; [|discriminate].
    unfold assert_constructed in H. destruct (h_constructed h) eqn:Ep; cbn [map_err bind] in H; [|discriminate].
    repeat split; auto; [intros Hc; rewrite Hc in Ec; discriminate|lia].
  - destruct H as (Hc & Ht & Hp & Hf). unfold assert_tag, assert_constructed. rewrite Hp, Ht, N.eqb_refl.
    destruct (h_class h); try contradiction; exact Hf.
Qed.

Theorem C30_der_iff : forall t (f : bytes -> header -> iresult E A) i r v, bytes_ok i ->
  (parse_der_tagged_explicit_g ops t f i = Ok (r, v)
   <-> exists h c bs u, i = bs ++ r /\ definite_element h c bs
         /\ h_class h <> Universal /\ h_tag h = t /\ h_constructed h = true /\ f c h = Ok (u, v)).
Proof.
  intros t f i r v Hok. unfold parse_der_tagged_explicit_g. rewrite der_container_iff by assumption.
  split; intros (h & c & bs & u & -> & He & H); exists h, c, bs, u; (split; [reflexivity|]); (split; [assumption|]).
  - destruct (class_eqb (h_class h) Universal) eqn:Ec; [discriminate|].
    unfold assert_tag in H. destruct (h_tag h =? t) eqn:Et; cbn [map_err bind] in H; [|discriminate].
    destruct (h_constructed h) eqn:Ep; cbn [negb] in H; [|discriminate].
    repeat split; auto; [intros Hc; rewrite Hc in Ec; discriminate|lia].
  - destruct H as (Hc & Ht & Hp & Hf). unfold assert_tag. rewrite Hp, Ht, N.eqb_refl.
    destruct (h_class h); try contradiction; exact Hf.
Qed.

(** The errors, in the order of the tests: class, tag number, form; they do not
    depend on the callback. *)
Theorem C30_errors : forall t (f : bytes -> header -> iresult E A) h c bs r,
  let ber := parse_ber_tagged_explicit_g ops t f (bs ++ r) in
  let der := parse_der_tagged_explicit_g ops t f (bs ++ r) in
  let fails (res : iresult E A) :=
    (h_class h = Universal -> res = Err (Error (from_ber_error ops (UnexpectedClass None Universal))))
    /\ (h_class h <> Universal -> h_tag h <> t ->
        res = Err (Error (from_ber_error ops (UnexpectedTag (Some t) (h_tag h)))))
    /\ (h_class h <> Universal -> h_tag h = t -> h_constructed h = false ->
        res = Err (Error (from_ber_error ops ConstructExpected))) in
  (element 50 h c bs -> fails ber) /\ (definite_element h c bs -> fails der).
Proof.
  intros t f h c bs r ber der fails. unfold fails, ber, der, parse_ber_tagged_explicit_g, parse_der_tagged_explicit_g.
  split; intros He;
    first [rewrite (ber_container_complete ops _ _ _ _ r He)|rewrite (der_container_complete ops _ _ _ _ r He)];
    unfold assert_tag, assert_constructed, err_into.
  - split; [|split].
    + intros ->. reflexivity.
    + intros Hc Ht. destruct (h_tag h =? t) eqn:Et; [lia|]. destruct (h_class h); try contradiction; reflexivity.
    + intros Hc -> ->. rewrite N.eqb_refl. destruct (h_class h); try contradiction; reflexivity.
  - split; [|split].
    + intros ->. reflexivity.
    + intros Hc Ht. destruct (h_tag h =? t) eqn:Et; [lia|]. destruct (h_class h); try contradiction; reflexivity.
    + intros Hc -> ->. rewrite N.eqb_refl. destruct (h_class h); try contradiction; reflexivity.
Qed.

(** ** C31: IMPLICIT *)

Theorem C31_ber_iff : forall t (f : bytes -> header -> nat -> iresult E A) i r v, bytes_ok i ->
  (parse_ber_tagged_implicit_g ops t f i = Ok (r, v)
   <-> exists h c bs u, i = bs ++ r /\ element 50 h c bs /\ h_tag h = t /\ f c h 50%nat = Ok (u, v)).
Proof.
  intros t f i r v Hok. unfold parse_ber_tagged_implicit_g. rewrite ber_container_iff by assumption.
  split; intros (h & c & bs & u & -> & He & H); exists h, c, bs, u; (split; [reflexivity|]); (split; [assumption|]).
  - unfold assert_tag in H. destruct (h_tag h =? t) eqn:Et; cbn [map_err bind] in H; [|discriminate].
    split; [lia|exact H].
  - destruct H as (Ht & Hf). unfold assert_tag. rewrite Ht, N.eqb_refl. exact Hf.
Qed.

Theorem C31_der_iff : forall t (f : bytes -> header -> nat -> iresult E A) i r v, bytes_ok i ->
  (parse_der_tagged_implicit_g ops t f i = Ok (r, v)
   <-> exists h c bs u, i = bs ++ r /\ definite_element h c bs /\ h_tag h = t /\ f c h 50%nat = Ok (u, v)).
Proof.
  intros t f i r v Hok. unfold parse_der_tagged_implicit_g. rewrite der_container_iff by assumption.
  split; intros (h & c & bs & u & -> & He & H); exists h, c, bs, u; (split; [reflexivity|]); (split; [assumption|]).
  - unfold assert_tag in H. destruct (h_tag h =? t) eqn:Et; cbn [map_err bind] in H; [|discriminate].
    split; [lia|exact H].
  - destruct H as (Ht & Hf). unfold assert_tag. rewrite Ht, N.eqb_refl. exact Hf.
Qed.

Theorem C31_wrong_tag : forall t (f : bytes -> header -> nat -> iresult E A) h c bs r, h_tag h <> t ->
  let e := Err (Error (from_ber_error ops (UnexpectedTag (Some t) (h_tag h)))) in
  (element 50 h c bs -> parse_ber_tagged_implicit_g ops t f (bs ++ r) = e)
  /\ (definite_element h c bs -> parse_der_tagged_implicit_g ops t f (bs ++ r) = e).
Proof.
  intros t f h c bs r Ht e. unfold e, parse_ber_tagged_implicit_g, parse_der_tagged_implicit_g.
  split; intros He;
    first [rewrite (ber_container_complete ops _ _ _ _ r He)|rewrite (der_container_complete ops _ _ _ _ r He)];
    unfold assert_tag, err_into; (destruct (h_tag h =? t) eqn:Et; [lia|]); reflexivity.
Qed.

(** ** C32: SEQUENCE OF / SET OF *)

(** [f] must answer [Incomplete] on empty input, as every streaming parser does;
    see [C32_refuted] for what happens otherwise. *)
Theorem C32_ber_partial : forall (f : bytes -> iresult E A) i r vs, bytes_ok i -> nom_parser f ->
  let parsed t := (exists n, f [] = Err (Incomplete n))
    /\ exists h c bs, i = bs ++ r /\ element 50 h c bs /\ h_tag h = t /\ splits f c vs in
  (parse_ber_sequence_of_v ops f i = Ok (r, vs) <-> parsed 16)
  /\ (parse_ber_set_of_v ops f i = Ok (r, vs) <-> parsed 17).
Proof.
  intros f i r vs Hok Hf parsed. unfold parsed.
  unfold parse_ber_sequence_of_v, parse_ber_set_of_v, parse_ber_sequence_defined_g, parse_ber_set_defined_g.
  split; rewrite ber_container_iff by assumption; change T_Sequence with 16; change T_Set with 17; split.
  1,3: intros (h & c & bs & u & -> & He & H); unfold assert_tag in H; destruct (h_tag h =? _) eqn:Et;
    cbn [map_err bind] in H; [|discriminate];
    apply of_subparser_iff in H as (-> & Hn & Hs); [|assumption];
    split; [assumption|]; exists h, c, bs; repeat split; auto; lia.
  all: intros (Hn & h & c & bs & -> & He & Ht & Hs); exists h, c, bs, []; (split; [reflexivity|]); (split; [assumption|]);
    unfold assert_tag; rewrite Ht, N.eqb_refl; cbn [map_err bind]; apply of_subparser_iff; auto.
Qed.

Theorem C32_der_partial : forall (f : bytes -> iresult E A) i r vs, bytes_ok i -> nom_parser f ->
  let parsed t := (exists n, f [] = Err (Incomplete n))
    /\ exists h c bs, i = bs ++ r /\ definite_element h c bs /\ h_tag h = t /\ splits f c vs in
  (parse_der_sequence_of_v ops f i = Ok (r, vs) <-> parsed 16)
  /\ (parse_der_set_of_v ops f i = Ok (r, vs) <-> parsed 17).
Proof.
  intros f i r vs Hok Hf parsed. unfold parsed.
  unfold parse_der_sequence_of_v, parse_der_set_of_v, parse_der_sequence_defined_g, parse_der_set_defined_g.
  split; rewrite der_container_iff by assumption; change T_Sequence with 16; change T_Set with 17; split.
  1,3: intros (h & c & bs & u & -> & He & H); unfold assert_tag in H; destruct (h_tag h =? _) eqn:Et;
    cbn [map_err bind] in H; [|discriminate];
    apply of_subparser_iff in H as (-> & Hn & Hs); [|assumption];
    split; [assumption|]; exists h, c, bs; repeat split; auto; lia.
  all: intros (Hn & h & c & bs & -> & He & Ht & Hs); exists h, c, bs, []; (split; [reflexivity|]); (split; [assumption|]);
    unfold assert_tag; rewrite Ht, N.eqb_refl; cbn [map_err bind]; apply of_subparser_iff; auto.
Qed.

(** ** C34: errors of the callback *)

Theorem C34_callback_errors : forall (f : bytes -> header -> iresult E A) h c bs r e,
  f c h = Err e ->
  (element 50 h c bs ->
     parse_ber_container ops f (bs ++ r) = Err e
     /\ (h_tag h = 16 -> parse_ber_sequence_defined_g ops f (bs ++ r) = Err e)
     /\ (h_tag h = 17 -> parse_ber_set_defined_g ops f (bs ++ r) = Err e)
     /\ (h_class h <> Universal -> h_constructed h = true ->
         parse_ber_tagged_explicit_g ops (h_tag h) f (bs ++ r) = Err e)
     /\ parse_ber_tagged_implicit_g ops (h_tag h) (fun c h _ => f c h) (bs ++ r) = Err e)
  /\ (definite_element h c bs ->
     parse_der_container ops f (bs ++ r) = Err e
     /\ (h_tag h = 16 -> parse_der_sequence_defined_g ops f (bs ++ r) = Err e)
     /\ (h_tag h = 17 -> parse_der_set_defined_g ops f (bs ++ r) = Err e)
     /\ (h_class h <> Universal -> h_constructed h = true ->
         parse_der_tagged_explicit_g ops (h_tag h) f (bs ++ r) = Err e)
     /\ parse_der_tagged_implicit_g ops (h_tag h) (fun c h _ => f c h) (bs ++ r) = Err e).
Proof.
  intros f h c bs r e Hf.
  unfold parse_ber_sequence_defined_g, parse_ber_set_defined_g, parse_der_sequence_defined_g,
    parse_der_set_defined_g, parse_ber_tagged_explicit_g, parse_der_tagged_explicit_g,
    parse_ber_tagged_implicit_g, parse_der_tagged_implicit_g.
  split; intros He; repeat split; intros;
    first [rewrite (ber_container_complete ops _ _ _ _ r He)|rewrite (der_container_complete ops _ _ _ _ r He)];
    unfold assert_tag, assert_constructed, err_into; change T_Sequence with 16; change T_Set with 17.
  all: repeat match goal with
    | H : h_tag _ = _ |- _ => rewrite H
    | H : h_constructed _ = _ |- _ => rewrite H
    end; rewrite ?N.eqb_refl; cbn [map_err bind negb]; rewrite ?Hf; try reflexivity.
  all: match goal with |- context [class_eqb ?c _] => destruct c end; try contradiction; reflexivity.
Qed.

(** SEQUENCE OF / SET OF: after the elements before it, the failing element's
    [Error e] or [Failure e] becomes [Failure e]; an element that is cut short
    is reported as [Eof] at its start. *)
Theorem C34_element_errors : forall (f : bytes -> iresult E A) h c bs r c',
  reaches f c c' ->
  let after (res : iresult E (list A)) :=
    (forall e, f c' = Err (Error e) -> res = Err (Failure e))
    /\ (forall e, f c' = Err (Failure e) -> res = Err (Failure e))
    /\ (forall n, f c' = Err (Incomplete n) -> c' <> [] -> res = Err (Error (from_error_kind ops c' EkEof))) in
  (element 50 h c bs ->
     (h_tag h = 16 -> after (parse_ber_sequence_of_v ops f (bs ++ r)))
     /\ (h_tag h = 17 -> after (parse_ber_set_of_v ops f (bs ++ r))))
  /\ (definite_element h c bs ->
     (h_tag h = 16 -> after (parse_der_sequence_of_v ops f (bs ++ r)))
     /\ (h_tag h = 17 -> after (parse_der_set_of_v ops f (bs ++ r)))).
Proof.
  intros f h c bs r c' Hr after. unfold after.
  destruct (of_subparser_error ops f c c' Hr) as (H1 & H2 & H3).
  unfold parse_ber_sequence_of_v, parse_ber_set_of_v, parse_der_sequence_of_v, parse_der_set_of_v,
    parse_ber_sequence_defined_g, parse_ber_set_defined_g, parse_der_sequence_defined_g, parse_der_set_defined_g.
  split; intros He; split; intros Ht.
  all: first [rewrite (ber_container_complete ops _ _ _ _ r He)|rewrite (der_container_complete ops _ _ _ _ r He)];
    unfold assert_tag; rewrite Ht, N.eqb_refl; cbn [map_err bind].
  all: repeat split; [intros e Hf; now rewrite (H1 _ Hf)|intros e Hf; now rewrite (H2 _ Hf)|].
  all: intros n Hf Hn; now rewrite (H3 _ Hf Hn).
Qed.

End Generic.
Print Assumptions C33_ber_container.
Print Assumptions C33_der_container.
Print Assumptions C33_defined.
Print Assumptions C33_no_element.
Print Assumptions C30_ber_iff.
Print Assumptions C30_der_iff.
Print Assumptions C30_errors.
Print Assumptions C31_ber_iff.
Print Assumptions C31_der_iff.
Print Assumptions C31_wrong_tag.
Print Assumptions C32_ber_partial.
Print Assumptions C32_der_partial.
Print Assumptions C34_callback_errors.
Print Assumptions C34_element_errors.

(** ** The variants that build a [BerObject] *)

Lemma nom_map_ok {E A B} (g : A -> B) (f : bytes -> iresult E A) i r v :
  nom_map g f i = Ok (r, v) <-> exists u, f i = Ok (r, u) /\ v = g u.
Proof.
  unfold nom_map. destruct (f i) as [[r' u]| | |]; cbn [bind]; split.
  all: try (intros H; discriminate). all: try (intros (u' & H & _); discriminate).
  - intros H. inv H. eauto.
  - intros (u' & H & ->). now inv H.
Qed.

Definition universal_header (t : tag) : header := mkHeader Universal true t (Definite 0) None.

(** EXPLICIT: the result is [Tagged] around the inner object, under the outer header. *)
Theorem C30_objects : forall t f i r o, bytes_ok i ->
  (parse_ber_tagged_explicit t f i = Ok (r, o)
   <-> exists h c bs u inner, i = bs ++ r /\ element 50 h c bs
         /\ h_class h <> Universal /\ h_tag h = t /\ h_constructed h = true
         /\ f c = Ok (u, inner) /\ o = Obj h (CTagged (h_class h) t inner))
  /\ (parse_der_tagged_explicit t f i = Ok (r, o)
   <-> exists h c bs u inner, i = bs ++ r /\ definite_element h c bs
         /\ h_class h <> Universal /\ h_tag h = t /\ h_constructed h = true
         /\ f c = Ok (u, inner) /\ o = Obj h (CTagged (h_class h) t inner)).
Proof.
  intros t f i r o Hok. unfold parse_ber_tagged_explicit, parse_der_tagged_explicit.
  rewrite C30_ber_iff, C30_der_iff by assumption. unfold tagged_explicit_cb.
  split; split.
  1,3: intros (h & c & bs & u & -> & He & Hc & Ht & Hp & Hf);
    destruct (f c) as [[u' inner]| | |] eqn:Ef; try discriminate; cbn [bind] in Hf; inv Hf;
    exists h, c, bs, u, inner; repeat split; auto.
  all: intros (h & c & bs & u & inner & -> & He & Hc & Ht & Hp & Hf & ->);
    exists h, c, bs, u; repeat split; auto; now rewrite Hf.
Qed.
Print Assumptions C30_objects.

(** IMPLICIT: the result keeps the element's own header.  [parse_der_implicit]
    calls the BER function. *)
Theorem C31_objects : forall t f i r o, bytes_ok i ->
  (parse_ber_tagged_implicit t f i = Ok (r, o)
   <-> exists h c bs u k, i = bs ++ r /\ element 50 h c bs /\ h_tag h = t
         /\ f c h 50%nat = Ok (u, k) /\ o = Obj h k)
  /\ (parse_der_tagged_implicit t f i = Ok (r, o)
   <-> exists h c bs u k, i = bs ++ r /\ definite_element h c bs /\ h_tag h = t
         /\ f c h 50%nat = Ok (u, k) /\ o = Obj h k)
  /\ (parse_ber_implicit i t f = Ok (r, o) \/ parse_der_implicit i t f = Ok (r, o)
   <-> exists h c bs u k, i = bs ++ r /\ element 50 h c bs /\ h_tag h = t
         /\ f c h 50%nat = Ok (u, k) /\ o = Obj h k).
Proof.
  intros t f i r o Hok.
  assert (HB : parse_ber_tagged_implicit t f i = Ok (r, o)
   <-> exists h c bs u k, i = bs ++ r /\ element 50 h c bs /\ h_tag h = t
         /\ f c h 50%nat = Ok (u, k) /\ o = Obj h k).
  { unfold parse_ber_tagged_implicit. rewrite C31_ber_iff by assumption. unfold tagged_implicit_cb. split.
    - intros (h & c & bs & u & -> & He & Ht & Hf).
      destruct (f c h 50%nat) as [[u' k]| | |] eqn:Ef; try discriminate; cbn [bind] in Hf; inv Hf.
      exists h, c, bs, u, k. repeat split; auto.
    - intros (h & c & bs & u & k & -> & He & Ht & Hf & ->). exists h, c, bs, u. repeat split; auto. now rewrite Hf. }
  split; [exact HB|]. split.
  - unfold parse_der_tagged_implicit. rewrite C31_der_iff by assumption. unfold tagged_implicit_cb. split.
    + intros (h & c & bs & u & -> & He & Ht & Hf).
      destruct (f c h 50%nat) as [[u' k]| | |] eqn:Ef; try discriminate; cbn [bind] in Hf; inv Hf.
      exists h, c, bs, u, k. repeat split; auto.
    + intros (h & c & bs & u & k & -> & He & Ht & Hf & ->). exists h, c, bs, u. repeat split; auto. now rewrite Hf.
  - unfold parse_der_implicit, parse_ber_implicit. rewrite <- HB. tauto.
Qed.
Print Assumptions C31_objects.

Theorem C32_objects_partial : forall f i r o, bytes_ok i -> nom_parser f ->
  let parsed (elem : header -> bytes -> bytes -> Prop) t mk := (exists n, f [] = Err (Incomplete n))
    /\ exists h c bs l, i = bs ++ r /\ elem h c bs /\ h_tag h = t /\ splits f c l
         /\ o = Obj (universal_header t) (mk l) in
  (parse_ber_sequence_of f i = Ok (r, o) <-> parsed (element 50) 16 CSequence)
  /\ (parse_ber_set_of f i = Ok (r, o) <-> parsed (element 50) 17 CSet)
  /\ (parse_der_sequence_of f i = Ok (r, o) <-> parsed definite_element 16 CSequence)
  /\ (parse_der_set_of f i = Ok (r, o) <-> parsed definite_element 17 CSet).
Proof.
  intros f i r o Hok Hf parsed. unfold parsed, parse_ber_sequence_of, parse_ber_set_of, parse_der_sequence_of, parse_der_set_of.
  rewrite !nom_map_ok. split; [|split; [|split]]; split.
  1,3,5,7: intros (l & H & ->);
    first [apply C32_ber_partial in H as (? & h & c & bs & ? & ? & ? & ?); [|assumption..]
          |apply C32_der_partial in H as (? & h & c & bs & ? & ? & ? & ?); [|assumption..]];
    (split; [assumption|]); exists h, c, bs, l; repeat split; auto.
  all: intros (Hn & h & c & bs & l & -> & He & Ht & Hs & ->); exists l; split; [|reflexivity];
    first [apply C32_ber_partial; [assumption..|]|apply C32_der_partial; [assumption..|]];
    (split; [assumption|]); exists h, c, bs; repeat split; auto.
Qed.
Print Assumptions C32_objects_partial.

(** Without the hypothesis on empty input the claim is false: an element parser
    that fails with [Error] on empty input (as nom's "complete" parsers do)
    makes SEQUENCE OF fail on every input, and so does one that succeeds there
    (such as an optional parser). *)
Definition complete_u8 (i : bytes) : iresult berror N :=
  match i with [] => Err (Error (ENomError EkEof)) | b :: r => Ok (r, b) end.
Definition optional_u8 (i : bytes) : iresult berror (option N) :=
  match i with [] => Ok ([], None) | b :: r => Ok (r, Some b) end.

Theorem C32_refuted : exists h c bs,
  element 50 h c bs /\ h_tag h = 16
  /\ nom_parser complete_u8 /\ splits complete_u8 c [1; 2]
  /\ parse_ber_sequence_of_v ber_ops complete_u8 bs = Err (Failure (ENomError EkEof))
  /\ nom_parser optional_u8 /\ splits optional_u8 c [Some 1; Some 2]
  /\ parse_ber_sequence_of_v ber_ops optional_u8 bs = Err (Error (ENomError EkMany0)).
Proof.
  exists (mkHeader Universal true 16 (Definite 2) (Some [48])), [1; 2], (hx "30 02 01 02").
  split; [|split; [reflexivity|]].
  - apply definite_is_element. exists (hx "30 02"). split; [reflexivity|]. split; [|reflexivity].
    exists [48], [2]. split; [reflexivity|]. split; [exact (ident_low Universal true 16 eq_refl)|].
    split; [exact (length_short 2 eq_refl)|]. split; [reflexivity|discriminate].
  - split; [|split; [|split; [reflexivity|split; [|split; [|reflexivity]]]]].
    + intros [|b i] r v H; inv H. now exists [v].
    + apply (splits_cons complete_u8 [1] [2]); [discriminate|reflexivity|].
      apply (splits_cons complete_u8 [2] []); [discriminate|reflexivity|constructor].
    + intros [|b i] r v H; inv H; [now exists []|now exists [b]].
    + apply (splits_cons optional_u8 [1] [2]); [discriminate|reflexivity|].
      apply (splits_cons optional_u8 [2] []); [discriminate|reflexivity|constructor].
Qed.
Print Assumptions C32_refuted.

(** The generic parsers meet the hypotheses. *)
Lemma parse_ber_nom L d : nom_parser (fun i => parse_ber_recursive L i d).
Proof.
  intros i r o H. destruct d as [|d]; [discriminate|]. apply parse_ber_inv in H as (a & Ha & _).
  apply any_from_ber_sub in Ha as (bs & -> & _). eauto.
Qed.

Lemma parse_der_nom L d : nom_parser (fun i => parse_der_recursive L i d).
Proof.
  intros i r o H. apply parse_der_iff in H as (h & c & Hh & _).
  apply header_from_der_ber in Hh as [Hh _]. apply header_from_ber_split in Hh as (raw & lb & -> & _).
  exists ((raw ++ lb) ++ c). now rewrite !app_assoc.
Qed.

Theorem C32_generic_parsers : forall L i r o, bytes_ok i ->
  let parsed (elem : header -> bytes -> bytes -> Prop) f t mk :=
    exists h c bs l, i = bs ++ r /\ elem h c bs /\ h_tag h = t /\ splits f c l
         /\ o = Obj (universal_header t) (mk l) in
  (parse_ber_sequence_of (parse_ber L) i = Ok (r, o) <-> parsed (element 50) (parse_ber L) 16 CSequence)
  /\ (parse_ber_set_of (parse_ber L) i = Ok (r, o) <-> parsed (element 50) (parse_ber L) 17 CSet)
  /\ (parse_der_sequence_of (parse_der L) i = Ok (r, o) <-> parsed definite_element (parse_der L) 16 CSequence)
  /\ (parse_der_set_of (parse_der L) i = Ok (r, o) <-> parsed definite_element (parse_der L) 17 CSet).
Proof.
  intros L i r o Hok parsed. unfold parsed.
  destruct (C32_objects_partial (parse_ber L) i r o Hok (parse_ber_nom L 50)) as (H1 & H2 & _ & _).
  destruct (C32_objects_partial (parse_der L) i r o Hok (parse_der_nom L 50)) as (_ & _ & H3 & H4).
  rewrite H1, H2, H3, H4.
  assert (Hb : exists n, parse_ber L [] = Err (Incomplete n)) by (eexists; reflexivity).
  assert (Hd : exists n, parse_der L [] = Err (Incomplete n)) by (eexists; reflexivity).
  tauto.
Qed.
Print Assumptions C32_generic_parsers.

(** The slice parsers return the content octets themselves. *)
Theorem C33_slices : forall t i r c, bytes_ok i ->
  (parse_ber_slice t i = Ok (r, c) <-> exists h bs, i = bs ++ r /\ element 50 h c bs /\ h_tag h = t)
  /\ (parse_der_slice t i = Ok (r, c) <-> exists h bs, i = bs ++ r /\ definite_element h c bs /\ h_tag h = t).
Proof.
  intros t i r c Hok. unfold parse_ber_slice, parse_der_slice.
  rewrite ber_container_iff, der_container_iff by assumption. unfold assert_tag. split; split.
  1,3: intros (h & c' & bs & u & -> & He & H); destruct (h_tag h =? t) eqn:Et; inv H;
    exists h, bs; repeat split; auto; lia.
  all: intros (h & bs & -> & He & <-); exists h, c, bs, []; repeat split; auto; now rewrite N.eqb_refl.
Qed.
Print Assumptions C33_slices.

(** ** C29 *)

Theorem C29_optional : forall f i, returns (f i) ->
  (exists r o, f i = Ok (r, o) /\ parse_ber_optional f i = Ok (r, Obj (o_header o) (COptional (Some o))))
  \/ (exists e, f i = Err e /\ exists h, parse_ber_optional f i = Ok (i, Obj h (COptional None))).
Proof.
  intros f i [[[r o] H]|[e H]]; unfold parse_ber_optional; rewrite H; [left|right]; eauto.
  exists e. split; [reflexivity|]. eexists. reflexivity.
Qed.
Print Assumptions C29_optional.

(** In terms of the input: either an element [t] of a non-universal class,
    constructed, whose content [f] accepts, is at the front; or the result is
    [Optional(None)] and nothing is consumed. *)
Theorem C29_explicit_optional : forall t f i, bytes_ok i -> (forall c, returns (f c)) ->
  let present h c bs r u o := i = bs ++ r /\ element 50 h c bs /\ h_class h <> Universal
    /\ h_tag h = t /\ h_constructed h = true /\ f c = Ok (u, o) in
  parse_der_explicit_optional i t f = parse_ber_explicit_optional i t f
  /\ ((exists h c bs r u o, present h c bs r u o
        /\ parse_ber_explicit_optional i t f
           = Ok (r, Obj h (COptional (Some (Obj h (CTagged (h_class h) t o))))))
      \/ ((forall h c bs r u o, ~ present h c bs r u o)
          /\ exists h, parse_ber_explicit_optional i t f = Ok (i, Obj h (COptional None)))).
Proof.
  intros t f i Hok Hf present. unfold present. split; [reflexivity|].
  unfold parse_ber_explicit_optional.
  set (g := parse_ber_tagged_explicit_g ber_ops t _).
  assert (Hg : returns (g i)).
  { apply C01_containers. intros c h. destruct (Hf c) as [[[r o] E]|[e E]]; rewrite E; cbn [bind].
    - left. eauto.
    - right. eauto. }
  destruct (C29_optional g i Hg) as [(r & o & Ho & E)|(e & He & h0 & E)].
  - left. unfold g in Ho. apply C30_ber_iff in Ho as (h & c & bs & u & -> & Hel & Hc & Ht & Hp & Hfo); [|assumption].
    destruct (f c) as [[u' inner]| | |] eqn:Ef; try discriminate. cbn [bind] in Hfo. inv Hfo.
    exists h, c, bs, r, u, inner. repeat split; auto.
  - right. split; [|eauto]. intros h c bs r u o (-> & Hel & Hc & Ht & Hp & Hfo).
    assert (H : g (bs ++ r) = Ok (r, Obj h (CTagged (h_class h) (h_tag h) o))).
    { unfold g. apply C30_ber_iff; [assumption|]. exists h, c, bs, u. repeat split; auto. now rewrite Hfo. }
    congruence.
Qed.
Print Assumptions C29_explicit_optional.

(** ** C24 *)

Lemma der_header_indefinite cl pc t ib x : ident_octets cl pc t ib ->
  header_from_der (ib ++ 128 :: x) = Err (Error (DerConstraintFailed DcIndefiniteLength)).
Proof. intros H. unfold header_from_der. now rewrite (parse_identifier_complete _ _ _ _ _ H). Qed.

Lemma any_der_indefinite cl pc t ib x : ident_octets cl pc t ib ->
  any_from_der (ib ++ 128 :: x) = Err (Error (DerConstraintFailed DcIndefiniteLength)).
Proof. intros H. unfold any_from_der. now rewrite (der_header_indefinite _ _ _ _ _ H). Qed.

(** An indefinite length is rejected as such by every DER reader but two. *)
Theorem C24_partial : forall L cl pc t ib x d u, ident_octets cl pc t ib ->
  let i := ib ++ 128 :: x in
  let e := Error (DerConstraintFailed DcIndefiniteLength) in
  der_read_element_header i = Err e
  /\ parse_der_recursive L i d = Err e /\ parse_der_with_tag L i u = Err e
  /\ parse_der_u32 i = Err e /\ parse_der_u64 i = Err e /\ parse_der_i32 i = Err e /\ parse_der_i64 i = Err e
  /\ parse_der_slice u i = Err e
  /\ (forall f, parse_der_sequence_of f i = Err e /\ parse_der_set_of f i = Err e
        /\ parse_der_tagged_explicit u f i = Err e)
  /\ (forall f, parse_der_sequence_defined f i = Err e /\ parse_der_set_defined f i = Err e)
  /\ (forall f, parse_der_tagged_implicit u f i = Err e)
  /\ (forall E A (ops : err_ops E) (f : bytes -> header -> iresult E A), let ee := Err (err_convert ops e) in
        parse_der_container ops f i = ee /\ parse_der_sequence_defined_g ops f i = ee /\ parse_der_set_defined_g ops f i = ee
        /\ parse_der_tagged_explicit_g ops u f i = ee)
  /\ (forall E A (ops : err_ops E) (f : bytes -> header -> nat -> iresult E A),
        parse_der_tagged_implicit_g ops u f i = Err (err_convert ops e))
  /\ (forall E A (ops : err_ops E) (f : bytes -> iresult E A), let ee := Err (err_convert ops e) in
        parse_der_sequence_of_v ops f i = ee /\ parse_der_set_of_v ops f i = ee)
  /\ (forall k, exists e', der_read_element_content_as L k u Indefinite pc d = Err e').
Proof.
  intros L cl pc t ib x d u Hi i e. pose proof (der_header_indefinite _ _ _ _ x Hi) as Hh.
  pose proof (any_der_indefinite _ _ _ _ x Hi) as Ha. fold i in Hh, Ha. fold e in Hh, Ha.
  assert (Hc : forall E A (ops : err_ops E) (f : bytes -> header -> iresult E A),
    parse_der_container ops f i = Err (err_convert ops e)).
  { intros. unfold parse_der_container, der_read_element_header. now rewrite Hh. }
  repeat split; intros; try (intros f; repeat split); try subst ee;
    unfold parse_der_recursive, parse_der_with_tag, der_read_element_header, parse_der_slice,
      parse_der_u32, parse_der_u64, parse_der_i32, parse_der_i64, uint_from_der, int_from_der,
      parse_der_sequence_of, parse_der_set_of, parse_der_sequence_defined, parse_der_set_defined, nom_map,
      parse_der_sequence_of_v, parse_der_set_of_v, parse_der_sequence_defined_g, parse_der_set_defined_g,
      parse_der_tagged_explicit, parse_der_tagged_explicit_g, parse_der_tagged_implicit, parse_der_tagged_implicit_g.
  all: try (rewrite Hc; reflexivity). all: try (rewrite Hh; reflexivity). all: try (rewrite Ha; reflexivity).
  eexists. reflexivity.
Qed.
Print Assumptions C24_partial.

(** The two exceptions call the BER reader. *)
Theorem C24_refuted : exists i o o',
  header_from_ber i = Ok (skipn 2 i, mkHeader ContextSpecific true 0 Indefinite (Some [160]))
  /\ parse_der_explicit_optional i 0 (parse_der SL) = Ok ([], o) /\ (exists x, o_content o = COptional (Some x))
  /\ parse_der_implicit i 0 (fun c _ _ => Ok ([], COctetString c)) = Ok ([], o').
Proof.
  exists (hx "a0 80 02 01 01 00 00"). do 2 eexists. split; [vm_compute; reflexivity|].
  split; [vm_compute; reflexivity|]. split; [eexists; reflexivity|]. vm_compute. reflexivity.
Qed.
Print Assumptions C24_refuted.

(** ** Examples *)

(** "a1 03 02 01 05 | ff": EXPLICIT [1] INTEGER; IMPLICIT [1]; the callback sees
    only the three content octets; a SEQUENCE OF INTEGER of definite and of
    indefinite length; an element that runs past the end of its container. *)
Example C30_ex : exists o, parse_der_tagged_explicit 1 (parse_der_integer SL) (hx "a1 03 02 01 05 ff") = Ok ([255], o)
  /\ exists h i, o_content o = CTagged ContextSpecific 1 (Obj h (CInteger i)) /\ i = [5].
Proof. eexists. split; [vm_compute; reflexivity|]. cbn. eauto. Qed.
Example C30_ex_errors :
  parse_ber_tagged_explicit 1 (parse_ber SL) (hx "31 03 02 01 05") = Err (Error (UnexpectedClass None Universal))
  /\ parse_ber_tagged_explicit 1 (parse_ber SL) (hx "a2 03 02 01 05") = Err (Error (UnexpectedTag (Some 1) 2))
  /\ parse_der_tagged_explicit 1 (parse_ber SL) (hx "81 03 02 01 05") = Err (Error ConstructExpected).
Proof. repeat split. Qed.
Example C31_ex : exists h, parse_der_tagged_implicit 1 (parse_der_content SL 2) (hx "81 01 05 ff") = Ok ([255], Obj h (CInteger [5]))
  /\ h_class h = ContextSpecific /\ h_tag h = 1.
Proof. eexists. split; [vm_compute; reflexivity|]. auto. Qed.
Example C32_ex :
  parse_ber_sequence_of_v ber_ops parse_ber_u32 (hx "30 06 02 01 05 02 01 06 ff") = Ok ([255], [5; 6])
  /\ parse_ber_sequence_of_v ber_ops parse_ber_u32 (hx "30 80 02 01 05 02 01 06 00 00 ff") = Ok ([255], [5; 6])
  /\ parse_ber_sequence_of_v ber_ops parse_ber_u32 (hx "30 05 02 01 05 02 01 06") = Err (Error (ENomError EkEof))
  /\ parse_ber_sequence_of_v ber_ops parse_ber_u32 (hx "30 06 02 01 05 04 01 06")
     = Err (Failure (UnexpectedTag (Some 2) 4)).
Proof. repeat split; vm_compute; reflexivity. Qed.
Example C33_ex : parse_der_slice 16 (hx "30 03 02 01 05 ff") = Ok ([255], hx "02 01 05")
  /\ parse_ber_slice 16 (hx "30 80 02 01 05 00 00 ff") = Ok ([255], hx "02 01 05").
Proof. repeat split; vm_compute; reflexivity. Qed.
Example C29_ex : exists o, parse_ber_optional (parse_ber_integer SL) (hx "04 01 05") = Ok (hx "04 01 05", o)
  /\ o_content o = COptional None.
Proof. eexists. vm_compute. auto. Qed.
Example C24_ex : parse_der SL (hx "30 80 02 01 05 00 00") = Err (Error (DerConstraintFailed DcIndefiniteLength)).
Proof. reflexivity. Qed.
(** A custom error type: the second element fails with [Error 42]. *)
Example C34_ex :
  let ops := mkErrOps N (fun _ => 0) (fun _ _ => 1) in
  let f (i : bytes) : iresult N N := match i with
    | [] => Err (Incomplete None) | 7 :: _ => Err (Error 42) | b :: r => Ok (r, b) end in
  reaches f [5; 7; 6] [7; 6] /\ f [7; 6] = Err (Error 42)
  /\ parse_der_sequence_of_v ops f (hx "30 03 05 07 06") = Err (Failure 42)
  /\ parse_der_container ops (fun c _ => f [7]) (hx "30 03 05 07 06") = Err (Error 42).
Proof.
  cbv zeta. split; [|repeat split].
  apply (reaches_next _ [5] [7; 6] 5); [discriminate|reflexivity|constructor].
Qed.
