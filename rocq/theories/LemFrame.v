(** * Framing lemmas for [parse_*_with_tag] and the integer parsers. *)

From Verif Require Import Base Asn1rs Ber Der Combinators Spec SpecValue SpecComb
  LemBase LemHeader LemSkip LemParse LemDer LemText LemTree LemNode LemComb.

Lemma body_same d h h' b : body d h b -> h_length h' = h_length h ->
  h_constructed h' = h_constructed h -> body d h' b.
Proof.
  intros Hb Hl Hc. inv Hb; [eapply body_definite|eapply body_indefinite]; eauto; congruence.
Qed.

Lemma content_octets_same h h' b : h_length h' = h_length h -> content_octets h' b = content_octets h b.
Proof. intros H. unfold content_octets. now rewrite H. Qed.

Lemma with_tag_element L i t r o : bytes_ok i -> parse_ber_with_tag L i t = Ok (r, o) ->
  exists bs c, i = bs ++ r /\ element 50 (o_header o) c bs /\ h_tag (o_header o) = t
    /\ value L 50 (plain (o_header o)) c (o_content o)
    /\ (forall n, h_length (o_header o) = Definite n -> n <= MAX_OBJECT_SIZE).
Proof.
  intros Hok H. apply with_tag_inv in H as (i1 & h & k & Hh & Ht & -> & Hc).
  apply header_from_ber_sound in Hh as (hb & -> & Hh); [|assumption].
  apply bytes_ok_app in Hok as [_ Hok].
  apply content_as_inv in Hc as (data & Hg & Hv & Hm).
  pose proof (get_content_any_ok _ _ _ _ _ Hg) as Hany.
  apply get_content_sound in Hg as (b & -> & Hb & ->); [|assumption].
  apply bytes_ok_app in Hok as [Hok _].
  exists (hb ++ b), (content_octets h b). cbn [o_header o_content].
  split; [now rewrite app_assoc|]. split; [|split; [|split]]; auto.
  - exists hb, b. repeat split; auto. eapply body_same; eauto.
  - apply conv_value in Hv.
    + cbn [a_header a_data o_content] in Hv. subst t. exact Hv.
    + exact Hany.
    + cbn [a_data]. eapply subslice_ok; [apply content_octets_sub|exact Hok].
Qed.

Lemma der_with_tag_element L i t r o : bytes_ok i -> parse_der_with_tag L i t = Ok (r, o) ->
  exists bs c, i = bs ++ r /\ definite_element (o_header o) c bs /\ h_tag (o_header o) = t
    /\ der_value L 50 (o_header o) c (o_content o).
Proof.
  intros Hok H. apply der_with_tag_iff in H as (h & c & k & Hh & Hl & Ht & -> & Hv).
  apply header_from_der_ber in Hh as [Hh _].
  apply header_from_ber_sound in Hh as (hb & -> & Hh); [|assumption].
  exists (hb ++ c), c. cbn [o_header o_content]. split; [now rewrite app_assoc|].
  split; [|auto]. exists hb. auto.
Qed.

Lemma parse_der_definite L i d r o : bytes_ok i -> parse_der_recursive L i d = Ok (r, o) ->
  exists bs c, i = bs ++ r /\ definite_element (o_header o) c bs
    /\ nlen c <= MAX_OBJECT_SIZE /\ der_object L d (o_header o) c o.
Proof.
  intros Hok H. apply parse_der_element in H as (hb & c & -> & Hh & Hl & Hm & Ho); [|assumption].
  exists (hb ++ c), c. split; [now rewrite app_assoc|]. split; [exists hb|]; auto.
Qed.

Lemma element_len d h c bs : element d h c bs -> (2 <= length bs)%nat.
Proof.
  intros (hb & b & -> & Hh & _). apply header_octets_len in Hh. rewrite app_length. lia.
Qed.
Lemma definite_element_len h c bs : definite_element h c bs -> (2 <= length bs)%nat.
Proof. intros H. eapply element_len, (definite_is_element _ _ _ 0), H. Qed.

(** ** Extension *)

Lemma any_from_der_app i x r a :
  any_from_der i = Ok (r, a) -> any_from_der (i ++ x) = Ok (r ++ x, a).
Proof.
  unfold any_from_der. intros H. bind_inv H. destruct a0 as [i1 h].
  rewrite (header_from_der_app _ x _ _ E). cbn [bind] in *.
  bind_inv H. bind_inv H. destruct a1 as [i2 s]. inv H. cbn [bind].
  now rewrite (take_streaming_app _ _ x _ _ E1).
Qed.

Lemma uint_from_ber_app n i x r v :
  uint_from_ber n i = Ok (r, v) -> uint_from_ber n (i ++ x) = Ok (r ++ x, v).
Proof.
  unfold uint_from_ber. intros H. bind_inv H. destruct a as [r' a].
  rewrite (any_from_ber_app _ x _ _ E). cbn [bind]. bind_inv H. inv H. reflexivity.
Qed.
Lemma int_from_ber_app n i x r v :
  int_from_ber n i = Ok (r, v) -> int_from_ber n (i ++ x) = Ok (r ++ x, v).
Proof.
  unfold int_from_ber. intros H. bind_inv H. destruct a as [r' a].
  rewrite (any_from_ber_app _ x _ _ E). cbn [bind]. bind_inv H. inv H. reflexivity.
Qed.
Lemma uint_from_der_app n i x r v :
  uint_from_der n i = Ok (r, v) -> uint_from_der n (i ++ x) = Ok (r ++ x, v).
Proof.
  unfold uint_from_der. intros H. bind_inv H. destruct a as [r' a].
  rewrite (any_from_der_app _ x _ _ E). cbn [bind]. bind_inv H. inv H. reflexivity.
Qed.
Lemma int_from_der_app n i x r v :
  int_from_der n i = Ok (r, v) -> int_from_der n (i ++ x) = Ok (r ++ x, v).
Proof.
  unfold int_from_der. intros H. bind_inv H. destruct a as [r' a].
  rewrite (any_from_der_app _ x _ _ E). cbn [bind]. bind_inv H. inv H. reflexivity.
Qed.

Lemma take_complete_app {E} (ops : err_ops E) l i x r s :
  take_complete ops l i = Ok (r, s) -> take_complete ops l (i ++ x) = Ok (r ++ x, s).
Proof. rewrite !take_complete_ok. intros [-> H]. now rewrite <- app_assoc. Qed.

Lemma ber_container_app {E A} (ops : err_ops E) (f : bytes -> header -> iresult E A) i x r v :
  parse_ber_container ops f i = Ok (r, v) -> parse_ber_container ops f (i ++ x) = Ok (r ++ x, v).
Proof.
  unfold parse_ber_container, ber_read_element_header. intros H.
  destruct (header_from_ber i) as [[i1 h]| | |] eqn:E1; try discriminate.
  rewrite (header_from_ber_app _ x _ _ E1). cbn [map_err bind] in *.
  destruct (h_length h) as [n|].
  - destruct (take_complete ops n i1) as [[i2 c]| | |] eqn:E2; try discriminate.
    rewrite (take_complete_app _ _ _ x _ _ E2). cbn [bind] in *.
    bind_inv H. destruct a. inv H. reflexivity.
  - destruct (ber_get_object_content i1 h MAX_RECURSION) as [[i2 c]| | |] eqn:E2; try discriminate.
    rewrite (get_content_app_mono _ _ _ x _ _ _ (le_n _) E2). cbn [bind map_err] in *.
    bind_inv H. destruct a. inv H. reflexivity.
Qed.

Lemma der_container_app {E A} (ops : err_ops E) (f : bytes -> header -> iresult E A) i x r v :
  parse_der_container ops f i = Ok (r, v) -> parse_der_container ops f (i ++ x) = Ok (r ++ x, v).
Proof.
  unfold parse_der_container, der_read_element_header. intros H.
  destruct (header_from_der i) as [[i1 h]| | |] eqn:E1; try discriminate.
  rewrite (header_from_der_app _ x _ _ E1). cbn [map_err bind] in *.
  destruct (h_length h) as [n|]; [|discriminate].
  destruct (take_complete ops n i1) as [[i2 c]| | |] eqn:E2; try discriminate.
  rewrite (take_complete_app _ _ _ x _ _ E2). cbn [bind] in *.
  bind_inv H. destruct a. inv H. reflexivity.
Qed.

(** Stability under extension makes accepted inputs prefix-free. *)
Lemma prefix_free {E A} (f : bytes -> iresult E A) :
  (forall i x r v, f i = Ok (r, v) -> f (i ++ x) = Ok (r ++ x, v)) ->
  forall p x v, f (p ++ x) = Ok ([], v) -> x <> [] -> forall r w, f p <> Ok (r, w).
Proof.
  intros Hf p x v H Hx r w H'. apply (Hf _ x) in H'. rewrite H' in H. inv H.
  now apply app_eq_nil in H1 as [_ ->].
Qed.
