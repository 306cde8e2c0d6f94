(** * Property C77: decoded trees are no larger than the input. *)

From Coq Require Import String.
From Verif Require Import Base Asn1rs Ber Der Combinators Spec SpecValue SpecSize
  LemBase LemHeader LemSkip LemParse LemTree LemNode Conformance PropFraming PropDer.
Local Open Scope string_scope.
Local Open Scope N_scope.
Local Open Scope list_scope.

Lemma content_octets_length h b : (length (content_octets h b) <= length b)%nat.
Proof. unfold content_octets. destruct (h_length h); [lia|]. rewrite firstn_length. lia. Qed.

Lemma ident_octets_length c p t ib : ident_octets c p t ib -> (1 <= length ib)%nat.
Proof. intros H. inv H; cbn [length]; lia. Qed.

Lemma length_octets_length l lb : length_octets l lb -> (1 <= length lb)%nat.
Proof. intros H. inv H; cbn [length]; lia. Qed.

Lemma element_size d h c bs : element d h c bs ->
  (raw_length h + 1 + length c <= length bs)%nat /\ (1 <= raw_length h)%nat.
Proof.
  intros (hb & b & -> & (ib & lb & -> & Hi & Hl & Hr & _) & _ & ->).
  pose proof (content_octets_length h b). apply ident_octets_length in Hi. apply length_octets_length in Hl.
  unfold raw_length. rewrite Hr, !app_length. lia.
Qed.

Lemma value_size L :
  (forall d h c k, value L d h c k -> (octets_content k + objects_content k <= length c)%nat)
  /\ (forall d c l, series L d c l -> (list_sum (map octets l) + list_sum (map objects l) <= length c)%nat).
Proof.
  apply value_series_ind; intros; cbn [octets_content objects_content map list_sum fold_right length
      oid_bytes a_data]; try lia.
  apply element_size in e as [Hs _]. cbn [octets objects]. rewrite app_length.
  unfold list_sum in *. lia.
Qed.

Lemma value_headers L :
  (forall d h c k, value L d h c k -> (objects_content k <= octets_content k)%nat)
  /\ (forall d c l, series L d c l -> (list_sum (map objects l) <= list_sum (map octets l))%nat).
Proof.
  apply value_series_ind; intros; cbn [octets_content objects_content map list_sum fold_right length
      oid_bytes a_data]; try lia.
  apply element_size in e as [_ Hs]. cbn [octets objects].
  unfold list_sum in *. lia.
Qed.

Lemma ber_size L i d r o : bytes_ok i -> parse_ber_recursive L i d = Ok (r, o) ->
  (octets o + objects o + length r <= length i)%nat /\ (objects o <= octets o)%nat.
Proof.
  intros Hok H. apply parse_ber_iff in H as (bs & c & -> & He & Hv); [|assumption].
  destruct o as [h k]. cbn [o_header o_content] in *. apply element_size in He as [H1 H2].
  pose proof (proj1 (value_size L) _ _ _ _ Hv). pose proof (proj1 (value_headers L) _ _ _ _ Hv).
  cbn [octets objects]. rewrite app_length. lia.
Qed.

(** The octets the tree refers to, counted as often as they are referred to, and
    one more per object, fit in the octets consumed; there are at most half as many
    objects as octets consumed. *)
Theorem C77_ber : forall L i d r o, bytes_ok i -> parse_ber_recursive L i d = Ok (r, o) ->
  (octets o + objects o <= length i - length r)%nat
  /\ (2 * objects o <= length i - length r)%nat.
Proof. intros L i d r o Hok H. apply ber_size in H; [|assumption]. lia. Qed.
Print Assumptions C77_ber.

Theorem C77_der : forall L i d r o, no_unknown_tag L -> bytes_ok i -> (1 <= d)%nat ->
  parse_der_recursive L i d = Ok (r, o) ->
  (octets o + objects o <= length i - length r)%nat
  /\ (2 * objects o <= length i - length r)%nat.
Proof.
  intros L i d r [h k] HL Hok Hd H. apply C28_der_in_ber in H as (k' & Hp & Hs); auto.
  cbn [o_header o_content] in *.
  assert (E : octets (Obj h k) = octets (Obj h k') /\ objects (Obj h k) = objects (Obj h k')).
  { destruct Hs as [->|(h1 & h2 & c & -> & -> & _)]; split; reflexivity. }
  destruct E as [-> ->]. apply ber_size in Hp; [|assumption]. lia.
Qed.
Print Assumptions C77_der.

(** Both bounds are reached. *)
Example C77_ex : exists o o',
  parse_ber SL (hx "30 08 05 00 30 04 05 00 05 00 ff") = Ok ([255], o)
  /\ objects o = 5%nat
  /\ parse_der SL (hx "30 06 04 02 07 08 05 00 ff") = Ok ([255], o')
  /\ (octets o' + objects o' = 8)%nat.
Proof.
  do 2 eexists. split; [vm_compute; reflexivity|]. split; [reflexivity|].
  split; [vm_compute; reflexivity|]. reflexivity.
Qed.
