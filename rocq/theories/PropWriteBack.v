(** * C57, C69: writing back what was read *)

From Coq Require Import String.
From Verif Require Import Base Asn1rs Ber Der Combinators Serialize Conformance Spec SpecValue SpecComb SpecSer.
From Verif Require Import LemBase LemHeader LemSkip LemParse LemDer LemText LemTree LemNode LemComb LemFrame LemInt LemSer.
From Verif Require Import PropDer PropSer PropEnc.
Local Open Scope string_scope. Local Open Scope N_scope. Local Open Scope list_scope.

(** ** C57 for objects read by the DER reader *)
Theorem C57_der : forall L d bs r o, no_unknown_tag L -> bytes_ok bs -> bytes_ok r -> nlen bs < 2 ^ 64 -> (1 <= d)%nat ->
  parse_der_recursive L (bs ++ r) d = Ok (r, o) -> no_times o ->
  (to_vec L o = Ok bs <-> canonical bs).
Proof.
  intros L d bs r [h k'] HU Hok Hr Hn Hd H Hno.
  apply C28_der_in_ber in H as (k & H & Hk); auto; [|apply bytes_ok_app; auto]. cbn [o_header o_content] in *.
  assert (E : to_vec L (Obj h k') = to_vec L (Obj h k)) by (destruct Hk as [->|(a & b & c & -> & -> & _)]; reflexivity).
  rewrite E. apply (C57_exact L d bs r); auto.
  destruct Hk as [->|(a & b & c & -> & -> & _)]; [exact Hno|].
  intros n t Hnode. inv Hnode. split; discriminate.
Qed.
Print Assumptions C57_der.

(** ** C69: the raw encoder *)

(** What is written for the contents is not the octets of a body that ends with an
    end-of-contents. *)
Lemma body_tail d h b : body d h b -> h_length h = Indefinite -> exists c, b = c ++ skipn (length b - 2) b /\ content_octets h b = c
  /\ length b = (length c + 2)%nat.
Proof.
  intros Hb Hl. exists (firstn (length b - 2) b). rewrite firstn_skipn. unfold content_octets. rewrite Hl.
  split; [reflexivity|]. split; [reflexivity|]. rewrite firstn_length.
  assert (2 <= length b)%nat; [|lia].
  inv Hb; [congruence|]. match goal with H : until_eoc _ _ |- _ => clear - H; induction H as [d h hb Hh|d h hb b rest Hh Hn Hb Hu IH] end.
  - now apply header_octets_len in Hh.
  - rewrite !app_length. lia.
Qed.

Lemma gen_many_series L : forall d c l v x, series L d c l -> gen_many (ber_encode_object L) l = Ok v -> nlen v < 2 ^ 64 ->
  v = c ++ x -> x = [].
Proof.
  intros d c l v x Hs. revert v x. induction Hs as [d|d bs h c k rest l He Hv Hs IH]; intros v x E Hn Ev.
  - cbn in E. injection E as <-. now symmetry.
  - change (gen_many (ber_encode_object L) (Obj h k :: l))
      with (gen_seq (ber_encode_object L (Obj h k)) (gen_many (ber_encode_object L) l)) in E.
    unfold gen_seq in E. bind_inv E. bind_inv E. injection E as <-. rename a into y, a0 into z.
    unfold nlen in Hn. rewrite app_length in Hn.
    cbn [ber_encode_object] in E0. apply with_header_element in E0 as (w & _ & _ & Hy & _); [|unfold nlen; lia].
    apply definite_is_element with (D := 49%nat) in Hy. rewrite <- app_assoc in Ev.
    destruct (element_first _ _ _ _ _ _ _ _ Hy He Ev) as (_ & _ & -> & ->).
    eapply IH; eauto. unfold nlen. lia.
Qed.

Theorem C69_write_back : forall L d bs r o, bytes_ok bs -> bytes_ok r -> nlen bs < 2 ^ 64 ->
  parse_ber_recursive L (bs ++ r) d = Ok (r, o) -> no_times o ->
  (ber_encode_object_raw L (o_header o) (o_content o) = Ok bs <-> canonical bs).
Proof.
  intros L d bs r o Hok Hr Hn H Hno. pose proof (C57_exact L d bs r o Hok Hr Hn H Hno) as Hex.
  apply parse_ber_iff in H as (bs' & c & E & He & Hval); [|apply bytes_ok_app; auto].
  apply app_inv_tail in E. subst bs'. destruct o as [h k]. cbn [o_header o_content] in *.
  unfold ber_encode_object_raw, gen_seq. split.
  - intros H. apply Hex. bind_inv H. bind_inv H. injection H as H. rename a into x, a0 into v, E0 into Ev.
    assert (Ht : h_tag h <= 30) by now apply encode_header_ok in E.
    destruct He as (hb & b & Eb & Hh & Hb & Ec).
    destruct (h_length h) as [n|] eqn:El.
    + assert (Hn64 : n < 2 ^ 64).
      { destruct Hh as (ib & lb & _ & _ & Hlb & _). rewrite El in Hlb. inv Hlb; [lia|assumption]. }
      destruct (encode_header_spec h n Ht El Hn64) as (x' & Ex' & Hx & _). rewrite E in Ex'. injection Ex' as <-.
      pose proof (header_from_ber_complete _ _ v Hx) as E1. rewrite H, Eb, (header_from_ber_complete _ _ b Hh) in E1.
      injection E1 as -> Eh.
      assert (Env : n = N.of_nat (length v)) by (inv Hb; congruence).
      unfold to_vec. cbn [ber_encode_object]. unfold with_header. rewrite Ev. cbn [bind].
      replace (with_length h (Definite (nlen v))) with h; [rewrite E; cbn [bind]; now rewrite H|].
      unfold nlen. rewrite <- Env, <- El. destruct h; reflexivity.
    + exfalso.
      assert (Hp : h_constructed h = true) by (destruct Hh as (? & ? & _ & _ & _ & _ & Hi); auto).
      assert (Hx : header_octets (read_back h Indefinite) x).
      { unfold ber_encode_header in E. destruct (30 <? h_tag h) eqn:Et; [discriminate|]. rewrite El in E. cbn [encode_length gen_seq bind] in E.
        injection E as <-. rewrite (proj1 (leading_octet_eq _ _ _ Ht)).
        exists [leading_octet (h_class h) (h_constructed h) (h_tag h)], [128]. cbn. repeat split; auto; [apply ident_low; lia|constructor]. }
      pose proof (header_from_ber_complete _ _ v Hx) as E1. rewrite H, Eb, (header_from_ber_complete _ _ b Hh) in E1.
      injection E1 as -> Eh. destruct (body_tail _ _ _ Hb El) as (c' & Ev' & Ec' & Hlen). rewrite Ec' in Ec. subst c'.
      assert (Hv64 : nlen v < 2 ^ 64) by (rewrite <- H in Hn; unfold nlen in *; rewrite app_length in Hn; lia).
      assert (Hneq : forall w, ber_encode_object_content L k = Ok w -> (length w <= length c + 1)%nat -> False).
      { intros w Ew Hw. rewrite Ev in Ew. injection Ew as ->. lia. }
      inversion Hval; subst k; try congruence; try (eapply Hneq; [reflexivity|cbn [length oid_bytes a_data]; lia]).
      * match goal with Hs : series _ _ _ _ |- _ => pose proof (gen_many_series L _ _ _ v _ Hs Ev Hv64 Ev') as Ex end.
        rewrite Ex, app_nil_r in Ev'. rewrite Ev' in Hlen. lia.
      * match goal with Hs : series _ _ _ _ |- _ => pose proof (gen_many_series L _ _ _ v _ Hs Ev Hv64 Ev') as Ex end.
        rewrite Ex, app_nil_r in Ev'. rewrite Ev' in Hlen. lia.
      * destruct (Hno _ t (node_self _)) as [Hf _]. now apply Hf.
      * destruct (Hno _ t (node_self _)) as [_ Hf]. now apply Hf.
  - intros Hc. apply Hex in Hc. unfold to_vec in Hc.
    destruct (written_back_header L h c bs k He Hc Hn) as (Ek & hb & -> & (lb & -> & Ht & Hlb & Hs) & Hl).
    cbn [ber_encode_object] in Hc. unfold with_header in Hc. rewrite Ek in Hc. cbn [bind] in Hc.
    replace (with_length h (Definite (nlen c))) with h in Hc; [|unfold nlen; rewrite <- Hl; destruct h; reflexivity].
    rewrite Ek. exact Hc.
Qed.
Print Assumptions C69_write_back.

(** A SEQUENCE of a BOOLEAN and an element of another class comes back; one with a long
    length, or of indefinite length, does not. *)
Example C69_write_back_ex :
  (exists o, parse_ber SL [48; 7; 1; 1; 255; 161; 2; 5; 0] = Ok ([], o)
     /\ ber_encode_object_raw SL (o_header o) (o_content o) = Ok [48; 7; 1; 1; 255; 161; 2; 5; 0]
     /\ to_vec SL o = Ok [48; 7; 1; 1; 255; 161; 2; 5; 0])
  /\ (exists o, parse_ber SL [48; 129; 3; 1; 1; 255] = Ok ([], o)
     /\ ber_encode_object_raw SL (o_header o) (o_content o) = Ok [48; 3; 1; 1; 255])
  /\ (exists o, parse_ber SL [48; 128; 1; 1; 255; 0; 0] = Ok ([], o)
     /\ ber_encode_object_raw SL (o_header o) (o_content o) = Ok [48; 128; 1; 1; 255]
     /\ to_vec SL o = Ok [48; 3; 1; 1; 255]).
Proof.
  split; [|split]; eexists; (split; [vm_compute; reflexivity|]); repeat split; vm_compute; reflexivity.
Qed.
