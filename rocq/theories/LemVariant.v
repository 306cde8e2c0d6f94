(** * Changing the raw tag of a header; DER objects as BER values. *)

From Verif Require Import Base Asn1rs Ber Der Combinators Spec SpecValue SpecComb
  LemBase LemHeader LemSkip LemParse LemDer LemText LemTree LemNode LemComb LemFrame.

Lemma value_plain L d h c k : value L d (plain h) c k -> h_class h = Universal ->
  (value L d h c k /\ forall a, k <> CUnknown a)
  \/ (k = CUnknown (mkAny (plain h) c) /\ value L d h c (CUnknown (mkAny h c))).
Proof.
  intros Hv Hc. inv Hv; cbn [plain header_new h_class h_tag h_constructed h_length] in *;
    try congruence; [right|left..]; split; try (intros; discriminate); auto;
    first [now apply v_unmapped|econstructor; eauto].
Qed.

Lemma value_to_plain L d h c k : value L d h c k -> h_class h = Universal ->
  (value L d (plain h) c k /\ forall a, k <> CUnknown a)
  \/ (k = CUnknown (mkAny h c) /\ value L d (plain h) c (CUnknown (mkAny (plain h) c))).
Proof.
  intros Hv Hc. inv Hv; try congruence; [right|left..]; split; try (intros; discriminate); auto;
    first [now apply v_unmapped|econstructor; eauto].
Qed.

Lemma plain_same h : h_class h = Universal -> same_header h (plain h).
Proof. intros H. repeat split; auto. Qed.

Lemma value_plain_same L d h c k : value L d (plain h) c k -> h_class h = Universal ->
  exists k', value L d h c k' /\ same_content k' k.
Proof.
  intros Hv Hc. destruct (value_plain _ _ _ _ _ Hv Hc) as [[Hv' _]|[-> Hv']].
  - exists k. split; [exact Hv'|]. now left.
  - eexists. split; [exact Hv'|]. right.
    exists h, (plain h), c. auto using plain_same.
Qed.

Lemma der_bits_value L d h c k : h_class h = Universal -> h_tag h = 3 -> h_constructed h = false ->
  der_bits c k -> value L (S d) h c k.
Proof. intros Hc Ht Hp (u & data & -> & _ & -> & _). now constructor. Qed.

(** Whatever the DER parser accepts is a BER value. *)
Lemma der_object_value L d h c o : no_unknown_tag L -> bytes_ok c -> (1 <= d)%nat ->
  h_length h = Definite (nlen c) -> der_object L d h c o ->
  exists k', value L d h c k' /\ same_content k' (o_content o) /\ o_header o = h.
Proof.
  intros HL Hok Hd Hl Ho.
  destruct (der_object_cases _ _ _ _ _ HL Ho) as [(k & Hc & Hv & ->)|(Hc & _ & ->)]; cbn [o_content o_header].
  - destruct (der_value_value _ _ _ _ _ Hok Hl Hv) as [(Hb & H3 & Hp)|(Hv' & _)].
    + exists k. split; [|split; [left|]; reflexivity].
      destruct d; [lia|]. now apply der_bits_value.
    + destruct (value_plain_same _ _ _ _ _ Hv' Hc) as (k' & H1 & H2). eauto.
  - destruct d; [lia|]. eexists. split; [now apply v_other_class|]. split; [left|]; reflexivity.
Qed.
