(** * C83, C85: exactly which values are decoded and encoded correctly *)

From Coq Require Import String.
From Verif Require Import Base Asn1rs Ber Der Serialize Conformance Spec SpecValue SpecComb SpecSer SpecOid SpecAbstract SpecExact.
From Verif Require Import LemBase LemHeader LemSkip LemParse LemDer LemText LemTree LemNode LemComb LemFrame LemVariant LemInt LemOid LemSer LemAbstract LemUnique.
From Verif Require Import PropFraming PropDer PropSer PropEnc PropAbstract PropAbstractEnc.
Local Open Scope string_scope.
Local Open Scope N_scope.
Local Open Scope list_scope.

(** ** Where an encoding ends *)

Lemma ident_cut c pc t ib c' pc' t' ib' r r' : identifier c pc t ib -> ident_octets c' pc' t' ib' ->
  ib ++ r = ib' ++ r' -> c' = c /\ pc' = pc /\ t' = t mod 2 ^ 32 /\ ib = ib' /\ r = r'.
Proof.
  intros [(Ht & ->)|(Ht & d & ds & Hd & Hf & Ev & ->)] H' E; inversion H' as [c1 pc1 t1 Ht1|c1 pc1 ds1 Hl1 Hf1]; subst;
    pose proof (f_equal (@tl N) E) as Er; apply (f_equal (hd 0)) in E; cbn [app hd tl] in E, Er;
    apply leading_inj in E as (-> & -> & Et); try lia.
  - subst. rewrite N.mod_small; [auto|]. eapply N.lt_trans; [exact Ht|reflexivity].
  - apply continued_cut in Er as [E2 ->]; auto; try discriminate; [rewrite E2; auto 6|].
    intros ->. cbn in Hl1. lia.
Qed.

Lemma element_cut c pc t ib lb x d h k bs r r' : identifier c pc t ib ->
  length_octets (Definite (N.of_nat (length x))) lb -> element d h k bs -> (ib ++ lb ++ x) ++ r = bs ++ r' ->
  h_class h = c /\ h_constructed h = pc /\ h_tag h = t mod 2 ^ 32 /\ k = x /\ bs = ib ++ lb ++ x /\ r = r'.
Proof.
  intros Hi Hl (hb & b & -> & (ib' & lb' & -> & Hi' & Hl' & _ & _) & Hb & ->) E. rewrite <- !app_assoc in E.
  destruct (ident_cut _ _ _ _ _ _ _ _ _ _ Hi Hi' E) as (-> & -> & -> & -> & E2).
  unfold content_octets. destruct (h_length h) as [n|] eqn:En.
  - destruct (length_cut _ _ _ _ _ _ Hl Hl' E2) as (<- & -> & E3). inversion Hb; subst; [|congruence].
    assert (Hn : N.of_nat (length b) = N.of_nat (length x)) by congruence.
    apply app_inj_length in E3 as [-> ->]; [|lia]. rewrite app_assoc. auto 8.
  - exfalso. inversion Hl'; subst. inversion Hl; subst; cbn [app] in E2; cons_split; lia.
Qed.

Lemma wrapped_der c t i bs : wrapped SpecAbstract.Der c t i bs ->
  exists ib lb, identifier c true t ib /\ definite_length SpecAbstract.Der (N.of_nat (length i)) lb /\ bs = ib ++ lb ++ i.
Proof. intros (ib & Hib & [(lb & Hlb & ->)|(H & _)]); [eauto|contradiction]. Qed.

Lemma wrapped_cut_element c t i bs d h k bs' r r' : wrapped SpecAbstract.Der c t i bs -> element d h k bs' ->
  bs ++ r = bs' ++ r' ->
  h_class h = c /\ h_constructed h = true /\ h_tag h = t mod 2 ^ 32 /\ k = i /\ bs = bs' /\ r = r'.
Proof.
  intros Hw He E. apply wrapped_der in Hw as (ib & lb & Hib & [Hlb _] & ->).
  destruct (element_cut _ _ _ _ _ _ _ _ _ _ _ _ Hib Hlb He E) as (? & ? & ? & ? & -> & ?). auto 8.
Qed.

Lemma primitive_identifier ru v c : contents ru v c ->
  identifier Universal false (value_tag v) [leading_octet Universal false (value_tag v)] /\ value_tag v mod 2 ^ 32 = value_tag v.
Proof.
  intros H. apply contents_tag in H. split; [left; auto|]. apply N.mod_small. eapply N.lt_trans; [exact H|reflexivity].
Qed.

(** A distinguished encoding and an element of the same input are the same octets. *)
Lemma encodes_cut_element n v bs d h k bs' r r' : encodes SpecAbstract.Der n v bs -> element d h k bs' ->
  bs ++ r = bs' ++ r' -> bs = bs' /\ r = r'.
Proof.
  intros H He E. inversion H; subst; try discriminate.
  - match goal with Hc : contents _ _ _, Hl : definite_length _ _ _ |- _ =>
      destruct (primitive_identifier _ _ _ Hc) as [Hi _]; destruct Hl as [Hl _];
      destruct (element_cut _ _ _ _ _ _ _ _ _ _ _ _ Hi Hl He E) as (_ & _ & _ & _ & -> & ->) end. auto.
  - match goal with Hw : wrapped _ _ _ _ _ |- _ =>
      destruct (wrapped_cut_element _ _ _ _ _ _ _ _ _ _ Hw He E) as (_ & _ & _ & _ & -> & ->) end. auto.
  - match goal with Hw : wrapped _ _ _ _ _ |- _ =>
      destruct (wrapped_cut_element _ _ _ _ _ _ _ _ _ _ Hw He E) as (_ & _ & _ & _ & -> & ->) end. auto.
  - match goal with Hw : wrapped _ _ _ _ _ |- _ =>
      destruct (wrapped_cut_element _ _ _ _ _ _ _ _ _ _ Hw He E) as (_ & _ & _ & _ & -> & ->) end. auto.
Qed.

(** ** Decoding *)

Lemma wrapped_ok ru c t i bs : wrapped ru c t i bs -> bytes_ok i -> bytes_ok bs.
Proof.
  intros (ib & Hib & [(lb & [Hlb _] & ->)|(_ & ->)]) Hi; apply identifier_ok in Hib; rewrite ?bytes_ok_app.
  - apply length_ok in Hlb. auto.
  - split; [exact Hib|]. constructor; [lia|]. apply bytes_ok_app. split; [exact Hi|]. repeat constructor; lia.
Qed.

Lemma encodes_ok ru :
  (forall n v bs, encodes ru n v bs -> bytes_ok bs) /\ (forall n l c, encode_all ru n l c -> bytes_ok c).
Proof.
  apply encodes_all_ind; intros; try (eapply wrapped_ok; eassumption).
  - match goal with H : contents _ _ _ |- _ => pose proof (contents_tag _ _ _ H); apply contents_ok in H end.
    match goal with H : definite_length _ _ _ |- _ => destruct H as [H _]; apply length_ok in H end.
    constructor; [apply leading_ok; lia|]. apply bytes_ok_app. auto.
  - constructor.
  - apply bytes_ok_app. auto.
Qed.

Lemma der_readable L : accepts_oids L ->
  (forall n v bs, encodes SpecAbstract.Der n v bs -> readable v ->
     exists h c k, definite_element h c bs /\ value L n h c k /\ denotes SpecAbstract.Der (Obj h k) v /\ der_element_ok h c)
  /\ (forall n l c, encode_all SpecAbstract.Der n l c -> Forall readable l ->
     exists os, series L n c os /\ denote_all SpecAbstract.Der os l).
Proof.
  intros HL. apply encodes_all_ind; try discriminate.
  - intros n v c lb Hc [Hl _] Hr. pose proof (contents_tag _ _ _ Hc) as Ht.
    assert (Hs : supported v) by (inversion Hr; subst; try constructor; auto; inversion Hc).
    set (ib := [leading_octet Universal false (value_tag v)]).
    set (h := mkHeader Universal false (value_tag v) (Definite (N.of_nat (length c))) (Some ib)).
    destruct (contents_value SpecAbstract.Der L n h v c HL Hs Hc) as (k & Hv & Hd); try reflexivity.
    exists h, c, k. split; [|split; [exact Hv|split; [exact Hd|]]].
    + exists (ib ++ lb). split; [reflexivity|]. split; [|reflexivity]. exists ib, lb. cbn.
      repeat split; auto; try discriminate. now apply ident_low.
    + now apply contents_der with v.
  - intros n l c bs Hl IH Hw Hr. assert (Hf : Forall readable l) by (inversion Hr; subst; [assumption|contradiction]).
    destruct (IH Hf) as (os & Hs & Hd).
    destruct (wrapped_node _ n _ _ _ _ Hw ltac:(lia) (proj2 (encodes_ok _) _ _ _ Hl) ltac:(congruence))
      as (h & _ & _ & H1 & H2 & H3 & _ & Hdef).
    exists h, c, (CSequence os). split; [auto|]. split; [now apply v_sequence|]. split; [now constructor|]. auto using constructed_der.
  - intros n l c bs Hl IH Hw Hr. assert (Hf : Forall readable l) by (inversion Hr; subst; [assumption|contradiction]).
    destruct (IH Hf) as (os & Hs & Hd).
    destruct (wrapped_node _ n _ _ _ _ Hw ltac:(lia) (proj2 (encodes_ok _) _ _ _ Hl) ltac:(congruence))
      as (h & _ & _ & H1 & H2 & H3 & _ & Hdef).
    exists h, c, (CSet os). split; [auto|]. split; [now apply v_set|]. split; [now constructor|]. auto using constructed_der.
  - intros n cl t v c bs Hcl Hv _ Hw Hr. assert (Ht : t < 2 ^ 32) by (inversion Hr; subst; [assumption|contradiction]).
    destruct (wrapped_node _ n _ _ _ _ Hw Ht (proj1 (encodes_ok _) _ _ _ Hv) ltac:(congruence))
      as (h & _ & _ & H1 & H2 & H3 & _ & Hdef).
    exists h, c, (CUnknown (mkAny h c)). split; [auto|]. split; [apply v_other_class; congruence|]. split.
    + rewrite <- H1, <- H2. econstructor; [congruence|reflexivity|reflexivity|exact Hv].
    + intros E. congruence.
  - intros n _. exists []. split; constructor.
  - intros n v bs l rest Hv IHv Hl IHl Hr. inv Hr.
    destruct IHv as (h & c & k & He & Hval & Hd & _); auto. destruct IHl as (os & Hs & Hds); auto.
    exists (Obj h k :: os). split; [|now constructor]. econstructor; eauto. now apply definite_is_element.
Qed.

Lemma value_readable L :
  (forall n v bs, encodes SpecAbstract.Der n v bs -> forall d h h' c k bs' r r', element 50 h c bs' ->
     bs ++ r = bs' ++ r' -> value L d h' c k -> denotes SpecAbstract.Der (Obj h k) v -> readable v)
  /\ (forall n l c, encode_all SpecAbstract.Der n l c -> forall d os, series L d c os ->
     denote_all SpecAbstract.Der os l -> Forall readable l).
Proof.
  apply encodes_all_ind; try discriminate.
  - intros n v c lb Hc Hl d h h' c' k bs' r r' He E Hv Hd.
    destruct v; try (now apply rd_other); try (now inversion Hc).
    inversion Hd; subst.
    apply rd_enumerated. inversion Hv; subst. lia.
  - intros n l c bs Hl IH Hw d h h' c' k bs' r r' He E Hv Hd.
    destruct (wrapped_cut_element _ _ _ _ _ _ _ _ _ _ Hw He E) as (_ & _ & _ & -> & _).
    inversion Hd; subst.
    apply rd_sequence. inversion Hv; subst. eauto.
  - intros n l c bs Hl IH Hw d h h' c' k bs' r r' He E Hv Hd.
    destruct (wrapped_cut_element _ _ _ _ _ _ _ _ _ _ Hw He E) as (_ & _ & _ & -> & _).
    inversion Hd; subst.
    apply rd_set. inversion Hv; subst. eauto.
  - intros n cl t v c bs Hcl Hv' _ Hw d h h' c' k bs' r r' He E Hv Hd.
    destruct (wrapped_cut_element _ _ _ _ _ _ _ _ _ _ Hw He E) as (_ & _ & Ht & _).
    apply rd_explicit. assert (Et : h_tag h = t) by (inversion Hd; subst; auto).
    rewrite <- Et, Ht. apply N.mod_lt. discriminate.
  - intros. constructor.
  - intros n v bs l rest Hv IHv Hl IHl d os Hs Hd. inversion Hd as [|o1 os1 v1 vs1 Hd1 Hds1]; subst. inversion Hs as [|d0 bs0 h c k rest0 os2 He Hval Hs0 E1 E2]; subst.
    assert (E3 : bs ++ rest = bs0 ++ rest0) by congruence. destruct (encodes_cut_element _ _ _ _ _ _ _ _ _ Hv He E3) as [-> ->]. constructor; [|eauto].
    eapply (IHv d h h c k bs0 []); eauto.
Qed.

(** For every distinguished encoding of at most 49 levels and 2^32 - 1 octets: both
    readers return an object that stands for the value exactly if the value is
    [readable]. *)
Theorem C83_exact : forall L n v bs r, accepts_oids L -> no_unknown_tag L -> (n <= 49)%nat ->
  bytes_ok r -> N.of_nat (length bs) <= 4294967295 -> encodes SpecAbstract.Der n v bs ->
  ((exists o, parse_der L (bs ++ r) = Ok (r, o) /\ denotes SpecAbstract.Der o v) <-> readable v)
  /\ ((exists o, parse_ber L (bs ++ r) = Ok (r, o) /\ denotes SpecAbstract.Der o v) <-> readable v).
Proof.
  intros L n v bs r HL HU Hn Hr Hlen H. pose proof (proj1 (encodes_ok _) _ _ _ H) as Hok.
  assert (Hokr : bytes_ok (bs ++ r)) by (apply bytes_ok_app; auto).
  assert (Hfw : readable v -> exists h c k, definite_element h c bs /\ value L 50 h c k
    /\ denotes SpecAbstract.Der (Obj h k) v /\ der_element_ok h c).
  { intros Hv. destruct (proj1 (der_readable L HL) _ _ _ H Hv) as (h & c & k & H1 & H2 & H3 & H4).
    exists h, c, k. split; [exact H1|]. split; [|auto]. eapply (proj1 (value_mono_mut L)); [exact H2|lia]. }
  split; split.
  - intros (o & Ho & Hd). apply C56_parse_der_exact in Ho as (bs' & c & E & He & _ & _ & Hv); auto;
      [|change MAX_RECURSION with 50%nat; lia].
    destruct o as [h k]. cbn [o_header o_content] in *. eapply (proj1 (value_readable L)); eauto.
    now apply definite_is_element.
  - intros Hv. destruct (Hfw Hv) as (h & c & k & Hdef & Hv50 & Hd & Hel). exists (Obj h k). split; [|exact Hd].
    apply C56_parse_der_exact; auto; [change MAX_RECURSION with 50%nat; lia|].
    exists bs, c. cbn [o_header o_content]. split; [reflexivity|]. split; [exact Hdef|]. split.
    { destruct Hdef as (hb & -> & _). rewrite app_length in Hlen. lia. }
    split; [exact Hel|]. change MAX_RECURSION with 50%nat.
    destruct (h_class h) eqn:Ec; try (rewrite der_view_other by congruence; exact Hv50).
    rewrite der_view_universal by exact Ec.
    destruct (value_to_plain _ _ _ _ _ Hv50 Ec) as [[Hp _]|[-> _]]; [exact Hp|].
    exfalso. inversion Hd; subst; [|congruence].
    match goal with E : text_content ?t _ = _ |- _ => destruct t; discriminate end.
  - intros (o & Ho & Hd). apply C55_parse_ber_exact in Ho as (bs' & c & E & He & Hv); auto.
    destruct o as [h k]. cbn [o_header o_content] in *. eapply (proj1 (value_readable L)); eauto.
  - intros Hv. destruct (Hfw Hv) as (h & c & k & Hdef & Hv50 & Hd & Hel). exists (Obj h k). split; [|exact Hd].
    apply C55_parse_ber_exact; auto. exists bs, c. cbn [o_header o_content]. split; [reflexivity|].
    split; [now apply definite_is_element|]. exact Hv50.
Qed.
Print Assumptions C83_exact.

(** ** Encoding *)

Scheme built_mind := Induction for builds Sort Prop
with built_all_mind := Induction for builds_all Sort Prop.
Combined Scheme built_all_ind' from built_mind, built_all_mind.

Lemma stands_built :
  (forall n o v, stands SpecAbstract.Der n o v -> builds n o v)
  /\ (forall n os vs, stand_all SpecAbstract.Der n os vs -> builds_all n os vs).
Proof.
  apply stands_all_ind; intros.
  - now apply bt_primitive.
  - now apply bt_sequence.
  - now apply bt_set.
  - now apply bt_explicit.
  - now apply bt_unknown.
  - constructor.
  - now constructor.
Qed.

Lemma written_wrapped c t i bs h g m : wrapped SpecAbstract.Der c t i bs -> with_header h g = Ok bs ->
  nlen bs < 2 ^ 64 -> m = tt -> g = Ok i /\ nlen i < 2 ^ 64.
Proof.
  intros Hw H Hn _. destruct (with_header_element _ _ _ H Hn) as (x & Eg & Hx & He & _).
  apply definite_is_element with (D := 49%nat) in He.
  destruct (wrapped_cut_element _ _ _ _ _ _ _ _ [] [] Hw He eq_refl) as (_ & _ & _ & <- & _). auto.
Qed.

Lemma built_stands L :
  (forall n o v, builds n o v -> forall bs m, to_vec L o = Ok bs -> nlen bs < 2 ^ 64 ->
     encodes SpecAbstract.Der m v bs -> stands SpecAbstract.Der n o v)
  /\ (forall n os vs, builds_all n os vs -> forall c m, gen_many (ber_encode_object L) os = Ok c -> nlen c < 2 ^ 64 ->
     encode_all SpecAbstract.Der m vs c -> stand_all SpecAbstract.Der n os vs).
Proof.
  unfold to_vec. apply built_all_ind'.
  - intros. now apply st_primitive.
  - intros n h e Hh He bs m H Hn Hd. apply st_primitive; [exact Hh|].
    cbn [ber_encode_object ber_encode_object_content] in H.
    pose proof (min_octets e He) as Hmin. cbv zeta in Hmin. revert Hmin H. generalize (skip_zeroes (to_be_bytes 8 e)).
    intros w (Ho & Hu & _ & Hk) H.
    destruct (with_header_element _ _ _ H Hn) as (x & Eg & _ & Hx & _). injection Eg as <-.
    apply definite_is_element with (D := 49%nat) in Hx.
    inversion Hd as [n1 v1 c lb Hc [Hl _]| | | |]; subst; [|discriminate].
    destruct (primitive_identifier _ _ _ Hc) as [Hi _].
    destruct (element_cut _ _ _ _ _ _ _ _ _ _ [] [] Hi Hl Hx eq_refl) as (_ & _ & _ & Ec & _).
    subst w.
    inversion Hc as [| | | | | | |c1 Hok Hm E1|]; subst c1.
    destruct c as [|b c]; [contradiction|]. specialize (Hk (length c) eq_refl).
    rewrite E1. apply (stored_enumerated _ _ (length c)); [exact He|]. change (256 ^ N.of_nat (length c)) with (pw (length c)).
    split; [exact Hk|]. apply bytes_ok_cons in Ho as [Hb Ho]. pose proof (unsigned_pw _ Ho) as Hp.
    cbn [twos_complement length] in E1. rewrite unsigned_cons in *. destruct (128 <=? b) eqn:E; [exfalso|nia].
    rewrite Nat2Z.inj_succ, Z.pow_succ_r in E1 by lia.
    assert (Ep : (256 ^ Z.of_nat (length c))%Z = Z.of_N (pw (length c))).
    { unfold pw. rewrite N2Z.inj_pow, nat_N_Z. reflexivity. }
    rewrite Ep in E1. pose proof (pw_pos (length c)). lia.
  - intros n h os vs Hh Hos IH bs m H Hn Hd. apply st_sequence; [exact Hh|].
    inversion Hd as [n1 v1 c lb Hc| n1 l c bs1 Ha Hw | | |]; subst; [inversion Hc| |discriminate].
    destruct (written_wrapped _ _ _ _ _ _ tt Hw H Hn eq_refl) as [Eg Hx]. eauto.
  - intros n h os vs Hh Hos IH bs m H Hn Hd. apply st_set; [exact Hh|].
    inversion Hd as [n1 v1 c lb Hc| | n1 l c bs1 Ha Hw | |]; subst; [inversion Hc| |discriminate].
    destruct (written_wrapped _ _ _ _ _ _ tt Hw H Hn eq_refl) as [Eg Hx]. eauto.
  - intros n h cl t o v Hh Hcl Ho IH bs m H Hn Hd.
    pose proof (with_header_ok _ _ _ H) as (_ & _ & _ & _ & _ & Ht). destruct Hh as (H1 & H2 & H3).
    apply st_explicit; [repeat split; assumption|exact Hcl|lia|].
    inversion Hd as [n1 v1 c lb Hc| | |n1 c1 t1 v1 c bs1 _ He Hw|]; subst; [inversion Hc| |discriminate].
    destruct (written_wrapped _ _ _ _ _ _ tt Hw H Hn eq_refl) as [Eg Hx]. eauto.
  - intros n h cl t a v Hh Hcl He bs m H Hn Hd.
    pose proof (with_header_ok _ _ _ H) as (_ & _ & _ & _ & _ & Ht). destruct Hh as (H1 & H2 & H3).
    apply st_unknown; [repeat split; assumption|exact Hcl|lia|exact He].
  - intros. constructor.
  - intros n o os v vs Ho IHo Hos IHos c m H Hn Hd. cbn [gen_many] in H. apply gen_seq_ok in H as (a & b & Ea & Eb & ->).
    unfold nlen in Hn. rewrite app_length in Hn. inversion Hd as [|m1 v1 bs l rest Hv Hl E1 E2 E3]; subst.
    assert (Hx : exists d h x, element d h x a).
    { destruct o as [h k]. destruct (with_header_element _ _ _ Ea ltac:(unfold nlen; lia)) as (x & _ & _ & Hx & _).
      apply definite_is_element with (D := 49%nat) in Hx. eauto. }
    destruct Hx as (d & h & x & Hx).
    assert (E : bs ++ rest = a ++ b) by congruence.
    destruct (encodes_cut_element _ _ _ _ _ _ _ _ _ Hv Hx E) as [-> ->].
    constructor; [eapply IHo|eapply IHos]; eauto; unfold nlen; lia.
Qed.

(** For every object built for a value with an output below 2^64 octets: the encoder
    succeeds and writes a distinguished encoding of the value exactly if the object
    [stands] for it. *)
Theorem C85_exact : forall L n o v, builds n o v -> (forall bs, to_vec L o = Ok bs -> nlen bs < 2 ^ 64) ->
  ((exists bs m, to_vec L o = Ok bs /\ encodes SpecAbstract.Der m v bs) <-> stands SpecAbstract.Der n o v).
Proof.
  intros L n o v Hb Hlen. split.
  - intros (bs & m & E & Hd). eapply (proj1 (built_stands L)); eauto.
  - intros Hs. destruct (C85_partial L n o v Hs) as (bs & E & Hd). exists bs, n. auto.
Qed.
Print Assumptions C85_exact.

(** SEQUENCE { [0] ENUMERATED -1, BOOLEAN TRUE } is read as it is, SEQUENCE
    { ENUMERATED -1 } is not. *)
Example C83_exact_ex : exists v w bs bs',
  v = ASequence [AExplicit ContextSpecific 0 (AEnumerated (-1)); ABoolean true] /\ w = ASequence [AEnumerated (-1)]
  /\ encodes SpecAbstract.Der 3 v bs /\ encodes SpecAbstract.Der 3 w bs'
  /\ (exists o, parse_der SL bs = Ok ([], o) /\ denotes SpecAbstract.Der o v)
  /\ (exists o, parse_der SL bs' = Ok ([], o)) /\ ~ exists o, parse_der SL bs' = Ok ([], o) /\ denotes SpecAbstract.Der o w.
Proof.
  set (v := ASequence [AExplicit ContextSpecific 0 (AEnumerated (-1)); ABoolean true]). set (w := ASequence [AEnumerated (-1)]).
  exists v, w, [48; 8; 160; 3; 10; 1; 255; 1; 1; 255], [48; 3; 10; 1; 255].
  assert (Hl : forall n, n < 128 -> definite_length SpecAbstract.Der n [n]).
  { intros n Hn. split; [now constructor|]. intros _ lb H. inversion H; cbn; lia. }
  assert (He : encodes SpecAbstract.Der 1 (AEnumerated (-1)) [10; 1; 255]).
  { refine (e_primitive SpecAbstract.Der 0 (AEnumerated (twos_complement [255])) [255] [1] _ _).
    - apply c_enumerated; [bok|exact I].
    - now apply Hl. }
  assert (Hv : encodes SpecAbstract.Der 3 v [48; 8; 160; 3; 10; 1; 255; 1; 1; 255]).
  { eapply (e_sequence _ 2 _ ([160; 3; 10; 1; 255] ++ [1; 1; 255] ++ [])).
    - constructor; [|constructor; [|constructor]].
      + eapply (e_explicit _ 1 _ _ _ [10; 1; 255]); [discriminate|exact He|].
        exists [160]. split; [left; split; [lia|reflexivity]|]. left. exists [3]. split; [now apply Hl|reflexivity].
      + refine (e_primitive SpecAbstract.Der 1 (ABoolean true) [255] [1] _ _); [|now apply Hl].
        constructor; [lia|split; discriminate|auto].
    - exists [48]. split; [left; split; [lia|reflexivity]|]. left. exists [8]. split; [now apply Hl|reflexivity]. }
  assert (Hw : encodes SpecAbstract.Der 3 w [48; 3; 10; 1; 255]).
  { eapply (e_sequence _ 2 _ ([10; 1; 255] ++ [])).
    - constructor; [|constructor]. refine (e_primitive SpecAbstract.Der 1 (AEnumerated (twos_complement [255])) [255] [1] _ _).
      + apply c_enumerated; [bok|exact I].
      + now apply Hl.
    - exists [48]. split; [left; split; [lia|reflexivity]|]. left. exists [3]. split; [now apply Hl|reflexivity]. }
  split; [reflexivity|]. split; [reflexivity|]. split; [exact Hv|]. split; [exact Hw|]. split; [|split].
  - pose proof (C83_exact SL 3 v [48; 8; 160; 3; 10; 1; 255; 1; 1; 255] [] SL_accepts_oids SL_no_unknown_tag ltac:(lia) ltac:(constructor) ltac:(cbn; lia) Hv) as [[_ H] _].
    rewrite app_nil_r in H. apply H. apply rd_sequence. repeat constructor.
  - eexists. vm_compute. reflexivity.
  - pose proof (C83_exact SL 3 w [48; 3; 10; 1; 255] [] SL_accepts_oids SL_no_unknown_tag ltac:(lia) ltac:(constructor) ltac:(cbn; lia) Hw) as [[H _] _].
    rewrite app_nil_r in H. intros Hx. apply H in Hx. inversion Hx as [| |l Hf| |]; subst; [|contradiction].
    inversion Hf as [|x l0 Hr]; subst. inversion Hr; subst; [lia|contradiction].
Qed.

(** ENUMERATED 5 in a SEQUENCE is written as it should be, ENUMERATED 0 is not. *)
Example C85_exact_ex :
  builds 2 (from_seq [from_obj (CEnum 5)]) (ASequence [AEnumerated 5])
  /\ (exists bs m, to_vec SL (from_seq [from_obj (CEnum 5)]) = Ok bs /\ encodes SpecAbstract.Der m (ASequence [AEnumerated 5]) bs)
  /\ builds 2 (from_seq [from_obj (CEnum 0)]) (ASequence [AEnumerated 0])
  /\ to_vec SL (from_seq [from_obj (CEnum 0)]) = Ok [48; 2; 10; 0]
  /\ ~ exists bs m, to_vec SL (from_seq [from_obj (CEnum 0)]) = Ok bs /\ encodes SpecAbstract.Der m (ASequence [AEnumerated 0]) bs.
Proof.
  assert (Hb : forall m, m < 2 ^ 64 -> builds 2 (from_seq [from_obj (CEnum m)]) (ASequence [AEnumerated (Z.of_N m)])).
  { intros m Hm. apply bt_sequence; [repeat split|]. constructor; [|constructor]. apply bt_enumerated; [repeat split|exact Hm]. }
  assert (H5 : to_vec SL (from_seq [from_obj (CEnum 5)]) = Ok [48; 3; 10; 1; 5]) by (vm_compute; reflexivity).
  assert (H0 : to_vec SL (from_seq [from_obj (CEnum 0)]) = Ok [48; 2; 10; 0]) by (vm_compute; reflexivity).
  split; [apply (Hb 5); reflexivity|]. split; [|split; [apply (Hb 0); reflexivity|split; [exact H0|]]].
  - apply (C85_exact SL 2 _ (ASequence [AEnumerated 5])); [apply (Hb 5); reflexivity| |].
    + intros bs E. rewrite H5 in E. injection E as <-. reflexivity.
    + apply st_sequence; [repeat split|]. constructor; [|constructor]. apply st_primitive; [repeat split|].
      apply (stored_enumerated _ 5 0); [reflexivity|]. cbn. lia.
  - intros Hx. apply (C85_exact SL 2 _ (ASequence [AEnumerated 0])) in Hx; [|apply (Hb 0); reflexivity|].
    + inversion Hx as [n0 h0 k0 v0 _ Hk|n0 h0 os vs _ Ha| | |]; subst; [inversion Hk|].
      inversion Ha as [|n1 o1 os1 v1 vs1 Ho _]; subst. inversion Ho as [n2 h2 k2 v2 _ Hk| | | |]; subst.
      inversion Hk as [| | | | | | |e j _ He E1 E2|]; subst.
      pose proof (N.pow_nonzero 256 (N.of_nat j)). lia.
    + intros bs E. rewrite H0 in E. injection E as <-. reflexivity.
Qed.
