(** * C122: octets can be overwritten in place *)

From Coq Require Import String.
From Verif Require Import Base Asn1rs Ber Der Located Conformance Spec SpecValue SpecComb SpecLocated.
From Verif Require Import LemBase LemHeader LemSkip LemAbstract PropFraming PropDer PropLocated.
Local Open Scope string_scope. Local Open Scope N_scope. Local Open Scope list_scope.

(** ** Statement *)

(** [rewritten s w k k']: [k] is a content that can hold any octets; it keeps [s], and
    with [w] in their place it is [k']. *)
Inductive rewritten (s w : bytes) : content -> content -> Prop :=
| rw_integer : rewritten s w (CInteger s) (CInteger w)
| rw_octet_string : rewritten s w (COctetString s) (COctetString w)
| rw_universal_string : rewritten s w (CUniversalString s) (CUniversalString w)
| rw_bit_string u : rewritten s w (CBitString u s) (CBitString u w)
| rw_unknown h : rewritten s w (CUnknown (mkAny h s)) (CUnknown (mkAny h w)).

(** [replaced s w o y o']: [o], borrowing as [y] says, is or has inside it an object that
    borrows its contents from the slice [s]; with [w] as these contents it is [o']. *)
Inductive replaced (s : slice) (w : bytes) : obj -> layout -> obj -> Prop :=
| replaced_here h n k k' raw :
    h_length h = Definite n -> rewritten (s_oct s) w k k' ->
    replaced s w (Obj h k) (Layout raw (Some s) []) (Obj h k')
| replaced_sequence h l1 l2 o o' raw y1 y2 y :
    length l1 = length y1 -> replaced s w o y o' ->
    replaced s w (Obj h (CSequence (l1 ++ o :: l2))) (Layout raw None (y1 ++ y :: y2))
      (Obj h (CSequence (l1 ++ o' :: l2)))
| replaced_set h l1 l2 o o' raw y1 y2 y :
    length l1 = length y1 -> replaced s w o y o' ->
    replaced s w (Obj h (CSet (l1 ++ o :: l2))) (Layout raw None (y1 ++ y :: y2))
      (Obj h (CSet (l1 ++ o' :: l2))).

(** ** Elements in which the octets of some values are exchanged *)

Definition delimited (o : obj) (bs : bytes) : Prop :=
  exists e hb b, bs = hb ++ b /\ header_octets (o_header o) hb /\ body e (o_header o) b.

Definition free_front (k : content) : bytes := match k with CBitString u _ => [u] | _ => [] end.

Inductive patch : bytes -> bytes -> obj -> obj -> Prop :=
| patch_free h hb n k k' s w :
    header_octets h hb -> h_length h = Definite n -> rewritten s w k k' -> length w = length s ->
    patch (hb ++ free_front k ++ s) (hb ++ free_front k ++ w) (Obj h k) (Obj h k')
| patch_same bs o : patch bs bs o o
| patch_sequence h hb c c' tl l l' :
    header_octets h hb -> match h_length h with Definite _ => tl = [] | Indefinite => length tl = 2%nat end ->
    patch_all c c' l l' ->
    patch (hb ++ c ++ tl) (hb ++ c' ++ tl) (Obj h (CSequence l)) (Obj h (CSequence l'))
| patch_set h hb c c' tl l l' :
    header_octets h hb -> match h_length h with Definite _ => tl = [] | Indefinite => length tl = 2%nat end ->
    patch_all c c' l l' ->
    patch (hb ++ c ++ tl) (hb ++ c' ++ tl) (Obj h (CSet l)) (Obj h (CSet l'))
with patch_all : bytes -> bytes -> list obj -> list obj -> Prop :=
| patch_all_same c l : patch_all c c l l
| patch_all_cons bs bs' c c' o o' l l' :
    delimited o bs -> patch bs bs' o o' -> patch_all c c' l l' -> patch_all (bs ++ c) (bs' ++ c') (o :: l) (o' :: l').
Scheme patch_ind2 := Minimality for patch Sort Prop
with patch_all_ind2 := Minimality for patch_all Sort Prop.
Combined Scheme patch_mut from patch_ind2, patch_all_ind2.

Lemma header_octets_inj h h' hb hb' x x' : header_octets h hb -> header_octets h' hb' ->
  hb ++ x = hb' ++ x' -> h = h' /\ hb = hb' /\ x = x'.
Proof.
  intros H H' E. pose proof (header_from_ber_complete _ _ x H) as A. rewrite E, (header_from_ber_complete _ _ x' H') in A.
  injection A as -> ->. split; [reflexivity|]. apply app_inv_tail in E. auto.
Qed.

Lemma body_inj d d' h b b' x x' : body d h b -> body d' h b' -> b ++ x = b' ++ x' -> b = b' /\ x = x'.
Proof.
  intros H H' E. set (m := Nat.max d d').
  apply (proj1 body_mono_mut) with (d' := m) in H; [|lia]. apply (proj1 body_mono_mut) with (d' := m) in H'; [|lia].
  apply (skip_complete _ _ _ x) in H. apply (skip_complete _ _ _ x') in H'. rewrite E, H' in H. injection H as ->.
  split; [|reflexivity]. now apply app_inv_tail in E.
Qed.

Lemma element_split d h c bs hb b : element d h c bs -> header_octets h hb -> bs = hb ++ b ->
  body d h b /\ c = content_octets h b.
Proof.
  intros (hb0 & b0 & -> & H0 & Hb & ->) H E. destruct (header_octets_inj _ _ _ _ _ _ H0 H E) as (_ & -> & ->). auto.
Qed.

Definition patches (L : leaves) (bs bs' : bytes) (o o' : obj) : Prop :=
  forall d c, element 50 (o_header o) c bs -> value L d (o_header o) c (o_content o) ->
  o_header o' = o_header o
  /\ exists hb b b', bs = hb ++ b /\ bs' = hb ++ b' /\ header_octets (o_header o) hb /\ length b' = length b
     /\ (forall e, body e (o_header o) b -> body e (o_header o) b')
     /\ body 50 (o_header o) b
     /\ value L d (o_header o) (content_octets (o_header o) b') (o_content o').

Definition patches_all (L : leaves) (c c' : bytes) (l l' : list obj) : Prop :=
  forall d, series L d c l ->
  series L d c' l' /\ length c' = length c
  /\ forall e tl, length tl = 2%nat -> until_eoc e (c ++ tl) -> until_eoc e (c' ++ tl).

Lemma rewritten_value L d h s w k k' : rewritten s w k k' ->
  value L d h (free_front k ++ s) k -> value L d h (free_front k ++ w) k'.
Proof. intros Hr Hv. destruct Hr; cbn [free_front app] in *; inversion Hv; subst; now constructor. Qed.

Lemma rewritten_inj s w s' w' k k' : rewritten s w k k' -> rewritten s' w' k k' -> s = s' /\ w = w'.
Proof. destruct 1; inversion 1; auto. Qed.

Lemma content_octets_tl h c tl :
  match h_length h with Definite _ => tl = [] | Indefinite => length tl = 2%nat end ->
  content_octets h (c ++ tl) = c.
Proof.
  intros H. unfold content_octets. destruct (h_length h).
  - subst. apply app_nil_r.
  - rewrite app_length, H, Nat.add_sub. now rewrite firstn_app, Nat.sub_diag, firstn_all, firstn_O, app_nil_r.
Qed.

Lemma patches_members L h hb c c' tl l l' (K : list obj -> content) :
  (forall d c l, value L d h c (K l) <-> exists e, d = S e /\ h_class h = Universal /\ h_tag h = (match K l with CSet _ => 17 | _ => 16 end)
     /\ h_constructed h = true /\ series L e c l) ->
  (forall l, (exists m, K l = CSet m) <-> exists m, K [] = CSet m) ->
  header_octets h hb -> match h_length h with Definite _ => tl = [] | Indefinite => length tl = 2%nat end ->
  patches_all L c c' l l' -> patches L (hb ++ c ++ tl) (hb ++ c' ++ tl) (Obj h (K l)) (Obj h (K l')).
Proof.
  intros HK Hc Hh Ht IH d c0 He Hv. cbn [o_header o_content] in *. split; [reflexivity|].
  destruct (element_split _ _ _ _ _ _ He Hh eq_refl) as [Hb ->]. rewrite (content_octets_tl _ _ _ Ht) in Hv.
  apply HK in Hv as (e & -> & Hcl & Htag & Hcons & Hs). destruct (IH _ Hs) as (Hs' & El & Hu).
  exists hb, (c ++ tl), (c' ++ tl). split; [reflexivity|]. split; [reflexivity|]. split; [exact Hh|].
  split; [rewrite !app_length; lia|]. split; [|split; [exact Hb|]].
  - intros e' Hb'. inversion Hb' as [? ? ? ? Hd En|? ? ? Hi Hcn Hue]; subst.
    + eapply body_definite; [exact Hd|]. rewrite !app_length in *. lia.
    + rewrite Hi in Ht. apply body_indefinite; auto.
  - rewrite (content_octets_tl _ _ _ Ht). apply HK. exists e. repeat split; auto. rewrite Htag.
    pose proof (Hc l) as A. pose proof (Hc l') as B.
    destruct (K l) eqn:E1; destruct (K l') eqn:E2; try reflexivity; exfalso;
      try (destruct (proj1 A) as [m Hm]; [eauto|]; destruct (proj2 B) as [m' Hm']; [eauto|]; discriminate);
      try (destruct (proj1 B) as [m Hm]; [eauto|]; destruct (proj2 A) as [m' Hm']; [eauto|]; discriminate).
Qed.

Lemma patches_patch L :
  (forall bs bs' o o', patch bs bs' o o' -> patches L bs bs' o o')
  /\ (forall c c' l l', patch_all c c' l l' -> patches_all L c c' l l').
Proof.
  apply patch_mut.
  - intros h hb n k k' s w Hh Hn Hr Hl d c He Hv. cbn [o_header o_content] in *. split; [reflexivity|].
    destruct (element_split _ _ _ _ _ _ He Hh eq_refl) as [Hb ->].
    exists hb, (free_front k ++ s), (free_front k ++ w). split; [reflexivity|]. split; [reflexivity|]. split; [exact Hh|].
    split; [rewrite !app_length; lia|]. split; [|split; [exact Hb|]].
    + intros e Hb'. inversion Hb' as [? ? ? ? Hd En|? ? ? Hi ? ?]; subst; [|congruence].
      eapply body_definite; [exact Hd|]. rewrite !app_length in *. lia.
    + unfold content_octets in *. rewrite Hn in *. eapply rewritten_value; eauto.
  - intros bs o d c (hb & b & -> & Hh & Hb & ->) Hv. split; [reflexivity|]. exists hb, b, b. auto 10.
  - intros h hb c c' tl l l' Hh Ht _ IH. apply (patches_members L h hb c c' tl l l' CSequence); auto.
    + intros d x m. split.
      * inversion 1; subst. eexists. repeat split; eauto.
      * intros (e & -> & ? & ? & ? & ?). now constructor.
    + intros m. split; intros [? [=]].
  - intros h hb c c' tl l l' Hh Ht _ IH. apply (patches_members L h hb c c' tl l l' CSet); auto.
    + intros d x m. split.
      * inversion 1; subst. eexists. repeat split; eauto.
      * intros (e & -> & ? & ? & ? & ?). now constructor.
    + intros m. split; intros _; eauto.
  - intros c l d Hs. auto.
  - intros bs bs' c c' o o' l l' (e0 & hb0 & b0 & Eb0 & Hh0 & Hb0) Hp IHp Hps IHps d Hs.
    inversion Hs as [|? bs1 h c1 k rest l1 He Hv Hs1 Ed0 E1]; subst o l1.
    assert (A : bs1 = bs /\ rest = c).
    { destruct He as (hb1 & b1 & -> & Hh1 & Hb1 & _). rewrite Eb0, <- !app_assoc in E1. cbn [o_header] in *.
      destruct (header_octets_inj _ _ _ _ _ _ Hh1 Hh0 E1) as (_ & -> & E1').
      destruct (body_inj _ _ _ _ _ _ _ Hb1 Hb0 E1') as (-> & ->). now rewrite Eb0. }
    destruct A as [-> ->]. clear E1 e0 hb0 b0 Eb0 Hh0 Hb0.
    destruct (IHp d c1 He Hv) as (Eh & hb & b & b' & -> & -> & Hh & El & Hb & Hb50 & Hv'). cbn [o_header o_content] in *.
    destruct (IHps _ Hs1) as (Hs' & Els & Hu). destruct o' as [h' k']. cbn [o_header o_content] in *. subst h'.
    split; [|split].
    + eapply s_cons; [|exact Hv'|exact Hs']. exists hb, b'. auto.
    + rewrite !app_length. lia.
    + intros e tl Htl H. rewrite <- !app_assoc in *. remember (hb ++ b ++ c ++ tl) as whole eqn:E3. destruct H as [e2 h2 hb2 Hh2 He2|e2 h2 hb2 b2 rest2 Hh2 He2 Hb2 Hu2].
      * exfalso. destruct (header_octets_inj _ _ hb2 hb [] (b ++ c ++ tl) Hh2 Hh) as (_ & _ & F); [now rewrite app_nil_r|].
        apply (f_equal (@length N)) in F. rewrite !app_length in F. cbn in F. lia.
      * destruct (header_octets_inj _ _ _ _ _ _ Hh2 Hh E3) as (-> & -> & F).
        destruct (body_inj _ _ _ _ _ _ _ Hb2 Hb50 F) as (-> & ->). apply eoc_later with h; auto.
Qed.

(** ** From the layout to the patch *)

Lemma placed_delimited p bs o y : placed p bs o y -> delimited o bs.
Proof. intros H. inversion H; subst. exists e, (ib ++ lb), (c ++ tl). rewrite <- app_assoc. auto. Qed.

Lemma patch_all_mid a b b' a' l1 l2 o o' q ys :
  placed_all q a l1 ys -> delimited o b -> patch b b' o o' -> patch_all (a ++ b ++ a') (a ++ b' ++ a') (l1 ++ o :: l2) (l1 ++ o' :: l2).
Proof.
  intros Ha Hd Hp. induction Ha as [|q bs rest o1 os y ys Ho _ IH]; cbn [app].
  - apply patch_all_cons; auto. constructor.
  - rewrite <- !app_assoc. apply patch_all_cons; [eapply placed_delimited; eassumption|constructor|exact IH].
Qed.

Lemma placed_all_mid l1 : forall q c o l2 y1 y y2, length l1 = length y1 -> placed_all q c (l1 ++ o :: l2) (y1 ++ y :: y2) ->
  exists a b a', c = a ++ b ++ a' /\ placed_all q a l1 y1 /\ placed (q + length a) b o y.
Proof.
  induction l1 as [|o1 l1 IH]; intros q c o l2 [|z y1] y y2 El H; try discriminate; cbn [app] in H; inversion H; subst.
  - exists [], bs, rest. cbn [app length]. rewrite Nat.add_0_r. repeat split; [constructor|assumption].
  - injection El as El. destruct (IH _ _ _ _ _ _ _ El H7) as (a & b & a' & -> & Ha & Hb).
    exists (bs ++ a), b, a'. rewrite app_length, Nat.add_assoc, <- app_assoc. split; [reflexivity|]. split; [|exact Hb].
    now constructor.
Qed.

Lemma replaced_patch s w o y o' : replaced s w o y o' -> length w = length (s_oct s) ->
  forall p bs, placed p bs o y ->
  exists pre post, bs = pre ++ s_oct s ++ post /\ s_at s = (p + length pre)%nat /\ patch bs (pre ++ w ++ post) o o'.
Proof.
  intros H Hw. induction H as [h n k k' raw Hn Hr|h l1 l2 o o' raw y1 y2 y El Hr IH|h l1 l2 o o' raw y1 y2 y El Hr IH]; intros p bs Hp.
  - inversion Hp as [? ib lb c tl ? ? ? ? e Hh Hraw Htl Hb Hho Hm]; subst. rewrite Hn in Htl. destruct Htl as [-> ->].
    exists (ib ++ lb ++ free_front k), []. rewrite !app_nil_r.
    assert (E : c = free_front k ++ s_oct s /\ s_at s = (p + length (ib ++ lb ++ free_front k))%nat).
    { rewrite !app_length. inversion Hho as [? Hk|u s0 Eu|]; subst.
      - destruct Hr; cbn in Hk |- *; try discriminate; split; try reflexivity; lia.
      - cbn. split; [reflexivity|lia]. }
    destruct E as [-> E]. rewrite <- !app_assoc. split; [reflexivity|]. split; [exact E|].
    rewrite !(app_assoc ib lb). eapply patch_free; eauto.
  - inversion Hp as [? ib lb c tl ? ? ? ? e Hh Hraw Htl Hb Hho Hm]; subst. inversion Hm as [? ? ? ? Ha| |? ? ? Hc]; subst; [|now destruct (Hc _ eq_refl)].
    destruct (placed_all_mid _ _ _ _ _ _ _ _ El Ha) as (a & b & a' & -> & Hfront & Hb1).
    destruct (IH _ _ Hb1) as (pre & post & -> & As & Hpatch).
    exists (ib ++ lb ++ a ++ pre), (post ++ a' ++ tl). rewrite As, !app_length. split; [now rewrite <- !app_assoc|]. split; [lia|].
    replace ((ib ++ lb ++ a ++ pre) ++ w ++ post ++ a' ++ tl) with ((ib ++ lb) ++ (a ++ (pre ++ w ++ post) ++ a') ++ tl) by now rewrite <- !app_assoc.
    rewrite (app_assoc ib lb). apply patch_sequence; [exact Hh|destruct (h_length h); tauto|].
    eapply patch_all_mid; [exact Hfront|eapply placed_delimited; exact Hb1|exact Hpatch].
  - inversion Hp as [? ib lb c tl ? ? ? ? e Hh Hraw Htl Hb Hho Hm]; subst. inversion Hm as [|? ? ? ? Ha|? ? ? _ Hc]; subst; [|now destruct (Hc _ eq_refl)].
    destruct (placed_all_mid _ _ _ _ _ _ _ _ El Ha) as (a & b & a' & -> & Hfront & Hb1).
    destruct (IH _ _ Hb1) as (pre & post & -> & As & Hpatch).
    exists (ib ++ lb ++ a ++ pre), (post ++ a' ++ tl). rewrite As, !app_length. split; [now rewrite <- !app_assoc|]. split; [lia|].
    replace ((ib ++ lb ++ a ++ pre) ++ w ++ post ++ a' ++ tl) with ((ib ++ lb) ++ (a ++ (pre ++ w ++ post) ++ a') ++ tl) by now rewrite <- !app_assoc.
    rewrite (app_assoc ib lb). apply patch_set; [exact Hh|destruct (h_length h); tauto|].
    eapply patch_all_mid; [exact Hfront|eapply placed_delimited; exact Hb1|exact Hpatch].
Qed.

(** ** Theorems *)

(** The octets a value is borrowed from can be overwritten in place, by as many others:
    the reader then gives the same object with the new octets in this value, and the same
    rest.  Neither the place of any other object nor its value changes, at whatever depth
    the value lies and whether the lengths around it are definite or not. *)
Theorem C122_overwrite : forall L p i d r o y s w o',
  bytes_ok i -> bytes_ok w -> l_parse_ber_recursive L (mkSlice p i) d = Ok (r, (o, y)) ->
  replaced s w o y o' -> length w = length (s_oct s) ->
  exists pre post, i = pre ++ s_oct s ++ post /\ s_at s = (p + length pre)%nat
    /\ parse_ber_recursive L (pre ++ w ++ post) d = Ok (s_oct r, o').
Proof.
  intros L p i d r o y s w o' Hok Hokw H Hr Hw.
  destruct (C121_placed L _ _ _ _ _ _ (reader_ber L d) Hok H) as (bs & -> & _ & Hp).
  destruct (replaced_patch _ _ _ _ _ Hr Hw _ _ Hp) as (pre & post & -> & As & Hpatch).
  exists pre, (post ++ s_oct r). split; [now rewrite <- !app_assoc|]. split; [exact As|].
  destruct (C121_same L p ((pre ++ s_oct s ++ post) ++ s_oct r) d 0) as [Hs _]. rewrite H in Hs. cbn in Hs. symmetry in Hs.
  apply C55_parse_ber_exact in Hs as (bs & c & E & He & Hv); [|exact Hok]. apply app_inv_tail in E. subst bs.
  destruct (proj1 (patches_patch L) _ _ _ _ Hpatch d c He Hv) as (Eh & hb & b & b' & E1 & E2 & Hh & _ & Hb & Hb50 & Hv').
  apply C55_parse_ber_exact.
  - rewrite <- !app_assoc in Hok. unfold bytes_ok in *. rewrite !Forall_app in *. tauto.
  - exists (pre ++ w ++ post), (content_octets (o_header o) b'). split; [now rewrite <- !app_assoc|]. rewrite Eh. split; [|exact Hv'].
    exists hb, b'. auto.
Qed.
Print Assumptions C122_overwrite.

(** The DER reader looks into an INTEGER or BIT STRING it is given, and not into those
    inside a SEQUENCE or SET (see C56): what it asks of the new octets. *)
Definition der_allows (k : content) (w : bytes) : Prop :=
  match k with
  | CInteger _ => der_checked 2 false w
  | CBitString u _ => der_bit_string false (u :: w)
  | _ => True
  end.

Theorem C122_overwrite_der : forall L p i d r o y s w o', no_unknown_tag L -> (1 <= d)%nat ->
  bytes_ok i -> bytes_ok w -> l_parse_der_recursive L (mkSlice p i) d = Ok (r, (o, y)) ->
  replaced s w o y o' -> length w = length (s_oct s) -> der_allows (o_content o) w ->
  exists pre post, i = pre ++ s_oct s ++ post /\ s_at s = (p + length pre)%nat
    /\ parse_der_recursive L (pre ++ w ++ post) d = Ok (s_oct r, o').
Proof.
  intros L p i d r o y s w o' HL Hd Hok Hokw H Hr Hw Hal.
  destruct (C121_placed L _ _ _ _ _ _ (reader_der L d) Hok H) as (bs & -> & _ & Hp).
  destruct (replaced_patch _ _ _ _ _ Hr Hw _ _ Hp) as (pre & post & Ebs & As & Hpatch).
  exists pre, (post ++ s_oct r). split; [now rewrite Ebs, <- !app_assoc|]. split; [exact As|].
  destruct (C121_same L p (bs ++ s_oct r) d 0) as (_ & _ & Hs & _). rewrite H in Hs. cbn in Hs. symmetry in Hs.
  apply C56_parse_der_exact in Hs as (bs1 & c & E & (hb & Ehb & Hh & Hl) & Hm & Hk & Hv); auto. apply app_inv_tail in E. subst bs1.
  assert (Hok' : bytes_ok ((pre ++ w ++ post) ++ s_oct r)).
  { rewrite Ebs, <- !app_assoc in Hok. rewrite <- !app_assoc. unfold bytes_ok in *. rewrite !Forall_app in *. tauto. }
  replace (pre ++ w ++ post ++ s_oct r) with ((pre ++ w ++ post) ++ s_oct r) by now rewrite <- !app_assoc.
  assert (Hmembers : forall (K : list obj -> content) h l l' c1 c1' hb1 tl, (K = CSequence \/ K = CSet) ->
    o = Obj h (K l) -> o' = Obj h (K l') -> header_octets h hb1 ->
    match h_length h with Definite _ => tl = [] | Indefinite => length tl = 2%nat end -> patch_all c1 c1' l l' ->
    bs = hb1 ++ c1 ++ tl -> pre ++ w ++ post = hb1 ++ c1' ++ tl ->
    parse_der_recursive L ((pre ++ w ++ post) ++ s_oct r) d = Ok (s_oct r, o')).
  { intros K h l l' c1 c1' hb1 tl HK -> -> Hh1 Htl Hall E1 E2. cbn [o_header o_content] in *. rewrite Hl in Htl. subst tl.
    rewrite app_nil_r in *. rewrite E1 in Ehb. destruct (header_octets_inj _ _ _ _ _ _ Hh1 Hh Ehb) as (_ & -> & ->).
    assert (Hser : exists e, d = S e /\ series L e c l /\ (h_class h = Universal -> h_tag h = 16 \/ h_tag h = 17)
      /\ forall c l, series L e c l -> value L d (der_view h) c (K l)).
    { destruct HK as [-> | ->]; inversion Hv as [| | | | | | | | | | | e0 ? ? ? Hc Ht Hp1 Hs1|e0 ? ? ? Hc Ht Hp1 Hs1| | | | |]; subst; exists e0; (split; [reflexivity|]; split; [exact Hs1|]; split).
      1,3: intros Hu; unfold der_view in Ht; rewrite Hu in Ht; cbn in Ht; auto.
      all: intros; constructor; auto. }
    destruct Hser as (e & -> & Hs1 & Htag & Hback). destruct (proj2 (patches_patch L) _ _ _ _ Hall _ Hs1) as (Hs2 & El & _).
    apply C56_parse_der_exact; auto. exists (hb ++ c1'), c1'. cbn [o_header o_content]. rewrite E2. split; [reflexivity|].
    split; [exists hb; rewrite El; auto|]. split; [now rewrite El|]. split; [|now apply Hback].
    intros Hu. unfold der_checked. destruct (Htag Hu) as [-> | ->]; (split; [|lia]); (split; [lia|]); (split; [lia|]); (split; [|lia]); cbn; lia. }
  inversion Hpatch as [h hb1 n k k' s1 w1 Hh1 Hn1 Hr1 Hw1|bs0 o0 E1 E2 E3 E4|h hb1 c1 c1' tl l l' Hh1 Htl Hall|h hb1 c1 c1' tl l l' Hh1 Htl Hall].
  - subst o o'. cbn [o_header o_content] in *.
    assert (E : s1 = s_oct s /\ w1 = w).
    { inversion Hr; subst; [|inversion Hr1|inversion Hr1]. eapply rewritten_inj; eassumption. }
    destruct E as [-> ->]. rewrite Ehb in *. destruct (header_octets_inj _ _ _ _ _ _ Hh1 Hh H0) as (_ & -> & <-).
    apply C56_parse_der_exact; auto; [now rewrite H1|]. exists (hb ++ free_front k ++ w), (free_front k ++ w). cbn [o_header o_content].
    assert (Elen : length (free_front k ++ w) = length (free_front k ++ s_oct s)) by (rewrite !app_length; lia).
    split; [reflexivity|]. split; [exists hb; rewrite Elen; auto|]. split; [now rewrite Elen|].
    split; [|eapply rewritten_value; eassumption].
    intros Hu. destruct (Hk Hu) as [Hk1 Hk2]. unfold der_view in Hv. rewrite Hu in Hv.
    destruct Hr1; cbn [free_front app der_allows] in *; inversion Hv; subst; cbn [h_tag h_class h_constructed] in *; unfold der_checked in *; destruct Hk1 as (_ & _ & Hstr & _).
    all: try match goal with Ht : h_tag ?x = _ |- _ => rewrite Ht in * end.
    + split; [|lia]. destruct Hal as (_ & Hal & _). split; [lia|]. split; [exact Hal|]. split; [exact Hstr|lia].
    + split; [|lia]. split; [lia|]. split; [lia|]. split; [exact Hstr|lia].
    + split; [|lia]. split; [lia|]. split; [lia|]. split; [exact Hstr|lia].
    + split; [|intros _; congruence]. split; [lia|]. split; [lia|]. split; [exact Hstr|lia].
    + congruence.
    + match goal with Hn : ~ In _ mapped_tags |- _ => unfold mapped_tags in Hn; cbn [In] in Hn end.
      split; [|lia]. split; [lia|]. split; [lia|]. split; [exact Hstr|lia].
  - subst bs0 o0 o'. rewrite <- E2 in *. apply C56_parse_der_exact; auto.
    exists bs, c. split; [reflexivity|]. repeat (split; [assumption || (exists hb; auto)|]). assumption.
  - match goal with E : _ = pre ++ w ++ post, E' : _ = o' |- _ => rewrite E, E' end. apply (Hmembers CSequence h l l' c1 c1' hb1 tl); auto.
  - match goal with E : _ = pre ++ w ++ post, E' : _ = o' |- _ => rewrite E, E' end. apply (Hmembers CSet h l l' c1 c1' hb1 tl); auto.
Qed.
Print Assumptions C122_overwrite_der.

(** A SEQUENCE of indefinite length with an INTEGER and, one level further down, an
    OCTET STRING; the octet of the latter lies at the address 109 and is overwritten. *)
Example C122_ex : exists r o y o',
  l_parse_ber_recursive SL (mkSlice 100 (hx "30 80 02 01 05 30 03 04 01 61 00 00 ff")) 50 = Ok (r, (o, y))
  /\ replaced (mkSlice 109 [97]) [153] o y o' /\ o <> o'
  /\ parse_ber_recursive SL (hx "30 80 02 01 05 30 03 04 01 99 00 00 ff") 50 = Ok (hx "ff", o').
Proof.
  eexists _, _, _, (Obj _ (CSequence [Obj _ (CInteger [5]); Obj _ (CSequence [Obj _ (COctetString [153])])])).
  split; [vm_compute; reflexivity|]. split.
  - apply (replaced_sequence _ _ _ [_] [] _ _ _ [_] []); [reflexivity|].
    apply (replaced_sequence _ _ _ [] [] _ _ _ [] []); [reflexivity|].
    eapply replaced_here; [reflexivity|]. constructor.
  - split; [discriminate|]. vm_compute. reflexivity.
Qed.

(** Other octets may not be overwritten at will: a UTF8String holds only UTF-8. *)
Example C122_ex_text : exists r o y,
  l_parse_ber_recursive SL (mkSlice 0 (hx "0c 02 c3 a9")) 50 = Ok (r, (o, y))
  /\ In (mkSlice 2 (hx "c3 a9")) (borrows y)
  /\ forall x, parse_ber_recursive SL (hx "0c 02 a9 c3") 50 <> Ok x.
Proof.
  eexists _, _, _. split; [vm_compute; reflexivity|]. split; [cbn; auto|]. intros x. vm_compute. discriminate.
Qed.
