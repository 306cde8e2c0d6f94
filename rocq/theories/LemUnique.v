(** * The encodings of SpecAbstract.v are unambiguous. *)

From Verif Require Import Base Asn1rs Spec SpecOid SpecAbstract.
From Verif Require Import LemBase LemHeader LemInt LemOid LemAbstract.

(** ** Identifier and length octets *)

Lemma leading_inj c pc t c' pc' t' : t < 32 -> t' < 32 ->
  leading_octet c pc t = leading_octet c' pc' t' -> c = c' /\ pc = pc' /\ t = t'.
Proof.
  intros H H' E. destruct (leading_octet_split c pc t H) as (E1 & E2 & E3 & _).
  destruct (leading_octet_split c' pc' t' H') as (E1' & E2' & E3' & _). rewrite E in *. split; [|split]; congruence.
Qed.

Lemma identifier_cut c pc t ib c' pc' t' ib' r r' : identifier c pc t ib -> identifier c' pc' t' ib' ->
  ib ++ r = ib' ++ r' -> c = c' /\ pc = pc' /\ t = t' /\ ib = ib' /\ r = r'.
Proof.
  intros [(Ht & ->)|(Ht & d & ds & Hd & Hf & Ev & ->)] [(Ht' & ->)|(Ht' & d' & ds' & Hd' & Hf' & Ev' & ->)] E;
    pose proof (f_equal (@tl N) E) as Er; apply (f_equal (hd 0)) in E; cbn [app hd tl] in E, Er;
    apply leading_inj in E as (-> & -> & Et); try lia.
  - subst. auto.
  - apply continued_cut in Er as [E2 ->]; auto; try discriminate. rewrite E2 in *. subst t t'. auto.
Qed.

Lemma length_cut n lb n' lb' r r' : length_octets (Definite n) lb -> length_octets (Definite n') lb' ->
  lb ++ r = lb' ++ r' -> n = n' /\ lb = lb' /\ r = r'.
Proof.
  intros H H' E. inversion H as [m Hm E1 E2|ds Hd Hok Hv E1 E2|]; inversion H' as [m' Hm' E1' E2'|ds' Hd' Hok' Hv' E1' E2'|]; subst;
    cbn [app] in E; pose proof (f_equal (@tl N) E) as Er; apply (f_equal (hd 0)) in E; cbn [hd tl] in E, Er; try lia.
  - subst. auto.
  - assert (Hl : length ds = length ds') by lia.
    apply app_eq_app in Er as (l & [(-> & ->)|(-> & ->)]); rewrite app_length in Hl;
      (assert (l = []) by (destruct l; [reflexivity|cbn in Hl; lia])); subst l; rewrite ?app_nil_r in *; auto.
Qed.

(** ** Contents *)

Lemma flat_map_octets s : length (flat_map octet_bits s) = (8 * length s)%nat.
Proof. induction s as [|a s IH]; [reflexivity|]. cbn [flat_map]. rewrite app_length, IH. cbn. lia. Qed.

Lemma app_inj_length {A} (a b x y : list A) : length a = length b -> a ++ x = b ++ y -> a = b /\ x = y.
Proof.
  revert b. induction a as [|p a IH]; intros [|q b] Hl E; try discriminate; [auto|].
  cbn [app] in E. injection E as -> E. injection Hl as Hl. destruct (IH b Hl E) as [-> ->]. auto.
Qed.

Lemma app_tail_inj {A} (a b p q : list A) : length p = length q -> a ++ p = b ++ q -> a = b.
Proof.
  intros Hl E. apply app_eq_app in E as (l & [(-> & ->)|(-> & ->)]); rewrite app_length in Hl;
    (assert (l = []) by (destruct l; [reflexivity|cbn in Hl; lia])); subst l; now rewrite app_nil_r.
Qed.

Lemma relative_unique comps comps' c : relative_oid_contents comps c -> relative_oid_contents comps' c -> comps = comps'.
Proof. intros (ps & -> & H) (ps' & E & H'). eapply parts_unique; eauto. Qed.

Lemma oid_unique comps comps' c : oid_components comps -> oid_components comps' ->
  oid_contents comps c -> oid_contents comps' c -> comps = comps'.
Proof.
  intros Hc Hc' H H'. destruct comps as [|a [|b l]]; try contradiction. destruct comps' as [|a' [|b' l']]; try contradiction.
  cbn [oid_components oid_contents] in *. pose proof (relative_unique _ _ _ H H') as E.
  assert (E1 : 40 * a + b = 40 * a' + b') by congruence. assert (l = l') by congruence. subst l'.
  assert (a = a' /\ b = b') as [-> ->]; [|reflexivity].
  assert (Ha : a = 0 \/ a = 1 \/ a = 2) by lia. assert (Ha' : a' = 0 \/ a' = 1 \/ a' = 2) by lia. lia.
Qed.

Lemma cons_inj {A} (a b : A) x y : a :: x = b :: y -> a = b /\ x = y.
Proof. intros E. split; congruence. Qed.
Ltac cons_split := repeat match goal with E : _ :: _ = _ :: _ |- _ => apply cons_inj in E; destruct E end.

Lemma utf8_cut c c' r r' : scalar c -> scalar c' -> utf8_encode c ++ r = utf8_encode c' ++ r' -> c = c' /\ r = r'.
Proof.
  intros H H' E. unfold scalar, utf8_encode in *.
  destruct (c <? 128) eqn:E1; [|destruct (c <? 2048) eqn:E2; [|destruct (c <? 65536) eqn:E3]];
    (destruct (c' <? 128) eqn:E1'; [|destruct (c' <? 2048) eqn:E2'; [|destruct (c' <? 65536) eqn:E3']]);
    cbn [app] in E; cons_split; try (exfalso; lia); (split; [|assumption]); lia.
Qed.

Lemma flat_map_unique (P : N -> Prop) (f : N -> bytes) :
  (forall c, P c -> f c <> []) ->
  (forall c c' r r', P c -> P c' -> f c ++ r = f c' ++ r' -> c = c' /\ r = r') ->
  forall l l', Forall P l -> Forall P l' -> flat_map f l = flat_map f l' -> l = l'.
Proof.
  intros Hn Hc. induction l as [|c l IH]; intros [|c' l'] H H' E; cbn [flat_map] in E; auto.
  - exfalso. inv H'. symmetry in E. apply app_eq_nil in E as [E _]. now apply Hn in E.
  - exfalso. inv H. apply app_eq_nil in E as [E _]. now apply Hn in E.
  - inv H. inv H'. apply Hc in E as [-> E]; auto. f_equal. auto.
Qed.

Lemma text_unique k l l' : Forall (permitted k) l -> Forall (permitted k) l' -> text_octets k l = text_octets k l' -> l = l'.
Proof.
  intros H H' E. destruct k; cbn [text_octets] in E; auto.
  - revert E. apply (flat_map_unique scalar); auto using utf8_cut.
    intros c _ E. unfold utf8_encode in E. destruct (c <? 128); [discriminate|]. destruct (c <? 2048); [discriminate|].
    destruct (c <? 65536); discriminate.
  - revert E. apply (flat_map_unique (permitted TBmp)); auto; [intros; discriminate|].
    intros c c' r r' _ _ E. cbn [u16_octets app] in E. cons_split. split; [lia|assumption].
  - revert E. apply (flat_map_unique (permitted TUniversal)); auto; [intros; discriminate|].
    intros c c' r r' _ _ E. cbn [u32_octets app] in E. cons_split. split; [lia|assumption].
Qed.

Lemma contents_unique ru v v' c : value_tag v = value_tag v' -> contents ru v c -> contents ru v' c -> v = v'.
Proof.
  intros Ht H H'. destruct H; inversion H'; subst; try discriminate Ht; try reflexivity; auto.
  all: try (match goal with k : text_type |- _ => destruct k; discriminate Ht end).
  - destruct b, b0; auto; exfalso; intuition congruence.
  - f_equal. apply (app_tail_inj l l0 pad pad0); [lia|congruence].
  - f_equal. eapply oid_unique; eauto.
  - f_equal. eapply relative_unique; eauto.
  - destruct k, k0; try discriminate Ht; f_equal; (eapply text_unique; [| |symmetry]; eauto).
Qed.

(** ** Encodings *)

Lemma contents_tag ru v c : contents ru v c -> value_tag v < 31.
Proof. intros H. apply contents_not_explicit in H. apply value_tag_lt in H. lia. Qed.

Lemma encodes_first ru n v bs : encodes ru n v bs -> exists b r, bs = b :: r /\ b <> 0.
Proof.
  assert (Hw : forall c t i x, wrapped ru c t i x -> exists b r, x = b :: r /\ b <> 0).
  { intros c t i x (ib & Hib & Hx). assert (Hf : exists b r, ib = b :: r /\ b <> 0).
    { destruct Hib as [(Ht & ->)|(Ht & d & ds & _ & _ & _ & ->)]; eexists; eexists; (split; [reflexivity|]);
        unfold leading_octet; lia. }
    destruct Hf as (b & r & -> & Hb). destruct Hx as [(lb & _ & ->)|(_ & ->)]; cbn [app]; eauto. }
  intros H. inv H; eauto.
  eexists. eexists. split; [reflexivity|]. unfold leading_octet. cbn [class_code].
  match goal with H : contents _ _ _ |- _ => apply contents_not_explicit in H; apply value_tag_lt in H end. lia.
Qed.

Lemma wrapped_primitive ru c t i bs n v x lb r r' : wrapped ru c t i bs -> contents n v x ->
  bs ++ r = (leading_octet Universal false (value_tag v) :: lb ++ x) ++ r' -> False.
Proof.
  intros (ib & Hib & Hw) Hc E. apply contents_tag in Hc.
  assert (Hx : exists y, ib ++ y = [leading_octet Universal false (value_tag v)] ++ lb ++ x ++ r').
  { destruct Hw as [(l & _ & ->)|(_ & ->)]; rewrite <- ?app_assoc, <- ?app_comm_cons, <- ?app_assoc in E; eexists; exact E. }
  destruct Hx as (y & Hx). assert (Hi : identifier Universal false (value_tag v) [leading_octet Universal false (value_tag v)])
    by (left; auto).
  destruct (identifier_cut _ _ _ _ _ _ _ _ _ _ Hib Hi Hx) as (_ & Hf & _). discriminate.
Qed.

Definition cut_all ru (l : list asn1) (c : bytes) : Prop :=
  forall n' l' c', encode_all ru n' l' c' ->
    (c = c' -> l = l') /\ (forall r r', c ++ 0 :: r = c' ++ 0 :: r' -> l = l' /\ c = c').

Lemma wrapped_cut ru c t i bs c' t' i' bs' r r' : wrapped ru c t i bs -> wrapped ru c' t' i' bs' ->
  bs ++ r = bs' ++ r' ->
  c = c' /\ t = t' /\ ((i = i' /\ bs = bs')
    \/ exists x y, i ++ 0 :: x = i' ++ 0 :: y /\ (i = i' -> bs = bs')).
Proof.
  intros (ib & Hib & Hw) (ib' & Hib' & Hw') E.
  assert (Hl : forall n lb y x z, length_octets (Definite n) lb -> lb ++ y = 128 :: x -> z = tt -> False).
  { intros n lb y x z Hl E' _. inversion Hl; subst; cbn [app] in E'; cons_split; lia. }
  destruct Hw as [(lb & (Hlb & _) & ->)|(Hr & ->)], Hw' as [(lb' & (Hlb' & _) & ->)|(Hr' & ->)];
    rewrite <- ?app_assoc in E.
  - destruct (identifier_cut _ _ _ _ _ _ _ _ _ _ Hib Hib' E) as (-> & _ & -> & -> & E2).
    split; [reflexivity|]. split; [reflexivity|]. left.
    destruct (length_cut _ _ _ _ _ _ Hlb Hlb' E2) as (En & -> & E3).
    apply app_eq_app in E3 as (l & [(-> & ->)|(-> & ->)]); rewrite app_length in En;
      (assert (l = []) by (destruct l; [reflexivity|cbn in En; lia])); subst l; rewrite ?app_nil_r in *; auto.
  - exfalso. destruct (identifier_cut _ _ _ _ _ _ _ _ _ _ Hib Hib' E) as (_ & _ & _ & _ & E2).
    rewrite <- app_comm_cons in E2. eapply (Hl _ _ _ _ tt Hlb); [exact E2|reflexivity].
  - exfalso. destruct (identifier_cut _ _ _ _ _ _ _ _ _ _ Hib Hib' E) as (_ & _ & _ & _ & E2).
    rewrite <- app_comm_cons in E2. symmetry in E2. eapply (Hl _ _ _ _ tt Hlb'); [exact E2|reflexivity].
  - destruct (identifier_cut _ _ _ _ _ _ _ _ _ _ Hib Hib' E) as (-> & _ & -> & -> & E2).
    split; [reflexivity|]. split; [reflexivity|]. right.
    rewrite <- !app_comm_cons, <- !app_assoc in E2. cbn [app] in E2. apply (f_equal (@tl N)) in E2. cbn [tl] in E2.
    eexists. eexists. split; [exact E2|]. intros ->. reflexivity.
Qed.

Lemma encodes_cut ru : ru <> Ber ->
  (forall n v bs, encodes ru n v bs -> forall n' v' bs' r r', encodes ru n' v' bs' -> bs ++ r = bs' ++ r' -> v = v' /\ bs = bs')
  /\ (forall n l c, encode_all ru n l c -> cut_all ru l c).
Proof.
  intros Hru. apply encodes_all_ind.
  - intros n v c lb Hc [Hl _] n' v' bs' r r' H' E. inversion H'; subst.
    + match goal with H : definite_length _ _ _ |- _ => destruct H as [Hl' _] end.
      match goal with H : contents _ v' _ |- _ => rename H into Hc' end.
      rewrite <- !app_comm_cons in E.
      assert (Ht : value_tag v = value_tag v').
      { apply (f_equal (hd 0)) in E. cbn [hd] in E. apply leading_inj in E as (_ & _ & E); auto.
        - apply contents_tag in Hc. lia.
        - apply contents_tag in Hc'. lia. }
      apply (f_equal (@tl N)) in E. cbn [tl] in E. rewrite <- !app_assoc in E.
      destruct (length_cut _ _ _ _ _ _ Hl Hl' E) as (En & -> & E2).
      assert (c = c0).
      { apply app_eq_app in E2 as (l & [(-> & ->)|(-> & ->)]); rewrite app_length in En;
          (assert (l = []) by (destruct l; [reflexivity|cbn in En; lia])); subst l; now rewrite app_nil_r. }
      subst c0. split; [eapply contents_unique; eauto|]. now rewrite Ht.
    + exfalso. symmetry in E. eapply wrapped_primitive; eauto.
    + exfalso. symmetry in E. eapply wrapped_primitive; eauto.
    + exfalso. symmetry in E. eapply wrapped_primitive; eauto.
    + contradiction.
  - intros n l c bs Hl IH Hw n' v' bs' r r' H' E. inversion H'; subst; try contradiction.
    + exfalso. eapply wrapped_primitive; eauto.
    + match goal with H : wrapped _ _ _ ?c' bs', Ha : encode_all _ _ _ ?c' |- _ =>
        destruct (wrapped_cut _ _ _ _ _ _ _ _ _ _ _ Hw H E) as (_ & _ & Hcase); destruct (IH _ _ _ Ha) as [I1 I2] end.
      destruct Hcase as [(Ei & ->)|(x & y & Ex & Eb)].
      * split; [|reflexivity]. f_equal. auto.
      * destruct (I2 _ _ Ex) as [-> Ec]. auto.
    + match goal with H : wrapped _ _ _ _ bs' |- _ => destruct (wrapped_cut _ _ _ _ _ _ _ _ _ _ _ Hw H E) as (_ & Ht & _) end. discriminate.
    + match goal with H : wrapped _ _ _ _ bs' |- _ => destruct (wrapped_cut _ _ _ _ _ _ _ _ _ _ _ Hw H E) as (Ht & _ & _) end. congruence.
  - intros n l c bs Hl IH Hw n' v' bs' r r' H' E. inversion H'; subst; try contradiction.
    + exfalso. eapply wrapped_primitive; eauto.
    + match goal with H : wrapped _ _ _ _ bs' |- _ => destruct (wrapped_cut _ _ _ _ _ _ _ _ _ _ _ Hw H E) as (_ & Ht & _) end. discriminate.
    + match goal with H : wrapped _ _ _ ?c' bs', Ha : encode_all _ _ _ ?c' |- _ =>
        destruct (wrapped_cut _ _ _ _ _ _ _ _ _ _ _ Hw H E) as (_ & _ & Hcase); destruct (IH _ _ _ Ha) as [I1 I2] end.
      destruct Hcase as [(Ei & ->)|(x & y & Ex & Eb)].
      * split; [|reflexivity]. f_equal. auto.
      * destruct (I2 _ _ Ex) as [-> Ec]. auto.
    + match goal with H : wrapped _ _ _ _ bs' |- _ => destruct (wrapped_cut _ _ _ _ _ _ _ _ _ _ _ Hw H E) as (Ht & _ & _) end. congruence.
  - intros n cl t v c bs Hcl Hv IH Hw n' v' bs' r r' H' E. inversion H'; subst; try contradiction.
    + exfalso. eapply wrapped_primitive; eauto.
    + match goal with H : wrapped _ _ _ _ bs' |- _ => destruct (wrapped_cut _ _ _ _ _ _ _ _ _ _ _ Hw H E) as (Ht & _ & _) end. congruence.
    + match goal with H : wrapped _ _ _ _ bs' |- _ => destruct (wrapped_cut _ _ _ _ _ _ _ _ _ _ _ Hw H E) as (Ht & _ & _) end. congruence.
    + match goal with H : wrapped _ _ _ ?c' bs', Ha : encodes _ _ _ ?c' |- _ =>
        destruct (wrapped_cut _ _ _ _ _ _ _ _ _ _ _ Hw H E) as (-> & -> & Hcase); pose proof (fun r r' => IH _ _ _ r r' Ha) as I end.
      destruct Hcase as [(Ei & ->)|(x & y & Ex & Eb)].
      * split; [|reflexivity]. f_equal. apply (I [] []). now rewrite Ei.
      * destruct (I _ _ Ex) as [-> Ec]. auto.
  - intros; contradiction.
  - intros n n' l' c' H'. inversion H'; subst.
    + auto.
    + match goal with H : encodes _ _ _ _ |- _ => apply encodes_first in H as (b & x & -> & Hb) end. cbn [app]. split.
      * discriminate.
      * intros r r' E. exfalso. apply Hb. congruence.
  - intros n v bs l rest Hv IHv Hl IHl n' l' c' H'. inversion H'; subst.
    + apply encodes_first in Hv as (b & x & -> & Hb). cbn [app]. split.
      * discriminate.
      * intros r r' E. exfalso. apply Hb. congruence.
    + match goal with H : encodes _ _ _ _, Ha : encode_all _ _ _ _ |- _ =>
        pose proof (fun r r' => IHv _ _ _ r r' H) as I; destruct (IHl _ _ _ Ha) as [I1 I2] end. split.
      * intros E. pose proof (I _ _ E) as [-> ->]. apply app_inv_head in E. f_equal. auto.
      * intros r r' E. rewrite <- !app_assoc in E. pose proof (I _ _ E) as [-> ->]. apply app_inv_head in E.
        apply I2 in E as [-> ->]. auto.
Qed.

(** ** Decoded objects *)

Scheme denotes_mind := Induction for denotes Sort Prop
with denote_all_mind := Induction for denote_all Sort Prop.
Combined Scheme denotes_all_ind from denotes_mind, denote_all_mind.

Lemma denotes_text ru h k s v : denotes ru (Obj h (text_content k s)) v ->
  exists chars, v = AText k chars /\ Forall (permitted k) chars /\ s = text_octets k chars.
Proof.
  intros H. remember (text_content k s) as c eqn:E. inversion H; subst; try (destruct k; discriminate).
  match goal with E : text_content ?k0 _ = _ |- _ => destruct k, k0; inversion E; subst; eauto end.
Qed.

Lemma denotes_unique ru : ru <> Ber ->
  (forall o v, denotes ru o v -> forall v', denotes ru o v' -> v = v')
  /\ (forall os vs, denote_all ru os vs -> forall vs', denote_all ru os vs' -> vs = vs').
Proof.
  intros Hru. apply denotes_all_ind.
  9: { intros h k chars Hp v' H'. apply denotes_text in H' as (chars' & -> & Hp' & E). f_equal.
       eapply text_unique; eauto. }
  all: try (intros h; intros; match goal with H : denotes _ _ ?v' |- _ = ?v' =>
         inversion H; subst; try reflexivity end;
         try (match goal with E : text_content ?k _ = _ |- _ => destruct k; discriminate E end)).
  - f_equal. apply (app_tail_inj l l0 pad pad0); [lia|congruence].
  - f_equal. eapply oid_unique; eauto.
  - f_equal. eapply relative_unique; eauto.
  - f_equal. auto.
  - f_equal. auto.
  - f_equal. eapply (proj1 (encodes_cut ru Hru)) with (r := []) (r' := []); eauto.
  - intros vs' H. inversion H. reflexivity.
  - intros o os v vs Ho IHo Hs IHs vs' H. inversion H; subst. f_equal; auto.
Qed.

(** ** Distinguished encodings are unique *)

Lemma shortest_unique n lb lb' : definite_length SpecAbstract.Der n lb -> definite_length SpecAbstract.Der n lb' -> lb = lb'.
Proof.
  intros [H Hs] [H' Hs']. specialize (Hs eq_refl _ H'). specialize (Hs' eq_refl _ H).
  assert (Hl : length lb = length lb') by lia. clear Hs Hs'.
  inversion H as [m Hm E1 E2|ds Hd Hok Hv E1 E2|]; inversion H' as [m' Hm' E1' E2'|ds' Hd' Hok' Hv' E1' E2'|]; subst;
    cbn [length] in Hl; try lia.
  - reflexivity.
  - f_equal; [lia|]. apply (digits_value_inj 256); auto; lia.
Qed.

Lemma digits_unique d ds d' ds' : d <> 0 -> d' <> 0 ->
  Forall (fun x => x < 128) (d :: ds) -> Forall (fun x => x < 128) (d' :: ds') ->
  digits_value 128 (d :: ds) = digits_value 128 (d' :: ds') -> d :: ds = d' :: ds'.
Proof.
  intros Hd Hd' Hf Hf' E. apply (digits_value_inj 128); auto; [lia|].
  pose proof (digits_lower d ds Hd) as L1. pose proof (digits_lower d' ds' Hd') as L2.
  pose proof (digits_value_lt 128 (d :: ds) ltac:(lia) Hf) as U1. pose proof (digits_value_lt 128 (d' :: ds') ltac:(lia) Hf') as U2.
  assert (H1 : 128 ^ N.of_nat (length ds) < 128 ^ N.of_nat (length (d' :: ds'))) by (rewrite E in L1; lia).
  assert (H2 : 128 ^ N.of_nat (length ds') < 128 ^ N.of_nat (length (d :: ds))) by (rewrite <- E in L2; lia).
  apply N.pow_lt_mono_r_iff in H1; [|lia]. apply N.pow_lt_mono_r_iff in H2; [|lia]. cbn [length] in *. lia.
Qed.

Lemma identifier_unique c pc t ib ib' : identifier c pc t ib -> identifier c pc t ib' -> ib = ib'.
Proof.
  intros [(Ht & ->)|(Ht & d & ds & Hd & Hf & Ev & ->)] [(Ht' & ->)|(Ht' & d' & ds' & Hd' & Hf' & Ev' & ->)]; try lia.
  - reflexivity.
  - f_equal. f_equal. apply digits_unique; auto. congruence.
Qed.

Lemma subidentifier_unique n bs bs' : subidentifier n bs -> subidentifier n bs' -> bs = bs'.
Proof.
  intros (ds & -> & E & Hn & Hf & Hz) (ds' & -> & E' & Hn' & Hf' & Hz'). f_equal.
  destruct ds as [|d ds]; [congruence|]. destruct ds' as [|d' ds']; [congruence|]. cbn [hd length] in *.
  destruct (N.eq_dec d 0) as [->|Hd].
  - assert (ds = []) by (destruct ds; [reflexivity|cbn in Hz; destruct Hz; [lia|contradiction]]). subst ds.
    cbn in E. subst n. destruct (N.eq_dec d' 0) as [->|Hd'].
    + assert (ds' = []) by (destruct ds'; [reflexivity|cbn in Hz'; destruct Hz'; [lia|contradiction]]). now subst.
    + exfalso. pose proof (digits_lower d' ds' Hd') as L. rewrite E' in L.
      pose proof (N.pow_nonzero 128 (N.of_nat (length ds'))). lia.
  - destruct (N.eq_dec d' 0) as [->|Hd'].
    + assert (ds' = []) by (destruct ds'; [reflexivity|cbn in Hz'; destruct Hz'; [lia|contradiction]]). subst ds'.
      cbn in E'. exfalso. pose proof (digits_lower d ds Hd) as L. rewrite E in L.
      pose proof (N.pow_nonzero 128 (N.of_nat (length ds))). lia.
    + apply digits_unique; auto. congruence.
Qed.

Lemma relative_octets comps c c' : relative_oid_contents comps c -> relative_oid_contents comps c' -> c = c'.
Proof.
  intros (ps & -> & H) (ps' & -> & H'). revert ps' H'. induction H as [|n p l ps Hn H IH]; intros ps' H'; inversion H'; subst.
  - reflexivity.
  - cbn [concat]. f_equal; [eapply subidentifier_unique; eauto|]. auto.
Qed.

Lemma octet_bits_inj a b : a < 256 -> b < 256 -> octet_bits a = octet_bits b -> a = b.
Proof.
  intros Ha Hb E. apply N.bits_inj. intros i.
  destruct (N.lt_ge_cases i 8) as [Hi|Hi].
  - assert (Hn : forall x, nth (7 - N.to_nat i) (octet_bits x) false = N.testbit x i).
    { intros x. assert (Hc : i = 0 \/ i = 1 \/ i = 2 \/ i = 3 \/ i = 4 \/ i = 5 \/ i = 6 \/ i = 7) by lia.
      intuition (subst i; reflexivity). }
    now rewrite <- !Hn, E.
  - assert (Hz : forall x, x < 256 -> N.testbit x i = false).
    { intros x Hx. rewrite <- (N.mod_small x (2 ^ 8)) by exact Hx. now apply N.mod_pow2_bits_high. }
    now rewrite !Hz.
Qed.

Lemma bits_inj s : forall s', bytes_ok s -> bytes_ok s' -> bits s = bits s' -> s = s'.
Proof.
  induction s as [|a s IH]; intros [|b s'] H H' E; try discriminate E; [reflexivity|].
  apply bytes_ok_cons in H as [Ha H]. apply bytes_ok_cons in H' as [Hb H'].
  unfold bits in E. cbn [flat_map] in E. apply app_inj_length in E as [E1 E2]; [|reflexivity].
  f_equal; [now apply octet_bits_inj|]. now apply IH.
Qed.

Lemma all_false_unique (a b : list bool) : Forall (eq false) a -> Forall (eq false) b -> length a = length b -> a = b.
Proof.
  intros H. revert b. induction H as [|x a <- H IH]; intros [|y b] H' Hl; try discriminate; [reflexivity|].
  inversion H'; subst. f_equal. apply IH; auto.
Qed.

Lemma der_contents_unique v c c' : contents SpecAbstract.Der v c -> contents SpecAbstract.Der v c' -> c = c'.
Proof.
  intros H H'. destruct H; inversion H'; subst; auto.
  - f_equal. destruct (H1 eq_refl) as [-> | ->]; match goal with H : Der = Der -> _ |- _ => destruct (H eq_refl) as [-> | ->] end;
      auto; exfalso; destruct b; intuition congruence.
  - apply minimal_unique; auto.
  - match goal with E : bits c0 = _ |- _ => rename E into E0 end.
    assert (Hlen : (length pad + (8 * length c0) = length pad0 + (8 * length c))%nat).
    { pose proof (f_equal (@length bool) H2) as L1. pose proof (f_equal (@length bool) E0) as L2.
      rewrite app_length in L1, L2. unfold bits in L1, L2. rewrite flat_map_octets in L1, L2. lia. }
    assert (Hp : length pad = length pad0) by lia.
    assert (pad = pad0) by (apply all_false_unique; auto). subst pad0. f_equal.
    apply bits_inj; auto. congruence.
  - destruct comps as [|a [|b l]]; try contradiction. eapply relative_octets; eauto.
  - eapply relative_octets; eauto.
  - apply minimal_unique; auto.
Qed.

Lemma der_unique :
  (forall n v bs, encodes SpecAbstract.Der n v bs -> forall n' bs', encodes SpecAbstract.Der n' v bs' -> bs = bs')
  /\ (forall n l c, encode_all SpecAbstract.Der n l c -> forall n' c', encode_all SpecAbstract.Der n' l c' -> c = c').
Proof.
  assert (Hw : forall c t i bs bs', wrapped SpecAbstract.Der c t i bs -> wrapped SpecAbstract.Der c t i bs' -> bs = bs').
  { intros c t i bs bs' (ib & Hib & Hw) (ib' & Hib' & Hw'). rewrite (identifier_unique _ _ _ _ _ Hib' Hib) in *.
    destruct Hw as [(lb & Hl & ->)|(Hr & _)]; [|contradiction]. destruct Hw' as [(lb' & Hl' & ->)|(Hr & _)]; [|contradiction].
    now rewrite (shortest_unique _ _ _ Hl Hl'). }
  apply encodes_all_ind; try discriminate.
  - intros n v c lb Hc Hl n' bs' H'. inversion H'; subst; try discriminate; try (inversion Hc; fail).
    match goal with H : contents _ _ _ |- _ => rewrite (der_contents_unique _ _ _ H Hc) in * end.
    match goal with H : definite_length _ _ lb0 |- _ => now rewrite (shortest_unique _ _ _ H Hl) end.
  - intros n l c bs Hl IH Hb n' bs' H'. inversion H'; subst; try discriminate.
    + match goal with H : contents _ _ _ |- _ => inversion H end.
    + match goal with H : encode_all _ _ _ _ |- _ => apply IH in H; subst end. eapply Hw; eauto.
  - intros n l c bs Hl IH Hb n' bs' H'. inversion H'; subst; try discriminate.
    + match goal with H : contents _ _ _ |- _ => inversion H end.
    + match goal with H : encode_all _ _ _ _ |- _ => apply IH in H; subst end. eapply Hw; eauto.
  - intros n cl t v c bs Hcl Hv IH Hb n' bs' H'. inversion H'; subst; try discriminate.
    + match goal with H : contents _ _ _ |- _ => inversion H end.
    + match goal with H : encodes _ _ _ _ |- _ => apply IH in H; subst end. eapply Hw; eauto.
  - intros n n' c' H'. inversion H'. reflexivity.
  - intros n v bs l rest Hv IHv Hl IHl n' c' H'. inversion H'; subst. f_equal; eauto.
Qed.
