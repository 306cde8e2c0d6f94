(** * Lemmas on the encodings of abstract values. *)

From Verif Require Import Base Asn1rs Ber Der Spec SpecValue SpecComb SpecOid SpecAbstract.
From Verif Require Import LemBase LemHeader LemSkip LemParse LemDer LemText LemTree LemNode LemFrame LemVariant.

Scheme encodes_mind := Induction for encodes Sort Prop
with encode_all_mind := Induction for encode_all Sort Prop.
Combined Scheme encodes_all_ind from encodes_mind, encode_all_mind.

(** ** Monotony *)

Lemma body_mono_mut :
  (forall d h b, body d h b -> forall d', (d <= d')%nat -> body d' h b)
  /\ (forall d b, until_eoc d b -> forall d', (d <= d')%nat -> until_eoc d' b).
Proof.
  apply body_until_ind.
  - intros d h n bs El En d' Hd. destruct d'; [lia|]. eapply body_definite; eauto.
  - intros d h bs El Ec Hu IH d' Hd. destruct d'; [lia|]. apply body_indefinite; auto. apply IH. lia.
  - intros d h hb Hh He d' Hd. destruct d'; [lia|]. eapply eoc_now; eauto.
  - intros d h hb b rest Hh He Hb IHb Hr IHr d' Hd. eapply eoc_later; eauto.
Qed.

Lemma element_mono d d' h c bs : (d <= d')%nat -> element d h c bs -> element d' h c bs.
Proof.
  intros Hd (hb & b & -> & Hh & Hb & ->). exists hb, b. repeat split; auto. now apply body_mono_mut with d.
Qed.

Lemma value_mono_mut L :
  (forall d h c k, value L d h c k -> forall d', (d <= d')%nat -> value L d' h c k)
  /\ (forall d c l, series L d c l -> forall d', (d <= d')%nat -> series L d' c l).
Proof.
  apply value_series_ind; intros;
    try (match goal with H : (S _ <= ?d')%nat |- _ => destruct d' as [|d']; [lia|] end).
  all: try (constructor; solve [auto | match goal with IH : forall d', (_ <= d')%nat -> _ |- _ => apply IH; lia end]).
  econstructor; eauto.
Qed.

(** ** Octets *)

Lemma continued_ok ds : Forall (fun d => d < 128) ds -> bytes_ok (continued ds).
Proof.
  unfold bytes_ok. induction ds as [|d [|e r] IH]; intros H; cbn [continued]; [constructor| |];
    inv H; constructor; try lia; [constructor|]. now apply IH.
Qed.

Lemma leading_ok c pc t : t < 32 -> leading_octet c pc t < 256.
Proof. intros H. unfold leading_octet. destruct c, pc; cbn [class_code]; lia. Qed.

Lemma identifier_ok c pc t ib : identifier c pc t ib -> bytes_ok ib.
Proof.
  intros [(Ht & ->)|(Ht & d & ds & _ & Hd & _ & ->)].
  - constructor; [|constructor]. apply leading_ok. lia.
  - constructor; [apply leading_ok; lia|]. now apply continued_ok.
Qed.

Lemma digits_lower d ds : d <> 0 -> 128 ^ N.of_nat (length ds) <= digits_value 128 (d :: ds).
Proof. intros H. cbn [digits_value]. nia. Qed.

Lemma identifier_octets c pc t ib : t < 2 ^ 32 -> identifier c pc t ib -> ident_octets c pc t ib.
Proof.
  intros Hlt [(Ht & ->)|(Ht & d & ds & Hd & Hf & <- & ->)]; [now constructor|].
  rewrite <- (N.mod_small (digits_value 128 (d :: ds)) (2 ^ 32)) at 1 by exact Hlt.
  apply ident_high; [|exact Hf]. cbn [length]. split; [lia|].
  pose proof (digits_lower d ds Hd) as Hl.
  assert (H : 128 ^ N.of_nat (length ds) < 128 ^ 5) by (eapply N.le_lt_trans; [exact Hl|eapply N.lt_trans; [exact Hlt|reflexivity]]).
  apply N.pow_lt_mono_r_iff in H; lia.
Qed.

Lemma length_ok l lb : length_octets l lb -> bytes_ok lb.
Proof.
  intros H. inv H.
  - constructor; [lia|constructor].
  - constructor; [lia|assumption].
  - constructor; [lia|constructor].
Qed.

Lemma utf8_ok c : scalar c -> bytes_ok (utf8_encode c).
Proof.
  intros H. unfold utf8_encode, scalar in *.
  destruct (c <? 128) eqn:E1; [repeat constructor; lia|].
  destruct (c <? 2048) eqn:E2; [repeat constructor; lia|].
  destruct (c <? 65536) eqn:E3; repeat constructor; lia.
Qed.

Lemma flat_map_ok {A} (f : A -> bytes) (P : A -> Prop) l : (forall x, P x -> bytes_ok (f x)) -> Forall P l ->
  bytes_ok (flat_map f l).
Proof.
  intros Hf H. induction H as [|x l Hx H IH]; cbn [flat_map]; [constructor|]. apply bytes_ok_app. auto.
Qed.

Lemma permitted_ascii k c : permitted k c -> match k with TUtf8 | TBmp | TUniversal => True | _ => c < 128 end.
Proof.
  destruct k; cbn [permitted]; auto; unfold numeric_permitted, printable_permitted; cbn [In]; lia.
Qed.

Lemma text_ok k chars : Forall (permitted k) chars -> bytes_ok (text_octets k chars).
Proof.
  intros H. assert (Ha : Forall (fun c => c < 128) chars \/ k = TUtf8 \/ k = TBmp \/ k = TUniversal).
  { destruct k; auto; left; (eapply Forall_impl; [|exact H]); intros x Hx; exact (permitted_ascii _ _ Hx). }
  destruct Ha as [Ha|[->|[->| ->]]]; cbn [text_octets].
  - assert (Ho : bytes_ok chars) by (eapply Forall_impl; [|exact Ha]; cbn; intros; lia).
    destruct k; cbn [text_octets]; try exact Ho.
    + eapply flat_map_ok; [|exact H]. apply utf8_ok.
    + eapply flat_map_ok; [|exact H]. intros x [_ Hx]. repeat constructor; lia.
    + eapply flat_map_ok; [|exact H]. intros x Hx. change (x < 4294967296) in Hx. repeat constructor; lia.
  - eapply flat_map_ok; [|exact H]. apply utf8_ok.
  - eapply flat_map_ok; [|exact H]. intros x [_ Hx]. repeat constructor; lia.
  - eapply flat_map_ok; [|exact H]. intros x Hx. change (x < 4294967296) in Hx. repeat constructor; lia.
Qed.

Lemma relative_ok comps c : relative_oid_contents comps c -> bytes_ok c.
Proof.
  intros (parts & -> & H). induction H as [|n p l ps Hn H IH]; cbn [concat]; [constructor|].
  apply bytes_ok_app. split; [|exact IH]. destruct Hn as (ds & -> & _ & _ & Hd & _). now apply continued_ok.
Qed.

Lemma contents_ok ru v c : contents ru v c -> bytes_ok c.
Proof.
  intros H. inv H; try assumption.
  - repeat constructor. assumption.
  - constructor; [lia|assumption].
  - constructor.
  - destruct comps as [|a [|b l]]; cbn [oid_contents] in *; try contradiction. eapply relative_ok; eauto.
  - eapply relative_ok; eauto.
  - now apply text_ok.
Qed.

(** ** Texts *)

Lemma ascii_text s : Forall (fun c => c < 128) s -> utf8_text s.
Proof.
  intros H. exists s. split.
  - eapply Forall_impl; [|exact H]. unfold scalar. intros x Hx. cbn beta in Hx. lia.
  - induction H as [|c s Hc H IH]; [reflexivity|]. cbn [flat_map]. unfold utf8_encode at 1.
    destruct (c <? 128) eqn:E; [|lia]. cbn [app]. now rewrite <- IH.
Qed.

Lemma bmp_text s : Forall (permitted TBmp) s -> utf16be_text (text_octets TBmp s).
Proof.
  intros H. exists s. split; [eapply Forall_impl; [|exact H]; cbn; tauto|]. cbn [text_octets]. f_equal.
  induction H as [|c s [_ Hc] H IH]; [reflexivity|]. cbn [flat_map]. unfold utf16_encode at 1.
  destruct (c <? 65536) eqn:E; [|lia]. cbn [app]. now rewrite <- IH.
Qed.

Lemma text_value L d h k chars : h_class h = Universal -> h_tag h = text_tag k -> h_constructed h = false ->
  Forall (permitted k) chars -> value L (S d) h (text_octets k chars) (text_content k (text_octets k chars)).
Proof.
  intros Hc Ht Hp H.
  assert (Ha : Forall (fun c => c < 128) chars \/ k = TUtf8 \/ k = TBmp \/ k = TUniversal).
  { destruct k; auto; left; (eapply Forall_impl; [|exact H]); intros x Hx; exact (permitted_ascii _ _ Hx). }
  destruct k; cbn [text_tag text_content text_octets] in *.
  1-4: destruct Ha as [Ha|[Ha|[Ha|Ha]]]; try discriminate; apply v_string; auto using ascii_text.
  - eapply Forall_impl; [|exact H]. intros x Hx. change (x < 128) in Hx. unfold ia5_permitted. lia.
  - eapply Forall_impl; [|exact H]. intros x Hx. change (32 <= x <= 126) in Hx. unfold visible_permitted. lia.
  - apply v_string; auto; (exists chars; split; [exact H|reflexivity]).
  - apply v_bmp_string; auto. now apply bmp_text.
  - now apply v_universal_string.
Qed.

(** ** Encodings are elements with the value *)

Lemma minimal_nonneg c : bytes_ok c -> minimal_integer c -> (0 <= twos_complement c)%Z ->
  twos_complement c = Z.of_N (unsigned c).
Proof.
  intros Hok Hm Hz. destruct c as [|b c]; [contradiction|]. cbn [twos_complement] in *.
  destruct (128 <=? b) eqn:E; [|lia]. exfalso.
  assert (H : unsigned (b :: c) < 256 ^ N.of_nat (length (b :: c))).
  { apply unsigned_lt. exact Hok. }
  assert (E2 : (256 ^ Z.of_nat (length (b :: c)))%Z = Z.of_N (256 ^ N.of_nat (length (b :: c)))).
  { rewrite N2Z.inj_pow. reflexivity. }
  rewrite E2 in Hz. lia.
Qed.

Lemma writable_enum z : writable (AEnumerated z) -> (z < 2 ^ 32)%Z -> exists n k,
  z = Z.of_N n /\ n < 2 ^ 64 /\ 256 ^ N.of_nat k <= n < 128 * 256 ^ N.of_nat k.
Proof. intros H Hz. inversion H; subst; [|contradiction]. exists n, k. repeat split; try lia. Qed.

Lemma contents_value_full ru L d h v c : accepts_oids L -> supported v -> contents ru v c ->
  h_class h = Universal -> h_tag h = value_tag v -> h_constructed h = false ->
  h_length h = Definite (N.of_nat (length c)) ->
  exists k, value L (S d) h c k /\ denotes ru (Obj h k) v /\ (writable v -> stored ru k v).
Proof.
  intros [Ho Hr] Hs H Hc Ht Hp Hl. pose proof H as Hcon. inv H; cbn [value_tag] in Ht.
  - exists (CBoolean (negb (x =? 0))). split; [now apply v_boolean|].
    replace (negb (x =? 0)) with b; [split; constructor|].
    destruct b, (x =? 0) eqn:E; try reflexivity.
    + apply N.eqb_eq in E. apply H1 in E. discriminate.
    + exfalso. apply N.eqb_neq in E. apply E. now apply H1.
  - exists (CInteger c). split; [now apply v_integer|split; now constructor].
  - eexists. split; [now apply v_bit_string|]. split; [|now constructor]. econstructor; [|eassumption]. reflexivity.
  - eexists. split; [now apply v_octet_string|split; now constructor].
  - eexists. split; [now apply v_null|split; constructor].
  - eexists. split; [apply v_oid; auto; rewrite Hp; eauto|]. split; now constructor.
  - eexists. split; [apply v_relative_oid; auto; rewrite Hp; eauto|]. split; now constructor.
  - assert (Hz : (0 <= twos_complement c < 2 ^ 32)%Z) by (inv Hs; [assumption|contradiction]).
    pose proof (minimal_nonneg c H0 H1 (proj1 Hz)) as E.
    exists (CEnum (unsigned c)). split; [|split].
    + apply v_enumerated; auto. rewrite E in Hz. lia.
    + rewrite E. constructor.
    + intros Hw. destruct (writable_enum _ Hw (proj2 Hz)) as (n & k & En & Hn & Hk). rewrite En in *.
      apply N2Z.inj in E. subst n. now apply stored_enumerated with k.
  - eexists. split; [now apply text_value|split; now constructor].
Qed.

Lemma contents_value ru L d h v c : accepts_oids L -> supported v -> contents ru v c ->
  h_class h = Universal -> h_tag h = value_tag v -> h_constructed h = false ->
  h_length h = Definite (N.of_nat (length c)) ->
  exists k, value L (S d) h c k /\ denotes ru (Obj h k) v.
Proof.
  intros HL Hs H Hc Ht Hp Hl. destruct (contents_value_full ru L d h v c HL Hs H Hc Ht Hp Hl) as (k & Hv & Hd & _). eauto.
Qed.

Lemma value_tag_lt v : match v with AExplicit _ _ _ => False | _ => True end -> 0 < value_tag v < 31.
Proof. destruct v as [| | | | | | | |[]| | |]; cbn; intros; try contradiction; lia. Qed.

Lemma contents_not_explicit ru v c : contents ru v c -> match v with AExplicit _ _ _ => False | _ => True end.
Proof. intros H; inv H; exact I. Qed.

Lemma encodes_len ru n v bs : encodes ru n v bs -> (2 <= length bs)%nat.
Proof.
  assert (Hi : forall c pc t ib, identifier c pc t ib -> (1 <= length ib)%nat)
    by (intros c pc t ib [(_ & ->)|(_ & d & ds & _ & _ & _ & ->)]; cbn [length]; lia).
  assert (Hl : forall l lb, length_octets l lb -> (1 <= length lb)%nat)
    by (intros l lb H; inv H; cbn [length]; lia).
  assert (Hw : forall c t i bs, wrapped ru c t i bs -> (2 <= length bs)%nat).
  { intros c t i x (ib & Hib & [(lb & (Hlb & _) & ->)|(_ & ->)]); rewrite !app_length; cbn [length];
      apply Hi in Hib; [apply Hl in Hlb|]; lia. }
  intros H. inv H; eauto. destruct H1 as [Hlb _]. apply Hl in Hlb. cbn [length]. rewrite app_length. lia.
Qed.

(** DER constraints. *)
Lemma octet_tail b l pad : octet_bits b = l ++ pad -> Forall (eq false) pad ->
  b mod 2 ^ N.of_nat (length pad) = 0.
Proof.
  intros E Hp. apply N.bits_inj. intros i. rewrite N.bits_0.
  destruct (N.lt_ge_cases i (N.of_nat (length pad))) as [Hi|Hi]; [|now apply N.mod_pow2_bits_high].
  rewrite N.mod_pow2_bits_low by assumption.
  assert (Hlen : (length l + length pad = 8)%nat) by (rewrite <- app_length, <- E; reflexivity).
  assert (Hn : nth (7 - N.to_nat i) (octet_bits b) false = N.testbit b i).
  { assert (Hc : i = 0 \/ i = 1 \/ i = 2 \/ i = 3 \/ i = 4 \/ i = 5 \/ i = 6 \/ i = 7) by lia.
    intuition (subst i; reflexivity). }
  rewrite <- Hn, E, app_nth2 by lia. rewrite Forall_forall in Hp. symmetry.
  apply Hp. apply nth_In. lia.
Qed.

Lemma pad_tail c l pad : bits c = l ++ pad -> N.of_nat (length pad) < 8 -> Forall (eq false) pad ->
  c <> [] -> last c 0 mod 2 ^ N.of_nat (length pad) = 0.
Proof.
  intros E Hl Hp Hc. destruct (exists_last Hc) as (c' & b & ->). rewrite last_last.
  unfold bits in E. rewrite flat_map_app in E. cbn [flat_map] in E. rewrite app_nil_r in E.
  apply (octet_tail b (skipn (length (flat_map octet_bits c')) l)); [|exact Hp].
  assert (Hlen : (length (flat_map octet_bits c') <= length l)%nat).
  { apply (f_equal (@length bool)) in E. rewrite !app_length in E. change (length (octet_bits b)) with 8%nat in E. lia. }
  apply (f_equal (skipn (length (flat_map octet_bits c')))) in E.
  rewrite !skipn_app, skipn_all, Nat.sub_diag in E. cbn [skipn app] in E. rewrite E.
  replace (length (flat_map octet_bits c') - length l)%nat with 0%nat by lia. reflexivity.
Qed.

Lemma contents_der h v c : contents SpecAbstract.Der v c ->
  h_tag h = value_tag v -> h_constructed h = false -> der_element_ok h c.
Proof.
  intros H Ht Hp _. rewrite Ht, Hp. split.
  - split; [|split; [|split; [reflexivity|]]].
    + intros E. inv H; try discriminate.
      * destruct (H2 eq_refl) as [-> | ->]; auto.
      * destruct k; discriminate.
    + intros E. inv H; try discriminate.
      * destruct c as [|b [|b' c]]; cbn in H1 |- *; auto. tauto.
      * destruct k; discriminate.
    + intros E. exfalso. inv H; cbn in E; destruct E as [E|E]; try discriminate; destruct k; discriminate.
  - intros E. split; [reflexivity|]. inv H; try discriminate; [|destruct k; discriminate].
    exists (N.of_nat (length pad)), c0. split; [reflexivity|]. split; [lia|]. intros Hc. eapply pad_tail; eauto.
Qed.

Lemma constructed_der h c : h_constructed h = true -> h_tag h = 16 \/ h_tag h = 17 -> der_element_ok h c.
Proof.
  intros Hp Ht _. split.
  - repeat split; intros E; exfalso; cbn in E; destruct Ht as [Ht|Ht]; rewrite Ht in E; intuition discriminate.
  - intros E. exfalso. destruct Ht; congruence.
Qed.

(** One constructed element. *)
Lemma wrapped_node ru n cl t c bs : wrapped ru cl t c bs -> t < 2 ^ 32 -> bytes_ok c ->
  (ru <> Der -> until_eoc (S n) (c ++ [0; 0])) ->
  exists h, element (S (S n)) h c bs /\ bytes_ok bs
    /\ h_class h = cl /\ h_tag h = t /\ h_constructed h = true
    /\ (h_length h = Definite (N.of_nat (length c)) \/ h_length h = Indefinite)
    /\ (ru = Der -> definite_element h c bs).
Proof.
  intros (ib & Hib & Hw) Ht Hc Hu. pose proof (identifier_ok _ _ _ _ Hib) as Hok.
  apply identifier_octets in Hib; [|exact Ht].
  destruct Hw as [(lb & (Hlb & _) & ->)|(Hru & ->)].
  - exists (mkHeader cl true t (Definite (N.of_nat (length c))) (Some ib)). cbn [h_class h_tag h_constructed h_length].
    assert (Hh : header_octets (mkHeader cl true t (Definite (N.of_nat (length c))) (Some ib)) (ib ++ lb)).
    { exists ib, lb. cbn. auto. }
    rewrite app_assoc. split; [|split; [|split; [|split; [|split; [|split]]]]]; auto.
    + exists (ib ++ lb), c. split; [reflexivity|]. split; [exact Hh|]. split; [|reflexivity].
      eapply body_definite; [reflexivity|]. reflexivity.
    + rewrite !bytes_ok_app. pose proof (length_ok _ _ Hlb). tauto.
    + intros _. exists (ib ++ lb). auto.
  - exists (mkHeader cl true t Indefinite (Some ib)). cbn [h_class h_tag h_constructed h_length].
    split; [|split; [|split; [|split; [|split; [|split]]]]]; auto; [| |contradiction].
    + exists (ib ++ [128]), (c ++ [0; 0]). split; [now rewrite <- app_assoc|]. split; [|split].
      * exists ib, [128]. cbn. repeat split; auto. constructor.
      * apply body_indefinite; auto.
      * cbn [content_octets h_length]. rewrite app_length, Nat.add_sub. now rewrite firstn_app, Nat.sub_diag, firstn_all, app_nil_r.
    + rewrite bytes_ok_app. split; [exact Hok|]. constructor; [lia|]. apply bytes_ok_app. split; [exact Hc|].
      repeat constructor; lia.
Qed.

Lemma wrapped_element ru n cl t c bs : wrapped ru cl t c bs -> t < 2 ^ 32 -> bytes_ok c ->
  until_eoc (S n) (c ++ [0; 0]) ->
  exists h, element (S (S n)) h c bs /\ bytes_ok bs
    /\ h_class h = cl /\ h_tag h = t /\ h_constructed h = true
    /\ (h_length h = Definite (N.of_nat (length c)) \/ h_length h = Indefinite)
    /\ (ru = Der -> definite_element h c bs).
Proof. intros Hw Ht Hc Hu. apply wrapped_node; auto. Qed.

Lemma eoc_octets : until_eoc 1 [0; 0].
Proof.
  eapply (eoc_now 0 (mkHeader Universal false 0 (Definite 0) (Some [0])) [0; 0]).
  - exists [0], [0]. cbn. repeat split; auto; try discriminate.
    + apply (ident_low Universal false 0). lia.
    + constructor. lia.
  - split; reflexivity.
Qed.

Lemma encodes_value_full ru L : ru <> SpecAbstract.Ber -> accepts_oids L ->
  (forall n v bs, encodes ru n v bs -> (n <= 49)%nat -> supported v ->
     bytes_ok bs /\ exists h c k, element (S n) h c bs /\ ~ ends_contents h
       /\ value L n h c k /\ denotes ru (Obj h k) v
       /\ (ru = SpecAbstract.Der -> definite_element h c bs /\ der_element_ok h c)
       /\ (writable v -> stands ru n (Obj h k) v))
  /\ (forall n l c, encode_all ru n l c -> (n <= 49)%nat -> Forall supported l ->
     bytes_ok c /\ until_eoc (S n) (c ++ [0; 0])
     /\ exists os, series L n c os /\ denote_all ru os l /\ (Forall writable l -> stand_all ru n os l)).
Proof.
  intros Hru HL. apply encodes_all_ind.
  - intros n v c lb Hc [Hl Hm] Hn Hs. pose proof (contents_not_explicit _ _ _ Hc) as Hne.
    pose proof (value_tag_lt v Hne) as Ht. pose proof (contents_ok _ _ _ Hc) as Hok. split.
    { constructor; [apply leading_ok; lia|]. apply bytes_ok_app. split; [eapply length_ok; eauto|exact Hok]. }
    set (ib := [leading_octet Universal false (value_tag v)]).
    set (h := mkHeader Universal false (value_tag v) (Definite (N.of_nat (length c))) (Some ib)).
    assert (Hh : header_octets h (ib ++ lb)).
    { exists ib, lb. cbn. repeat split; auto; try discriminate. apply ident_low. lia. }
    destruct (contents_value_full ru L n h v c HL Hs Hc) as (k & Hv & Hd & Hst); try reflexivity.
    exists h, c, k. split; [|split; [|split; [|split; [|split]]]]; auto.
    + exists (ib ++ lb), c. split; [reflexivity|]. split; [exact Hh|]. split; [|reflexivity].
      eapply body_definite; reflexivity.
    + intros [E _]. cbn in E. lia.
    + intros ->. split; [exists (ib ++ lb); auto|]. now apply contents_der with v.
    + intros Hw. apply st_primitive; [repeat split|auto].
  - intros n l c bs Hl IH Hw Hn Hs.
    assert (Hsl : Forall supported l) by (inv Hs; [assumption|contradiction]).
    destruct IH as (Hok & Hu & os & Hse & Hd & Hst); [lia|exact Hsl|].
    destruct (wrapped_element _ n _ _ _ _ Hw ltac:(lia) Hok Hu) as (h & He & Hb & H1 & H2 & H3 & _ & Hdef).
    split; [exact Hb|]. exists h, c, (CSequence os). split; [exact He|]. split; [intros [E _]; lia|].
    split; [now apply v_sequence|]. split; [now constructor|]. split; [auto using constructed_der|].
    intros Hwr. apply st_sequence; [repeat split; assumption|]. apply Hst. inversion Hwr; subst; [assumption|contradiction].
  - intros n l c bs Hl IH Hw Hn Hs.
    assert (Hsl : Forall supported l) by (inv Hs; [assumption|contradiction]).
    destruct IH as (Hok & Hu & os & Hse & Hd & Hst); [lia|exact Hsl|].
    destruct (wrapped_element _ n _ _ _ _ Hw ltac:(lia) Hok Hu) as (h & He & Hb & H1 & H2 & H3 & _ & Hdef).
    split; [exact Hb|]. exists h, c, (CSet os). split; [exact He|]. split; [intros [E _]; lia|].
    split; [now apply v_set|]. split; [now constructor|]. split; [auto using constructed_der|].
    intros Hwr. apply st_set; [repeat split; assumption|]. apply Hst. inversion Hwr; subst; [assumption|contradiction].
  - intros n cl t v c bs Hcl Hv IH Hw Hn Hs.
    assert (Hsv : t < 2 ^ 32 /\ supported v) by (inv Hs; [auto|contradiction]). destruct Hsv as [Ht Hsv].
    destruct IH as (Hok & h' & c' & k & He' & Hne' & _ & _ & _); [lia|exact Hsv|].
    assert (Hu : until_eoc (S n) (c ++ [0; 0])).
    { destruct He' as (hb & b & -> & Hh & Hb & _). rewrite <- app_assoc. eapply eoc_later; eauto.
      eapply (proj2 body_mono_mut); [apply eoc_octets|lia]. }
    destruct (wrapped_element _ n _ _ _ _ Hw Ht Hok Hu) as (h & He & Hb & H1 & H2 & H3 & H4 & Hdef).
    split; [exact Hb|]. exists h, c, (CUnknown (mkAny h c)). split; [exact He|]. split.
    { intros [_ E]. pose proof (encodes_len _ _ _ _ Hv). destruct H4 as [H4|H4]; rewrite H4 in E; [|discriminate].
      injection E as E. lia. }
    split; [apply v_other_class; congruence|]. split; [|split; [split; [auto|]; intros E; congruence|]].
    { rewrite <- H1, <- H2. econstructor; [congruence|reflexivity|reflexivity|exact Hv]. }
    intros Hwr. apply st_unknown; [repeat split; assumption|assumption|inversion Hwr; subst; [assumption|contradiction]|exact Hv].
  - intros; contradiction.
  - intros n _ _. split; [constructor|]. split; [eapply (proj2 body_mono_mut); [apply eoc_octets|lia]|].
    exists []. repeat split; constructor.
  - intros n v bs l rest Hv IHv Hl IHl Hn Hs. inv Hs.
    destruct IHv as (Hok & h & c & k & He & Hne & Hval & Hd & _ & Hst); auto.
    destruct IHl as (Hokr & Hu & os & Hse & Hds & Hsts); auto.
    split; [apply bytes_ok_app; auto|]. split.
    + destruct He as (hb & b & -> & Hh & Hb & _). rewrite <- !app_assoc. eapply eoc_later; eauto.
    + exists (Obj h k :: os). split; [|split; [now constructor|]].
      * econstructor; eauto. eapply element_mono; [|exact He]. lia.
      * intros Hwr. inv Hwr. constructor; auto.
Qed.

Lemma encodes_value ru L : ru <> SpecAbstract.Ber -> accepts_oids L ->
  (forall n v bs, encodes ru n v bs -> (n <= 49)%nat -> supported v ->
     bytes_ok bs /\ exists h c k, element (S n) h c bs /\ ~ ends_contents h
       /\ value L n h c k /\ denotes ru (Obj h k) v /\ (ru = SpecAbstract.Der -> definite_element h c bs /\ der_element_ok h c))
  /\ (forall n l c, encode_all ru n l c -> (n <= 49)%nat -> Forall supported l ->
     bytes_ok c /\ until_eoc (S n) (c ++ [0; 0])
     /\ exists os, series L n c os /\ denote_all ru os l).
Proof.
  intros Hru HL. split.
  - intros n v bs H Hn Hs. destruct (proj1 (encodes_value_full ru L Hru HL) _ _ _ H Hn Hs)
      as (Hok & h & c & k & H1 & H2 & H3 & H4 & H5 & _). eauto 10.
  - intros n l c H Hn Hs. destruct (proj2 (encodes_value_full ru L Hru HL) _ _ _ H Hn Hs)
      as (Hok & Hu & os & H1 & H2 & _). eauto 10.
Qed.

(** A distinguished encoding is a basic one. *)
Lemma der_whole :
  (forall n v bs, encodes SpecAbstract.Der n v bs -> encodes Whole n v bs)
  /\ (forall n l c, encode_all SpecAbstract.Der n l c -> encode_all Whole n l c).
Proof.
  assert (Hl : forall n lb, definite_length SpecAbstract.Der n lb -> definite_length Whole n lb)
    by (intros n lb [H _]; split; [exact H|discriminate]).
  assert (Hw : forall c t i bs, wrapped SpecAbstract.Der c t i bs -> wrapped Whole c t i bs).
  { intros c t i bs (ib & Hib & [(lb & Hlb & ->)|(H & _)]); [|contradiction].
    exists ib. split; [exact Hib|]. left. eauto. }
  assert (Hc : forall v c, contents SpecAbstract.Der v c -> contents Whole v c).
  { intros v c H. inv H; econstructor; eauto; discriminate. }
  apply encodes_all_ind; intros; try discriminate.
  - apply e_primitive; auto.
  - eapply e_sequence; eauto.
  - eapply e_set; eauto.
  - eapply e_explicit; eauto.
  - constructor.
  - constructor; auto.
Qed.
