(** * C61 (all texts) and C95: the texts the oid! macro reads and writes *)

From Coq Require Import String.
From Verif Require Import Base OidMacro PrintText Conformance Spec SpecOid LemBase LemOid PropOid.
Local Open Scope string_scope.
Local Open Scope N_scope.
Local Open Scope list_scope.

(** ** Reading *)

Lemma cons_inj {A} (a b : A) x y : a :: x = b :: y -> a = b /\ x = y.
Proof. intros H. now inversion H. Qed.

Definition solid (c : N) : Prop := is_space c = false.

Lemma blank_space c : (c = 32 \/ 9 <= c <= 13) <-> is_space c = true.
Proof. unfold is_space. lia. Qed.

Lemma trim_start_solid c s : solid c -> trim_start (c :: s) = c :: s.
Proof. intros H. cbn [trim_start]. now rewrite H. Qed.

Lemma trim_solid a c d b : blank a -> Forall solid (c :: d) -> blank b -> trim (a ++ (c :: d) ++ b) = c :: d.
Proof.
  intros Ha Hd Hb. unfold trim. rewrite trim_start_blank by assumption.
  change ((c :: d) ++ b) with (c :: (d ++ b)). rewrite trim_start_solid by now inversion Hd.
  change (c :: (d ++ b)) with ((c :: d) ++ b). rewrite rev_app_distr.
  rewrite trim_start_blank by (apply Forall_rev; assumption).
  apply Forall_rev in Hd. destruct (rev (c :: d)) as [|x l] eqn:E.
  - apply (f_equal (@rev N)) in E. rewrite rev_involutive in E. discriminate.
  - rewrite trim_start_solid by now inversion Hd. rewrite <- E. apply rev_involutive.
Qed.

Lemma trim_start_split s : exists a, blank a /\ s = a ++ trim_start s.
Proof.
  induction s as [|c s (a & Ha & E)]; [exists []; split; [constructor|reflexivity]|].
  cbn [trim_start]. destruct (is_space c) eqn:Ec.
  - exists (c :: a). split; [|cbn [app]; now rewrite <- E]. constructor; [now apply blank_space|assumption].
  - exists []. split; [constructor|reflexivity].
Qed.

Lemma trim_split s : exists a b, blank a /\ blank b /\ s = a ++ trim s ++ b.
Proof.
  unfold trim. destruct (trim_start_split s) as (a & Ha & E).
  destruct (trim_start_split (rev (trim_start s))) as (b & Hb & E').
  exists a, (rev b). split; [assumption|]. split; [now apply Forall_rev|].
  rewrite E at 1. f_equal. apply (f_equal (@rev N)) in E'.
  rewrite rev_involutive, rev_app_distr in E'. exact E'.
Qed.

Lemma parse_digits_iff s : forall acc n, parse_digits acc s = Some n <->
  exists ds, filter (fun x => negb (x =? 95)) s = map (N.add 48) ds /\ Forall (fun d => d < 10) ds
    /\ n = acc * 10 ^ N.of_nat (length ds) + digits_value 10 ds.
Proof.
  induction s as [|c s IH]; intros acc n; cbn [parse_digits filter].
  - split.
    + intros E. injection E as <-. exists []. split; [reflexivity|]. split; [constructor|]. cbn. lia.
    + intros (ds & E & _ & ->). destruct ds; [|discriminate]. cbn. f_equal. lia.
  - destruct (c =? 95) eqn:E1; cbn [negb]; [apply IH|].
    destruct ((48 <=? c) && (c <=? 57)) eqn:E2.
    + rewrite IH. split.
      * intros (ds & E & Hd & ->). exists ((c - 48) :: ds). cbn [map]. rewrite E.
        split; [f_equal; lia|]. split; [constructor; [lia|assumption]|].
        cbn [length digits_value]. rewrite Nat2N.inj_succ, N.pow_succ_r'. lia.
      * intros ([|d ds] & E & Hd & ->); [discriminate|]. cbn [map] in E. apply cons_inj in E as [E0 E].
        exists ds. split; [assumption|]. split; [now inversion Hd|].
        cbn [length digits_value]. rewrite Nat2N.inj_succ, N.pow_succ_r'. replace (c - 48) with d by lia. lia.
    + split; [discriminate|]. intros ([|d ds] & E & Hd & _); [discriminate|].
      cbn [map] in E. apply cons_inj in E as [E _]. inversion Hd; subst. lia.
Qed.

Lemma parse_biguint_iff s n : parse_biguint s = Some n <-> loose_number n s.
Proof.
  assert (Hd : forall c r, c <> 95 -> (parse_digits 0 (c :: r) = Some n
            <-> decimal n (filter (fun x => negb (x =? 95)) (c :: r)))).
  { intros c r Hc. rewrite parse_digits_iff. unfold decimal. split.
    - intros (ds & E & Hd & ->). exists ds. split; [assumption|]. split; [|split; [assumption|lia]].
      intros ->. cbn [filter] in E. destruct (c =? 95) eqn:E1; [lia|discriminate].
    - intros (ds & E & _ & Hd & <-). exists ds. split; [assumption|]. split; [assumption|lia]. }
  unfold parse_biguint, loose_number. split.
  - destruct (strip_plus s) as [|c r] eqn:E; [discriminate|]. destruct (c =? 95) eqn:E1; [discriminate|].
    intros H. apply Hd in H; [|lia].
    assert (Hs : exists sign, s = sign ++ c :: r /\ (sign = [] \/ sign = [43])).
    { unfold strip_plus in E. destruct s as [|x s]; [discriminate|]. destruct (x =? 43) eqn:Ex; [|exists []; auto].
      apply N.eqb_eq in Ex. subst x. destruct s as [|y s]; [discriminate|].
      destruct (y =? 43); [exists []; auto|]. exists [43]. cbn [app]. rewrite E. auto. }
    destruct Hs as (sign & -> & Hs). exists sign, c, r. split; [reflexivity|]. split; [assumption|]. split; [lia|assumption].
  - intros (sign & c & cs & -> & Hs & Hc & H).
    assert (Hc' : c <> 43).
    { destruct H as ([|d ds] & E & Hn & Hds & _); [congruence|]. cbn [filter] in E.
      destruct (c =? 95) eqn:E1; [lia|]. cbn [negb] in E. cbn [map] in E. apply cons_inj in E as [E _].
      inversion Hds; subst. lia. }
    assert (E : strip_plus (sign ++ c :: cs) = c :: cs).
    { destruct Hs as [->| ->]; cbn [app strip_plus].
      - destruct (c =? 43) eqn:Ec; [lia|reflexivity].
      - change (43 =? 43) with true. cbv iota. destruct (c =? 43) eqn:Ec; [lia|reflexivity]. }
    rewrite E. destruct (c =? 95) eqn:E1; [lia|]. now apply Hd.
Qed.

Definition number_char (c : N) : Prop := c = 43 \/ c = 95 \/ 48 <= c < 58.
Lemma loose_chars n s : loose_number n s -> s <> [] /\ Forall number_char s.
Proof.
  intros (sign & c & cs & -> & Hs & _ & (ds & E & _ & Hd & _)). split; [destruct sign; discriminate|].
  apply Forall_app. split; [destruct Hs as [->| ->]; repeat constructor|].
  assert (H : Forall (fun x => 48 <= x < 58) (filter (fun x => negb (x =? 95)) (c :: cs))).
  { rewrite E. apply Forall_map. eapply Forall_impl; [|exact Hd]. cbv beta; intros; lia. }
  rewrite Forall_forall in *. intros x Hx. unfold number_char. destruct (x =? 95) eqn:E1; [lia|].
  specialize (H x). rewrite filter_In in H. rewrite E1 in H. specialize (H (conj Hx eq_refl)). lia.
Qed.

Lemma loose_segment n a d b : blank a -> loose_number n d -> blank b ->
  Forall (fun c => c <> 46) (a ++ d ++ b) /\ parse_biguint (trim (a ++ d ++ b)) = Some n
  /\ (forall r, strip_rel ((a ++ d ++ b) ++ r) = ((a ++ d ++ b) ++ r, false)).
Proof.
  intros Ha Hd Hb. pose proof (loose_chars _ _ Hd) as [Hn Hc]. split; [|split].
  - apply Forall_app. split; [|apply Forall_app; split]; eapply Forall_impl; try eassumption;
      unfold number_char; cbn; intros; lia.
  - destruct d as [|x d]; [congruence|]. rewrite trim_solid; [now apply parse_biguint_iff|assumption| |assumption].
    eapply Forall_impl; [|exact Hc]. unfold number_char, solid, is_space. intros. lia.
  - intros r. assert (H : match (a ++ d ++ b) ++ r with c :: _ => c <> 114 | [] => True end).
    { destruct a as [|c a]; cbn [app].
      - destruct d as [|c d]; [congruence|]. cbn [app]. inversion Hc as [|? ? H1 _]; subst. unfold number_char in H1. lia.
      - inversion Ha as [|? ? H1 _]; subst. lia. }
    destruct ((a ++ d ++ b) ++ r) as [|c text]; [reflexivity|]. unfold strip_rel. destruct c as [|p]; [reflexivity|].
    do 7 (destruct p as [p|p|]; try reflexivity). congruence.
Qed.

Lemma split_dot_inv s : match split_dot s with
  | [] => False
  | [seg] => s = seg
  | seg :: segs => exists r, s = seg ++ 46 :: r /\ split_dot r = segs
  end.
Proof.
  induction s as [|c s IH]; [reflexivity|]. cbn [split_dot].
  destruct (c =? 46) eqn:E.
  - apply N.eqb_eq in E. subst c. destruct (split_dot s) eqn:Es; [contradiction|]. exists s. auto.
  - destruct (split_dot s) as [|seg [|seg' segs]]; [contradiction|now subst|].
    destruct IH as (r & -> & Hr). exists r. auto.
Qed.

Lemma parse_segments_iff : forall ns text,
  parse_segments (split_dot text) = Ok ns <-> loosely_dotted ns text.
Proof.
  intros ns text. split.
  - assert (Hg : forall segs ns text, split_dot text = segs -> parse_segments segs = Ok ns -> loosely_dotted ns text).
    { clear. induction segs as [|seg segs IH]; intros ns text E H; pose proof (split_dot_inv text) as Hi; rewrite E in Hi;
        [contradiction|]. cbn [parse_segments] in H.
      destruct (parse_biguint (trim seg)) as [n|] eqn:En; [|discriminate]. apply parse_biguint_iff in En.
      destruct (trim_split seg) as (a & b & Ha & Hb & Es). bind_inv H. inv H.
      destruct segs as [|seg' segs].
      - subst text. cbn [parse_segments] in E0. inv E0. rewrite Es. now apply loose_one.
      - destruct Hi as (r & -> & Hr). rewrite Es. apply loose_more; auto. }
    intros H. eapply Hg; [reflexivity|exact H].
  - induction 1 as [n a d b Ha Hd Hb|n a d b ns r Ha Hd Hb _ IH];
      destruct (loose_segment n a d b Ha Hd Hb) as (Hn & Hp & _).
    + rewrite split_dot_nodot by assumption. cbn [parse_segments]. rewrite Hp. reflexivity.
    + rewrite split_dot_more by assumption. cbn [parse_segments]. rewrite Hp, IH. reflexivity.
Qed.

Lemma loosely_not_rel ns text : loosely_dotted ns text -> strip_rel text = (text, false).
Proof.
  intros [n a d b Ha Hd Hb|n a d b ns' r Ha Hd Hb _]; destruct (loose_segment n a d b Ha Hd Hb) as (_ & _ & H).
  - specialize (H []). rewrite app_nil_r in H. exact H.
  - apply H.
Qed.

Lemma strip_rel_inv s r : strip_rel s = (r, true) -> s = str "rel " ++ r.
Proof.
  unfold strip_rel. intros H.
  destruct s as [|c1 [|c2 [|c3 [|c4 s]]]]; try discriminate;
  repeat match type of H with (match ?x with _ => _ end) = _ => destruct x; try discriminate end.
  inv H. reflexivity.
Qed.

(** The texts that are read, exactly. *)
Theorem C61_exact : forall text bs, encode_oid text = Ok bs <->
  (exists comps, loosely_dotted comps text /\ encode_components comps false = Ok bs)
  \/ (exists comps t, text = str "rel " ++ t /\ loosely_dotted comps t /\ encode_components comps true = Ok bs).
Proof.
  intros text bs. split.
  - unfold encode_oid. destruct (strip_rel text) as [r rel] eqn:E. intros H. bind_inv H.
    apply parse_segments_iff in E0. destruct rel.
    + right. apply strip_rel_inv in E. eauto.
    + left. exists a. split; [|assumption].
      assert (r = text) as ->; [|assumption].
      unfold strip_rel in E.
      repeat match type of E with (match ?x with _ => _ end) = _ => destruct x end; now inv E.
  - intros [(comps & Hd & H)|(comps & t & -> & Hd & H)]; unfold encode_oid.
    + rewrite (loosely_not_rel _ _ Hd). apply parse_segments_iff in Hd. rewrite Hd. exact H.
    + change (strip_rel (str "rel " ++ t)) with (t, true). apply parse_segments_iff in Hd. cbv iota.
      rewrite Hd. exact H.
Qed.
Print Assumptions C61_exact.

(** Not only dotted notation is read. *)
Theorem C61_only_refuted : exists text bs, encode_oid text = Ok bs
  /\ (forall comps, ~ dotted comps text) /\ (forall comps t, text = str "rel " ++ t -> ~ dotted comps t).
Proof.
  exists (str "+1.3"), [43]. split; [vm_compute; reflexivity|].
  split; [|intros comps t E; apply (f_equal (hd 0)) in E; discriminate].
  assert (Hd : forall comps text, dotted comps text -> hd 0 text <> 43).
  { assert (Hs : forall n a d b r, blank a -> decimal n d -> hd 0 ((a ++ d ++ b) ++ r) <> 43).
    { intros n a d b r Ha Hd. apply decimal_chars in Hd as [Hd Hn]. destruct a as [|c a]; cbn [app hd].
      - destruct d as [|c d]; [congruence|]. inversion Hd; subst. unfold digit_char in *. cbn [app hd]. lia.
      - inversion Ha; subst. lia. }
    intros comps text [n a d b Ha Hn Hb|n a d b ns r Ha Hn Hb _].
    - rewrite <- (app_nil_r (a ++ d ++ b)). eapply Hs; eauto.
    - eapply Hs; eauto. }
  intros comps H. now apply Hd in H.
Qed.
Print Assumptions C61_only_refuted.

(** "1_000.+2" has the components 1000 and 2. *)
Example C61_exact_ex : loosely_dotted [1000; 2] (str "1_000.+2")
  /\ encode_oid (str "rel 1_000.+2") = Ok [135; 104; 2].
Proof.
  split; [|vm_compute; reflexivity].
  change (str "1_000.+2") with (([] ++ [49; 95; 48; 48; 48] ++ []) ++ 46 :: ([] ++ [43; 50] ++ [])).
  apply loose_more; [constructor| |constructor|apply loose_one; [constructor| |constructor]].
  - exists [], 49, [95; 48; 48; 48]. split; [reflexivity|]. split; [now left|]. split; [discriminate|].
    exists [1; 0; 0; 0]. split; [reflexivity|]. split; [discriminate|]. split; [repeat constructor|reflexivity].
  - exists [43], 50, []. split; [reflexivity|]. split; [now right|]. split; [discriminate|].
    exists [2]. split; [reflexivity|]. split; [discriminate|]. split; [repeat constructor|reflexivity].
Qed.

(** ** C95: what is printed *)

Lemma first_cut {A} (P : A -> Prop) x : forall x' c c' r r', Forall (fun y => ~ P y) x -> Forall (fun y => ~ P y) x' ->
  P c -> P c' -> x ++ c :: r = x' ++ c' :: r' -> x = x' /\ c = c' /\ r = r'.
Proof.
  induction x as [|y x IH]; intros [|y' x'] c c' r r' Hx Hx' Hc Hc' E; cbn [app] in E; apply cons_inj in E as [E1 E2]; subst.
  - auto.
  - inversion Hx'; contradiction.
  - inversion Hx; contradiction.
  - inversion Hx; inversion Hx'; subst. destruct (IH x' c c' r r') as (-> & -> & ->); auto.
Qed.

Definition text_char (c : N) : Prop := 48 <= c < 58 \/ 65 <= c < 71 \/ 97 <= c < 103 \/ c = 120.
Definition blank_char (c : N) : Prop := c = 32 \/ 9 <= c <= 13.

Lemma literal_chars n t : hex_literal n t -> Forall text_char t /\ t <> [].
Proof.
  intros (ds & cs & -> & _ & H & _). split; [|discriminate].
  constructor; [unfold text_char; lia|]. constructor; [unfold text_char; lia|].
  induction H as [|d c ds cs Hc _ IH]; constructor; [|assumption]. unfold hex_char, text_char in *. lia.
Qed.

Lemma digits_fun ds cs : Forall2 hex_char ds cs -> forall ds', Forall2 hex_char ds' cs -> ds' = ds.
Proof.
  induction 1 as [|d c ds cs Hc _ IH]; intros ds' H; inversion H as [|d' ? ds'' ? Hc' Hr]; subst; [reflexivity|].
  f_equal; [unfold hex_char in *; lia|now apply IH].
Qed.

Lemma literal_fun n n' t : hex_literal n t -> hex_literal n' t -> n = n'.
Proof.
  intros (ds & cs & -> & _ & H & <-) (ds' & cs' & E & _ & H' & <-).
  apply cons_inj in E as [_ E]. apply cons_inj in E as [_ ->].
  now rewrite (digits_fun _ _ H _ H').
Qed.

(** Blanks, then other characters, then blanks: the middle is determined. *)
Lemma blank_cut a a' x x' : blank a -> blank a' ->
  match x with c :: _ => ~ blank_char c | [] => False end ->
  match x' with c :: _ => ~ blank_char c | [] => False end -> a ++ x = a' ++ x' -> x = x'.
Proof.
  intros Ha. revert a'. induction Ha as [|c a Hc _ IH]; intros [|c' a'] Ha' Hx Hx' E; cbn [app] in E.
  - assumption.
  - subst x. inversion Ha'; subst. contradiction.
  - subst x'. contradiction.
  - apply cons_inj in E as [_ E]. inversion Ha'; subst. now apply (IH a').
Qed.

Lemma text_not_blank c : text_char c -> ~ blank_char c.
Proof. unfold text_char, blank_char. lia. Qed.

Lemma middle_cut a b a' b' t t' : blank a -> blank b -> blank a' -> blank b' ->
  Forall text_char t -> Forall text_char t' -> t <> [] -> t' <> [] ->
  a ++ t ++ b = a' ++ t' ++ b' -> t = t'.
Proof.
  intros Ha Hb Ha' Hb' Ht Ht' Hn Hn' E.
  assert (E1 : t ++ b = t' ++ b').
  { apply (blank_cut a a'); auto.
    - destruct t as [|c t]; [congruence|]. inversion Ht. now apply text_not_blank.
    - destruct t' as [|c t']; [congruence|]. inversion Ht'. now apply text_not_blank. }
  apply (f_equal (@rev N)) in E1. rewrite !rev_app_distr in E1.
  apply Forall_rev in Hb. apply Forall_rev in Hb'. apply Forall_rev in Ht. apply Forall_rev in Ht'.
  assert (E2 : rev t = rev t').
  { apply (blank_cut (rev b) (rev b')); auto.
    - destruct (rev t) as [|c l] eqn:El; [apply (f_equal (@rev N)) in El; rewrite rev_involutive in El; cbn [rev] in El; congruence|].
      inversion Ht. now apply text_not_blank.
    - destruct (rev t') as [|c l] eqn:El; [apply (f_equal (@rev N)) in El; rewrite rev_involutive in El; cbn [rev] in El; congruence|].
      inversion Ht'. now apply text_not_blank. }
  now rewrite <- (rev_involutive t), E2, rev_involutive.
Qed.

Lemma blank_no_comma a : blank a -> Forall (fun c => ~ c = 44) a.
Proof. intros H. eapply Forall_impl; [|exact H]. cbv beta. intros. lia. Qed.
Lemma item_no_comma n a t b : blank a -> hex_literal n t -> blank b -> Forall (fun c => ~ c = 44) (a ++ t ++ b).
Proof.
  intros Ha Ht Hb. apply Forall_app. split; [now apply blank_no_comma|]. apply Forall_app.
  split; [|now apply blank_no_comma]. apply literal_chars in Ht as [Ht _]. eapply Forall_impl; [|exact Ht].
  unfold text_char. intros. lia.
Qed.

Lemma no_comma_app (x r : bytes) : ~ Forall (fun c => ~ c = 44) (x ++ 44 :: r).
Proof. intros H. apply Forall_app in H as [_ H]. inversion H. congruence. Qed.

Lemma item_not_blank n a t b : hex_literal n t -> ~ blank (a ++ t ++ b).
Proof.
  intros (ds & cs & -> & _) H. apply Forall_app in H as [_ H]. inversion H. lia.
Qed.

(** An array literal denotes one list of numbers. *)
Lemma listed_fun ns t : listed ns t -> forall ns', listed ns' t -> ns' = ns.
Proof.
  induction 1 as [a Ha|n a t b Ha Ht Hb|n a t b ns r Ha Ht Hb _ IH]; intros ns' H'.
  - inversion H' as [a' Ha' E|n' a' t' b' Ha' Ht' Hb' E1 E|n' a' t' b' ns2 r' Ha' Ht' Hb' _ E1 E]; subst.
    + reflexivity.
    + now apply item_not_blank with (n := n') in Ha.
    + apply blank_no_comma in Ha. now apply no_comma_app in Ha.
  - inversion H' as [a' Ha' E|n' a' t' b' Ha' Ht' Hb' E1 E|n' a' t' b' ns2 r' Ha' Ht' Hb' _ E1 E]; subst.
    + now apply item_not_blank with (n := n) in Ha'.
    + pose proof (literal_chars _ _ Ht) as [Hc Hn]. pose proof (literal_chars _ _ Ht') as [Hc' Hn'].
      assert (t' = t) as -> by (eapply (middle_cut a' b' a b); eauto). f_equal. eapply literal_fun; eauto.
    + pose proof (item_no_comma n a t b Ha Ht Hb) as Hn. rewrite <- E in Hn. now apply no_comma_app in Hn.
  - inversion H' as [a' Ha' E|n' a' t' b' Ha' Ht' Hb' E1 E|n' a' t' b' ns2 r' Ha' Ht' Hb' Hr' E1 E]; subst.
    + apply blank_no_comma in Ha'. now apply no_comma_app in Ha'.
    + pose proof (item_no_comma n' a' t' b' Ha' Ht' Hb') as Hn. rewrite E in Hn. now apply no_comma_app in Hn.
    + apply (first_cut (fun c => c = 44)) in E as (E & _ & ->);
        [|eapply item_no_comma; eauto|eapply item_no_comma; eauto|reflexivity|reflexivity].
      pose proof (literal_chars _ _ Ht) as [Hc Hn]. pose proof (literal_chars _ _ Ht') as [Hc' Hn'].
      assert (t' = t) as -> by (eapply (middle_cut a' b' a b); eauto).
      f_equal; [eapply literal_fun; eauto|now apply IH].
Qed.

Lemma array_fun ns ns' t : array_literal ns t -> array_literal ns' t -> ns = ns'.
Proof.
  intros (x & -> & H) (x' & E & H'). apply cons_inj in E as [_ E]. apply app_inj_tail in E as [-> _].
  eapply listed_fun; eauto.
Qed.

Lemma octet_literal b : b < 256 -> hex_literal b [48; 120; hex_digit (b / 16); hex_digit (b mod 16)].
Proof.
  intros Hb. exists [b / 16; b mod 16], [hex_digit (b / 16); hex_digit (b mod 16)].
  split; [reflexivity|]. split; [discriminate|]. split.
  - assert (Hd : forall d, d < 16 -> hex_char d (hex_digit d)).
    { intros d Hd. unfold hex_char, hex_digit. destruct (d <? 10) eqn:E; lia. }
    constructor; [apply Hd; lia|]. constructor; [apply Hd; lia|constructor].
  - cbn [digits_value length]. change (16 ^ N.of_nat 1) with 16. change (16 ^ N.of_nat 0) with 1. lia.
Qed.

Lemma array_text_literal enc : bytes_ok enc -> array_literal enc (array_text enc).
Proof.
  intros Hb. unfold array_text.
  assert (E : forall l s, fold_left (fun s b => s ++ octet_text b) l s = s ++ flat_map octet_text l).
  { induction l as [|x l IH]; intros s; cbn [fold_left flat_map]; [now rewrite app_nil_r|].
    now rewrite IH, <- app_assoc. }
  rewrite E. exists (flat_map octet_text enc). split; [reflexivity|].
  assert (Hl : forall l a, blank a -> bytes_ok l -> listed l (a ++ flat_map octet_text l)).
  { induction l as [|x l IH]; intros a Ha Hl.
    - cbn [flat_map]. rewrite app_nil_r. now constructor.
    - inversion Hl as [|? ? Hx Hr]; subst. cbn [flat_map].
      replace (a ++ octet_text x ++ flat_map octet_text l)
        with ((a ++ [48; 120; hex_digit (x / 16); hex_digit (x mod 16)] ++ []) ++ 44 :: ([32] ++ flat_map octet_text l))
        by (unfold octet_text; rewrite <- !app_assoc; reflexivity).
      apply listed_more; [assumption|now apply octet_literal|constructor|].
      apply IH; [constructor; [now left|constructor]|assumption]. }
  apply (Hl enc []); [constructor|assumption].
Qed.

Lemma subidentifier_ok n bs : subidentifier n bs -> bytes_ok bs.
Proof.
  intros (ds & -> & _ & _ & Hd & _). clear -Hd. unfold bytes_ok. induction Hd as [|d ds Hd Hr IH]; [constructor|].
  cbn [continued]. destruct ds as [|d' ds]; constructor; try lia; [constructor|assumption].
Qed.
Lemma parts_ok comps parts : Forall2 subidentifier comps parts -> bytes_ok (concat parts).
Proof.
  induction 1 as [|n p comps parts Hp _ IH]; [constructor|]. cbn [concat]. apply bytes_ok_app.
  split; [eapply subidentifier_ok; eauto|assumption].
Qed.

Lemma components_ok comps rel bs : encode_components comps rel = Ok bs -> bytes_ok bs.
Proof.
  destruct rel.
  - intros H. destruct (C52_relative comps) as (bs' & E & parts & -> & Hp). rewrite H in E. inv E.
    eapply parts_ok; eauto.
  - unfold encode_components. destruct comps as [|a [|b rest]]; [discriminate| |].
    + destruct (a =? 0); [|discriminate]. intros H. inv H. repeat constructor.
    + destruct (_ || _); [discriminate|]. destruct (255 <? a * 40 + b) eqn:E1; [discriminate|]. intros H.
      destruct (encode_all_spec rest [a * 40 + b]) as (parts & E & Hp). rewrite H in E. inv E.
      constructor; [lia|eapply parts_ok; eauto].
Qed.

(** The macro prints an array literal, and the only numbers it denotes are the octets of
    the identifier, in order; it prints nothing if and only if the identifier is refused. *)
Theorem C95_array : forall s,
  (exists bs t, encode_oid s = Ok bs /\ encode_oid_text s = Ok t /\ bytes_ok bs
     /\ (forall ns, array_literal ns t <-> ns = bs))
  \/ (encode_oid s = Panic /\ encode_oid_text s = Panic).
Proof.
  intros s. destruct (encode_oid s) as [bs|[]| |] eqn:E.
  - left. exists bs, (array_text bs). unfold encode_oid_text. rewrite E. cbn [bind].
    assert (Hb : bytes_ok bs).
    { apply C61_exact in E as [(c & _ & H)|(c & t & _ & _ & H)]; eapply components_ok; eauto. }
    split; [reflexivity|]. split; [reflexivity|]. split; [assumption|]. intros ns.
    pose proof (array_text_literal _ Hb) as Ha. split; [intros H; eapply array_fun; eauto|now intros ->].
  - exfalso. revert E. unfold encode_oid. destruct (strip_rel s) as [r rel].
    assert (Hp : forall l, parse_segments l <> Err tt).
    { induction l as [|x l IH]; cbn [parse_segments]; [discriminate|].
      destruct (parse_biguint (trim x)); [|discriminate]. destruct (parse_segments l) as [|[]| |]; cbn; congruence. }
    assert (He : forall c, encode_components c rel <> Err tt).
    { intros c H. destruct rel.
      - destruct (C52_relative c) as (bs & E & _). congruence.
      - unfold encode_components in H. destruct c as [|a [|b rest]]; [discriminate|destruct (a =? 0); discriminate|].
        destruct (_ || _); [discriminate|]. destruct (255 <? _); [discriminate|].
        destruct (encode_all_spec rest [a * 40 + b]) as (parts & E & _). congruence. }
    destruct (parse_segments (split_dot r)) as [c|[]| |] eqn:Es; cbn [bind]; intros H; try discriminate.
    + now apply He in H.
    + now apply Hp in Es.
  - right. unfold encode_oid_text. rewrite E. auto.
  - exfalso. revert E. unfold encode_oid. destruct (strip_rel s) as [r rel].
    assert (Hp : forall l, parse_segments l <> Diverge).
    { induction l as [|x l IH]; cbn [parse_segments]; [discriminate|].
      destruct (parse_biguint (trim x)); [|discriminate]. destruct (parse_segments l) as [|[]| |]; cbn; congruence. }
    assert (He : forall c, encode_components c rel <> Diverge).
    { intros c H. destruct rel.
      - destruct (C52_relative c) as (bs & E & _). congruence.
      - unfold encode_components in H. destruct c as [|a [|b rest]]; [discriminate|destruct (a =? 0); discriminate|].
        destruct (_ || _); [discriminate|]. destruct (255 <? _); [discriminate|].
        destruct (encode_all_spec rest [a * 40 + b]) as (parts & E & _). congruence. }
    destruct (parse_segments (split_dot r)) as [c|[]| |] eqn:Es; cbn [bind]; intros H; try discriminate.
    + now apply He in H.
    + now apply Hp in Es.
Qed.
Print Assumptions C95_array.

Example C95_ex : encode_oid_text (str "1.2.840.113549") = Ok (str "[0x2a, 0x86, 0x48, 0x86, 0xf7, 0x0d, ]").
Proof. vm_compute. reflexivity. Qed.
