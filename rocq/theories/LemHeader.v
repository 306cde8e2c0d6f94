(** * Header octets: the header readers against the relations of Spec.v. *)

From Verif Require Import Base Asn1rs Ber Der Spec LemBase.

(** ** High tag number form *)

Lemma u32_step c x : x < 128 ->
  u32_mod (c * 128) + x = (c * 128 + x) mod 2 ^ 32.
Proof. unfold u32_mod. intros H. change (2 ^ 32) with 4294967296. lia. Qed.

Lemma high_tag_sound rest : forall k c raw c' raw' rest',
  bytes_ok rest ->
  high_tag k c raw rest = Some (c', raw', rest') ->
  exists ds, rest = continued ds ++ rest' /\ raw' = raw ++ continued ds
    /\ (1 <= length ds)%nat /\ k + N.of_nat (length ds) <= 6
    /\ Forall (fun d => d < 128) ds
    /\ c' = (c * 128 ^ N.of_nat (length ds) + digits_value 128 ds) mod 2 ^ 32.
Proof.
  induction rest as [|b rest IH]; intros k c raw c' raw' rest' Hok H; cbn [high_tag] in H;
    [discriminate|].
  destruct (5 <? k) eqn:Hk; [discriminate|].
  apply bytes_ok_cons in Hok as [Hb Hok].
  destruct (b <? 128) eqn:Hb128.
  - inv H. exists [b]. cbn [continued app length digits_value].
    repeat split; try lia; [constructor; auto; lia|].
    rewrite u32_step by lia. rewrite N.mod_small with (a := b) (b := 128) by lia.
    f_equal. change (N.of_nat 1) with 1. change (N.of_nat 0) with 0. lia.
  - apply IH in H; [|exact Hok].
    destruct H as (ds & E1 & E2 & Hl & Hk2 & Hds & Hc).
    exists (b mod 128 :: ds).
    assert (Hcont : continued (b mod 128 :: ds) = b :: continued ds).
    { destruct ds as [|d ds]; [cbn in Hl; lia|]. cbn [continued]. f_equal. lia. }
    rewrite Hcont. subst rest raw'. rewrite <- app_assoc. cbn [app length digits_value].
    repeat split; try lia; [constructor; auto; lia|].
    subst c'. rewrite u32_step by lia.
    replace (N.of_nat (S (length ds))) with (N.succ (N.of_nat (length ds))) by lia.
    rewrite N.pow_succ_r'.
    set (P := 128 ^ N.of_nat (length ds)).
    rewrite <- N.add_mod_idemp_l by (intros HH; discriminate HH).
    rewrite N.mul_mod_idemp_l by (intros HH; discriminate HH).
    rewrite N.add_mod_idemp_l by (intros HH; discriminate HH).
    f_equal. lia.
Qed.

Lemma high_tag_complete ds : forall k c raw rest,
  (1 <= length ds)%nat -> k + N.of_nat (length ds) <= 6 ->
  Forall (fun d => d < 128) ds ->
  high_tag k c raw (continued ds ++ rest)
  = Some ((c * 128 ^ N.of_nat (length ds) + digits_value 128 ds) mod 2 ^ 32,
          raw ++ continued ds, rest).
Proof.
  induction ds as [|d ds IH]; intros k c raw rest Hl Hk Hds; [cbn in Hl; lia|].
  inv Hds.
  destruct ds as [|e ds].
  - cbn [continued app high_tag length digits_value].
    destruct (5 <? k) eqn:Hk5; [cbn [length] in Hk; lia|].
    destruct (d <? 128) eqn:Hd; [|lia].
    rewrite u32_step by lia. rewrite N.mod_small with (a := d) (b := 128) by lia.
    do 3 f_equal. change (N.of_nat 1) with 1. change (N.of_nat 0) with 0. lia.
  - set (es := e :: ds) in *.
    change (continued (d :: es)) with ((128 + d) :: continued es).
    assert (Hes : (1 <= length es)%nat) by (unfold es; cbn; lia). clearbody es.
    cbn [app high_tag].
    destruct (5 <? k) eqn:Hk5; [cbn [length] in Hk; lia|].
    destruct (128 + d <? 128) eqn:Hd; [lia|].
    rewrite IH; [|lia|cbn [length] in *; lia|assumption].
    rewrite <- app_assoc. cbn [app]. do 3 f_equal.
    rewrite u32_step by lia.
    replace ((128 + d) mod 128) with d by lia.
    cbn [length digits_value].
    replace (N.of_nat (S (length es))) with (N.succ (N.of_nat (length es))) by lia.
    rewrite N.pow_succ_r'.
    set (P := 128 ^ N.of_nat (length es)).
    rewrite <- N.add_mod_idemp_l by (intros HH; discriminate HH).
    rewrite N.mul_mod_idemp_l by (intros HH; discriminate HH).
    rewrite N.add_mod_idemp_l by (intros HH; discriminate HH).
    f_equal. lia.
Qed.

(** ** Identifier octets *)

Lemma leading_octet_split c pc low :
  low < 32 ->
  class_of_bits (leading_octet c pc low / 64) = c
  /\ N.odd (leading_octet c pc low / 32) = pc
  /\ leading_octet c pc low mod 32 = low
  /\ leading_octet c pc low < 256.
Proof.
  intros H. unfold leading_octet.
  set (p := if pc then 32 else 0).
  assert (Hp : p = 0 \/ p = 32) by (subst p; destruct pc; auto).
  assert (E64 : (class_code c * 64 + p + low) / 64 = class_code c) by (destruct Hp; lia).
  assert (E32 : (class_code c * 64 + p + low) / 32 = class_code c * 2 + (if pc then 1 else 0)).
  { subst p; destruct pc; lia. }
  rewrite E64, E32. repeat split.
  - destruct c; reflexivity.
  - destruct c, pc; reflexivity.
  - destruct Hp; lia.
  - destruct c; cbn [class_code]; destruct Hp; lia.
Qed.

Lemma octet_is_leading b : b < 256 ->
  b = leading_octet (class_of_bits (b / 64)) (N.odd (b / 32)) (b mod 32).
Proof.
  intros H. unfold leading_octet.
  assert (Hq : b / 32 = 0 \/ b / 32 = 1 \/ b / 32 = 2 \/ b / 32 = 3
            \/ b / 32 = 4 \/ b / 32 = 5 \/ b / 32 = 6 \/ b / 32 = 7) by lia.
  assert (H64 : b / 64 = (b / 32) / 2) by lia.
  rewrite H64.
  assert (Hm : b = b / 32 * 32 + b mod 32) by lia.
  set (m := b mod 32) in *. clearbody m.
  clear H64. set (q := b / 32) in *. clearbody q. clear H.
  destruct Hq as [Hq|[Hq|[Hq|[Hq|[Hq|[Hq|[Hq|Hq]]]]]]]; subst q; cbn -[N.add N.mul]; lia.
Qed.

Lemma parse_identifier_sound i r c pc t raw :
  bytes_ok i -> parse_identifier i = Ok (r, (c, pc, t, raw)) ->
  i = raw ++ r /\ ident_octets c pc t raw.
Proof.
  intros Hok H. unfold parse_identifier in H. destruct i as [|b rest]; [discriminate|].
  apply bytes_ok_cons in Hok as [Hb Hok].
  destruct (b mod 32 =? 31) eqn:E31.
  - destruct (high_tag 1 0 [b] rest) as [[[c' raw'] rest']|] eqn:Hh; [|discriminate].
    inv H. apply high_tag_sound in Hh; [|assumption].
    destruct Hh as (ds & E1 & E2 & Hl & Hk & Hds & Hc). subst rest raw t.
    split; [reflexivity|].
    replace (0 * 128 ^ N.of_nat (length ds) + digits_value 128 ds) with (digits_value 128 ds) by lia.
    cbn [app].
    assert (Hlead : b = leading_octet (class_of_bits (b / 64)) (N.odd (b / 32)) 31).
    { replace 31 with (b mod 32) by lia. now apply octet_is_leading. }
    rewrite Hlead at 3. apply ident_high; [lia|assumption].
  - inv H. split; [reflexivity|].
    rewrite (octet_is_leading b Hb) at 4. apply ident_low. lia.
Qed.

Lemma parse_identifier_complete c pc t ib r :
  ident_octets c pc t ib -> parse_identifier (ib ++ r) = Ok (r, (c, pc, t, ib)).
Proof.
  intros H. inv H; cbn [app]; unfold parse_identifier.
  - destruct (leading_octet_split c pc t ltac:(lia)) as (E1 & E2 & E3 & _).
    rewrite E1, E2, E3. destruct (t =? 31) eqn:E; [lia|reflexivity].
  - destruct (leading_octet_split c pc 31 ltac:(lia)) as (E1 & E2 & E3 & _).
    rewrite E1, E2, E3, N.eqb_refl, high_tag_complete; [|lia|lia|assumption].
    do 5 f_equal.
Qed.

(** ** Length octets *)

Lemma bytes_to_u64_spec s n : bytes_to_u64 s = Some n <-> (unsigned s = n /\ n < 2 ^ 64).
Proof.
  unfold bytes_to_u64. rewrite be_val_unsigned. change (2 ^ 64) with 18446744073709551616.
  destruct (unsigned s <? 18446744073709551616) eqn:E; split; intros H.
  - inv H. split; lia.
  - destruct H; subst; reflexivity.
  - discriminate.
  - exfalso; lia.
Qed.

Lemma take_streaming_ok {E} l i r s :
  take_streaming (E := E) l i = Ok (r, s) <-> i = s ++ r /\ nlen s = l.
Proof.
  unfold take_streaming. split.
  - destruct (nlen i <? l) eqn:Hl; [discriminate|]. intros H; inv H.
    rewrite firstn_skipn. split; [reflexivity|].
    unfold nlen in *. rewrite firstn_length. lia.
  - intros [E1 E2]. subst i. rewrite nlen_app.
    destruct (nlen s + nlen r <? l) eqn:Hl; [lia|].
    replace (N.to_nat l) with (length s) by (unfold nlen in *; lia).
    now rewrite firstn_app_exact, skipn_app_exact.
Qed.

Lemma parse_length_sound indef i r l :
  bytes_ok i -> parse_length indef i = Ok (r, l) ->
  (exists lb, i = lb ++ r /\ length_octets l lb /\ l <> Indefinite)
  \/ (i = 128 :: r /\ indef = Ok l).
Proof.
  intros Hok H. unfold parse_length in H. destruct i as [|b rest]; [discriminate|].
  apply bytes_ok_cons in Hok as [Hb Hok].
  destruct (b <? 128) eqn:E1.
  { inv H. left. exists [b]. repeat split; [constructor; lia|congruence]. }
  destruct (b =? 128) eqn:E2.
  { bind_inv H. inv H. right. split; [f_equal; lia|reflexivity]. }
  destruct (b =? 255) eqn:E3; [discriminate|].
  bind_inv H. destruct a as [rest' llen].
  destruct (bytes_to_u64 llen) eqn:E4; [|discriminate]. inv H.
  apply take_streaming_ok in E as [E5 E6]. subst rest.
  apply bytes_to_u64_spec in E4 as [E4 E7].
  left. exists (b :: llen). split; [reflexivity|]. split; [|congruence]. subst n.
  replace b with (128 + N.of_nat (length llen)) by (unfold nlen in E6; lia).
  apply bytes_ok_app in Hok as [Hok _].
  constructor; auto. unfold nlen in E6; lia.
Qed.

Lemma parse_length_complete indef l lb r :
  length_octets l lb -> l <> Indefinite -> parse_length indef (lb ++ r) = Ok (r, l).
Proof.
  intros H Hn. inv H; cbn [app]; unfold parse_length.
  - destruct (n <? 128) eqn:E; [reflexivity|lia].
  - destruct (128 + N.of_nat (length ds) <? 128) eqn:E1; [lia|].
    destruct (128 + N.of_nat (length ds) =? 128) eqn:E2; [lia|].
    destruct (128 + N.of_nat (length ds) =? 255) eqn:E3; [lia|].
    replace (128 + N.of_nat (length ds) - 128) with (nlen ds) by (unfold nlen; lia).
    assert (Ht : take_streaming (E := berror) (nlen ds) (ds ++ r) = Ok (r, ds))
      by now apply take_streaming_ok.
    rewrite Ht. cbn [bind].
    assert (Hv : bytes_to_u64 ds = Some (unsigned ds)) by now apply bytes_to_u64_spec.
    now rewrite Hv.
  - congruence.
Qed.

(** ** Whole headers *)

Theorem header_from_ber_iff i r h :
  bytes_ok i ->
  (header_from_ber i = Ok (r, h) <-> exists hb, i = hb ++ r /\ header_octets h hb).
Proof.
  intros Hok. split.
  - intros H. unfold header_from_ber in H.
    bind_inv H. destruct a as [r1 [[[c pc] t] raw]].
    apply parse_identifier_sound in E as [E Hi]; [|assumption]. subst i.
    apply bytes_ok_app in Hok as [_ Hok].
    bind_inv H. destruct a as [r2 l]. inv H.
    apply parse_length_sound in E as [(lb & E & Hl & Hn)|[E Hl]]; [| |assumption]; subst r1.
    + exists (raw ++ lb). split; [now rewrite app_assoc|].
      exists raw, lb. cbn. repeat split; auto; intros Hi2; congruence.
    + exists (raw ++ [128]). split; [now rewrite <- app_assoc|].
      destruct pc; [|discriminate]. inv Hl.
      exists raw, [128]. cbn. repeat split; auto. constructor.
  - intros (hb & E & Hh). subst i. clear Hok.
    destruct Hh as (ib & lb & E & Hi & Hl & Hr & Hc). subst hb.
    destruct h as [c pc t l raw]. cbn in *. subst raw.
    unfold header_from_ber. rewrite <- app_assoc, (parse_identifier_complete _ _ _ _ _ Hi).
    cbn [bind]. destruct l as [n|].
    + rewrite (parse_length_complete _ _ _ _ Hl) by congruence. reflexivity.
    + inv Hl. rewrite Hc by reflexivity. reflexivity.
Qed.

Lemma header_from_ber_complete h hb r :
  header_octets h hb -> header_from_ber (hb ++ r) = Ok (r, h).
Proof.
  intros Hh. destruct Hh as (ib & lb & E & Hi & Hl & Hr & Hc). subst hb.
  destruct h as [c pc t l raw]. cbn in *. subst raw.
  unfold header_from_ber. rewrite <- app_assoc, (parse_identifier_complete _ _ _ _ _ Hi).
  cbn [bind]. destruct l as [n|].
  - rewrite (parse_length_complete _ _ _ _ Hl) by congruence. reflexivity.
  - inv Hl. rewrite Hc by reflexivity. reflexivity.
Qed.

Lemma header_from_ber_sound i r h :
  bytes_ok i -> header_from_ber i = Ok (r, h) -> exists hb, i = hb ++ r /\ header_octets h hb.
Proof. intros Hok. now apply header_from_ber_iff. Qed.

Lemma header_from_der_complete h hb r :
  header_octets h hb -> h_length h <> Indefinite -> header_from_der (hb ++ r) = Ok (r, h).
Proof.
  intros Hh Hn. destruct Hh as (ib & lb & E & Hi & Hl & Hr & Hc). subst hb.
  destruct h as [c pc t l raw]. cbn in *. subst raw.
  unfold header_from_der. rewrite <- app_assoc, (parse_identifier_complete _ _ _ _ _ Hi).
  cbn [bind]. rewrite (parse_length_complete _ _ _ _ Hl Hn). reflexivity.
Qed.

Theorem header_from_der_iff i r h :
  bytes_ok i ->
  (header_from_der i = Ok (r, h)
   <-> h_length h <> Indefinite /\ exists hb, i = hb ++ r /\ header_octets h hb).
Proof.
  intros Hok. split.
  - intros H. unfold header_from_der in H.
    bind_inv H. destruct a as [r1 [[[c pc] t] raw]].
    apply parse_identifier_sound in E as [E Hi]; [|assumption]. subst i.
    apply bytes_ok_app in Hok as [_ Hok].
    bind_inv H. destruct a as [r2 l]. inv H.
    apply parse_length_sound in E as [(lb & E & Hl & Hn)|[E Hl]]; [|discriminate|assumption].
    subst r1. cbn. split; [assumption|].
    exists (raw ++ lb). split; [now rewrite app_assoc|].
    exists raw, lb. cbn. repeat split; auto; intros Hi2; congruence.
  - intros [Hn (hb & E & Hh)]. subst i. now apply header_from_der_complete.
Qed.

(** DER headers are BER headers. *)
Lemma header_from_der_ber i r h :
  header_from_der i = Ok (r, h) -> header_from_ber i = Ok (r, h) /\ exists n, h_length h = Definite n.
Proof.
  unfold header_from_der, header_from_ber. intros H.
  bind_inv H. destruct a as [r1 [[[c pc] t] raw]]. cbn [bind].
  bind_inv H. destruct a as [r2 l]. inv H.
  assert (Hd : exists n, l = Definite n /\ parse_length
     (if pc then Ok Indefinite else Err (Error ConstructExpected)) r1 = Ok (r, l)).
  { unfold parse_length in *. destruct r1 as [|b rest]; [discriminate|].
    destruct (b <? 128); [inv E0; eauto|].
    destruct (b =? 128); [discriminate|].
    destruct (b =? 255); [discriminate|].
    bind_inv E0. destruct a as [r' ll]. cbn [bind] in *.
    destruct (bytes_to_u64 ll); [|discriminate]. inv E0. eauto. }
  destruct Hd as (n & -> & Hd). rewrite Hd. cbn. split; [reflexivity|eauto].
Qed.

(** ** Structural facts that need no hypothesis on the octets *)

Lemma high_tag_app k c raw rest x c' raw' rest' :
  high_tag k c raw rest = Some (c', raw', rest') ->
  high_tag k c raw (rest ++ x) = Some (c', raw', rest' ++ x).
Proof.
  revert k c raw; induction rest as [|b rest IH]; intros k c raw H; cbn [high_tag app] in *;
    [discriminate|].
  destruct (5 <? k); [discriminate|]. destruct (b <? 128).
  - now inv H.
  - now apply IH.
Qed.

Lemma high_tag_split k c raw rest c' raw' rest' :
  high_tag k c raw rest = Some (c', raw', rest') ->
  exists p, raw' = raw ++ p /\ rest = p ++ rest' /\ (1 <= length p)%nat.
Proof.
  revert k c raw; induction rest as [|b rest IH]; intros k c raw H; cbn [high_tag] in *;
    [discriminate|].
  destruct (5 <? k); [discriminate|]. destruct (b <? 128).
  - inv H. exists [b]. cbn. auto.
  - apply IH in H as (p & E1 & E2 & Hl). exists (b :: p).
    rewrite E1, E2, <- app_assoc. cbn. repeat split; lia.
Qed.

Lemma parse_identifier_app i x r v :
  parse_identifier i = Ok (r, v) -> parse_identifier (i ++ x) = Ok (r ++ x, v).
Proof.
  unfold parse_identifier. destruct i as [|b rest]; [discriminate|]. cbn [app].
  destruct (b mod 32 =? 31).
  - destruct (high_tag 1 0 [b] rest) as [[[c raw] rest']|] eqn:E; [|discriminate].
    rewrite (high_tag_app _ _ _ _ x _ _ _ E). intros H; now inv H.
  - intros H; now inv H.
Qed.

Lemma take_streaming_app {E} l i x r s :
  take_streaming (E := E) l i = Ok (r, s) -> take_streaming (E := E) l (i ++ x) = Ok (r ++ x, s).
Proof.
  intros H. apply take_streaming_ok in H as [-> H]. apply take_streaming_ok.
  now rewrite app_assoc.
Qed.

Lemma parse_length_app indef i x r l :
  parse_length indef i = Ok (r, l) -> parse_length indef (i ++ x) = Ok (r ++ x, l).
Proof.
  unfold parse_length. destruct i as [|b rest]; [discriminate|]. cbn [app].
  destruct (b <? 128); [intros H; now inv H|].
  destruct (b =? 128); [destruct indef; cbn; intros H; now inv H|].
  destruct (b =? 255); [discriminate|].
  destruct (take_streaming (b - 128) rest) as [[r' s]| | |] eqn:E; cbn [bind]; try discriminate.
  rewrite (take_streaming_app _ _ x _ _ E). cbn [bind].
  destruct (bytes_to_u64 s); [intros H; now inv H|discriminate].
Qed.

Lemma header_from_ber_app i x r h :
  header_from_ber i = Ok (r, h) -> header_from_ber (i ++ x) = Ok (r ++ x, h).
Proof.
  unfold header_from_ber. intros H. bind_inv H. destruct a as [r1 [[[c pc] t] raw]].
  rewrite (parse_identifier_app _ x _ _ E). cbn [bind]. bind_inv H. destruct a as [r2 l].
  rewrite (parse_length_app _ _ x _ _ E0). cbn [bind]. now inv H.
Qed.

Lemma header_from_der_app i x r h :
  header_from_der i = Ok (r, h) -> header_from_der (i ++ x) = Ok (r ++ x, h).
Proof.
  unfold header_from_der. intros H. bind_inv H. destruct a as [r1 [[[c pc] t] raw]].
  rewrite (parse_identifier_app _ x _ _ E). cbn [bind]. bind_inv H. destruct a as [r2 l].
  rewrite (parse_length_app _ _ x _ _ E0). cbn [bind]. now inv H.
Qed.

Lemma parse_identifier_split i r c pc t raw :
  parse_identifier i = Ok (r, (c, pc, t, raw)) -> i = raw ++ r /\ (1 <= length raw)%nat.
Proof.
  unfold parse_identifier. destruct i as [|b rest]; [discriminate|].
  destruct (b mod 32 =? 31).
  - destruct (high_tag 1 0 [b] rest) as [[[c' raw'] rest']|] eqn:E; [|discriminate].
    intros H; inv H. apply high_tag_split in E as (p & -> & -> & _).
    rewrite <- app_assoc. cbn. split; [reflexivity|lia].
  - intros H; inv H. cbn. auto.
Qed.

Lemma parse_length_split indef i r l :
  parse_length indef i = Ok (r, l) -> exists lb, i = lb ++ r /\ (1 <= length lb)%nat.
Proof.
  unfold parse_length. destruct i as [|b rest]; [discriminate|].
  destruct (b <? 128); [intros H; inv H; exists [b]; cbn; auto|].
  destruct (b =? 128).
  { destruct indef; cbn; intros H; inv H. exists [b]; cbn; auto. }
  destruct (b =? 255); [discriminate|].
  destruct (take_streaming (b - 128) rest) as [[r' s]| | |] eqn:E; cbn [bind]; try discriminate.
  apply take_streaming_ok in E as [-> _].
  destruct (bytes_to_u64 s); [|discriminate].
  intros H; inv H. exists (b :: s). cbn. split; [reflexivity|lia].
Qed.

(** Headers consume at least two octets; the raw tag is what was read first. *)
Lemma header_from_ber_split i r h :
  header_from_ber i = Ok (r, h) ->
  exists raw lb, i = (raw ++ lb) ++ r /\ h_raw_tag h = Some raw
    /\ (1 <= length raw)%nat /\ (1 <= length lb)%nat.
Proof.
  unfold header_from_ber. intros H. bind_inv H. destruct a as [r1 [[[c pc] t] raw]].
  apply parse_identifier_split in E as [-> Hl].
  bind_inv H. destruct a as [r2 l]. inv H. apply parse_length_split in E as (lb & -> & Hl2).
  exists raw, lb. cbn. rewrite app_assoc. auto.
Qed.

Lemma header_from_ber_consumes i r h :
  header_from_ber i = Ok (r, h) -> exists hb, i = hb ++ r /\ (2 <= length hb)%nat.
Proof.
  intros H. apply header_from_ber_split in H as (raw & lb & -> & _ & H1 & H2).
  exists (raw ++ lb). rewrite app_length. split; [reflexivity|lia].
Qed.

(** Header readers neither panic nor diverge. *)
Definition total {E A} (r : res E A) : Prop := r <> Panic /\ r <> Diverge.

Lemma total_ok {E A} (a : A) : total (E := E) (Ok a).
Proof. split; discriminate. Qed.
Lemma total_err {E A} (e : E) : total (A := A) (Err e).
Proof. split; discriminate. Qed.
Lemma total_bind {E A B} (r : res E A) (k : A -> res E B) :
  total r -> (forall a, r = Ok a -> total (k a)) -> total (bind r k).
Proof. intros [H1 H2] Hk. destruct r; cbn; try congruence; [auto|apply total_err]. Qed.
Lemma total_map_err {E F A} (f : E -> F) (r : res E A) : total r -> total (map_err f r).
Proof. intros [H1 H2]. destruct r; cbn; try congruence; split; discriminate. Qed.
#[export] Hint Resolve total_ok total_err total_map_err : total.

Lemma take_streaming_total {E} l i : total (take_streaming (E := E) l i).
Proof. unfold take_streaming. destruct (nlen i <? l); auto with total. Qed.

Lemma parse_identifier_total i : total (parse_identifier i).
Proof.
  unfold parse_identifier. destruct i as [|b rest]; auto with total.
  destruct (b mod 32 =? 31); auto with total.
  destruct (high_tag 1 0 [b] rest) as [[[c raw] rest']|]; auto with total.
Qed.

Lemma parse_length_total indef i : total indef -> total (parse_length indef i).
Proof.
  intros Hi. unfold parse_length. destruct i as [|b rest]; auto with total.
  destruct (b <? 128); auto with total.
  destruct (b =? 128); [apply total_bind; auto with total|].
  destruct (b =? 255); auto with total.
  apply total_bind; [apply take_streaming_total|]. intros [r s] _.
  destruct (bytes_to_u64 s); auto with total.
Qed.

Lemma header_from_ber_total i : total (header_from_ber i).
Proof.
  unfold header_from_ber. apply total_bind; [apply parse_identifier_total|].
  intros [r1 [[[c pc] t] raw]] _. apply total_bind.
  - apply parse_length_total. destruct pc; auto with total.
  - intros [r2 l] _; auto with total.
Qed.

Lemma header_from_der_total i : total (header_from_der i).
Proof.
  unfold header_from_der. apply total_bind; [apply parse_identifier_total|].
  intros [r1 [[[c pc] t] raw]] _. apply total_bind.
  - apply parse_length_total. auto with total.
  - intros [r2 l] _; auto with total.
Qed.
#[export] Hint Resolve take_streaming_total header_from_ber_total header_from_der_total : total.
