(** * Character strings. *)

From Verif Require Import Base Asn1rs Ber Spec.
From Verif Require Import LemBase.

(** ** UTF-8 *)

Lemma utf8_cons_valid c s : scalar c -> utf8_valid (utf8_encode c ++ s) = utf8_valid s.
Proof.
  intros Hc. unfold scalar in Hc. unfold utf8_encode.
  destruct (c <? 128) eqn:E1.
  { cbn [app utf8_valid]. now rewrite E1. }
  destruct (c <? 2048) eqn:E2.
  { cbn [app utf8_valid]. unfold cont_byte.
    set (b0 := 192 + c / 64). set (b1 := 128 + c mod 64).
    assert (194 <= b0 <= 223) by (unfold b0; lia). assert (128 <= b1 <= 191) by (unfold b1; lia).
    clearbody b0 b1.
    replace (b0 <? 128) with false by lia. replace ((194 <=? b0) && (b0 <=? 223)) with true by lia.
    replace ((128 <=? b1) && (b1 <=? 191)) with true by lia. reflexivity. }
  destruct (c <? 65536) eqn:E3.
  { cbn [app utf8_valid]. unfold cont_byte.
    set (b0 := 224 + c / 4096). set (b1 := 128 + (c / 64) mod 64). set (b2 := 128 + c mod 64).
    assert (224 <= b0 <= 239) by (unfold b0; lia). assert (128 <= b1 <= 191) by (unfold b1; lia).
    assert (128 <= b2 <= 191) by (unfold b2; lia).
    assert (b0 = 224 -> 160 <= b1) by (unfold b0, b1; lia).
    assert (b0 = 237 -> b1 <= 159) by (unfold b0, b1; lia).
    clearbody b0 b1 b2.
    replace (b0 <? 128) with false by lia. replace ((194 <=? b0) && (b0 <=? 223)) with false by lia.
    replace ((128 <=? b2) && (b2 <=? 191)) with true by lia.
    destruct (b0 =? 224) eqn:F1.
    { replace ((160 <=? b1) && (b1 <=? 191)) with true by lia. reflexivity. }
    destruct (((225 <=? b0) && (b0 <=? 236)) || (b0 =? 238) || (b0 =? 239)) eqn:F2.
    { replace ((128 <=? b1) && (b1 <=? 191)) with true by lia. reflexivity. }
    replace (b0 =? 237) with true by lia.
    replace ((128 <=? b1) && (b1 <=? 159)) with true by lia. reflexivity. }
  cbn [app utf8_valid]. unfold cont_byte.
  set (b0 := 240 + c / 262144). set (b1 := 128 + (c / 4096) mod 64).
  set (b2 := 128 + (c / 64) mod 64). set (b3 := 128 + c mod 64).
  assert (240 <= b0 <= 244) by (unfold b0; lia). assert (128 <= b1 <= 191) by (unfold b1; lia).
  assert (128 <= b2 <= 191) by (unfold b2; lia). assert (128 <= b3 <= 191) by (unfold b3; lia).
  assert (b0 = 240 -> 144 <= b1) by (unfold b0, b1; lia).
  assert (b0 = 244 -> b1 <= 143) by (unfold b0, b1; lia).
  clearbody b0 b1 b2 b3.
  replace (b0 <? 128) with false by lia. replace ((194 <=? b0) && (b0 <=? 223)) with false by lia.
  replace (b0 =? 224) with false by lia.
  replace (((225 <=? b0) && (b0 <=? 236)) || (b0 =? 238) || (b0 =? 239)) with false by lia.
  replace (b0 =? 237) with false by lia.
  replace ((128 <=? b2) && (b2 <=? 191)) with true by lia.
  replace ((128 <=? b3) && (b3 <=? 191)) with true by lia.
  destruct (b0 =? 240) eqn:F1.
  { replace ((144 <=? b1) && (b1 <=? 191)) with true by lia. reflexivity. }
  destruct ((241 <=? b0) && (b0 <=? 243)) eqn:F2.
  { replace ((128 <=? b1) && (b1 <=? 191)) with true by lia. reflexivity. }
  replace (b0 =? 244) with true by lia.
  replace ((128 <=? b1) && (b1 <=? 143)) with true by lia. reflexivity.
Qed.

(** The first character of valid text. *)
Lemma enc2 b0 b1 : 194 <= b0 <= 223 -> 128 <= b1 <= 191 ->
  exists c, scalar c /\ utf8_encode c = [b0; b1].
Proof.
  intros H0 H1. exists ((b0 - 192) * 64 + (b1 - 128)). unfold scalar, utf8_encode.
  destruct (_ <? 128) eqn:E1; [lia|]. destruct (_ <? 2048) eqn:E2; [|lia].
  split; [lia|]. f_equal; [lia|]. f_equal. lia.
Qed.
Lemma enc3 b0 b1 b2 : 224 <= b0 <= 239 -> 128 <= b1 <= 191 -> 128 <= b2 <= 191 ->
  (b0 = 224 -> 160 <= b1) -> (b0 = 237 -> b1 <= 159) ->
  exists c, scalar c /\ utf8_encode c = [b0; b1; b2].
Proof.
  intros H0 H1 H2 G1 G2. exists ((b0 - 224) * 4096 + (b1 - 128) * 64 + (b2 - 128)).
  unfold scalar, utf8_encode.
  destruct (_ <? 128) eqn:E1; [lia|]. destruct (_ <? 2048) eqn:E2; [lia|].
  destruct (_ <? 65536) eqn:E3; [|lia].
  split; [lia|]. f_equal; [lia|]. f_equal; [lia|]. f_equal. lia.
Qed.
Lemma enc4 b0 b1 b2 b3 : 240 <= b0 <= 244 -> 128 <= b1 <= 191 -> 128 <= b2 <= 191 -> 128 <= b3 <= 191 ->
  (b0 = 240 -> 144 <= b1) -> (b0 = 244 -> b1 <= 143) ->
  exists c, scalar c /\ utf8_encode c = [b0; b1; b2; b3].
Proof.
  intros H0 H1 H2 H3 G1 G2.
  exists ((b0 - 240) * 262144 + (b1 - 128) * 4096 + (b2 - 128) * 64 + (b3 - 128)).
  unfold scalar, utf8_encode.
  destruct (_ <? 128) eqn:E1; [lia|]. destruct (_ <? 2048) eqn:E2; [lia|].
  destruct (_ <? 65536) eqn:E3; [lia|].
  split; [lia|]. f_equal; [lia|]. f_equal; [lia|]. f_equal; [lia|]. f_equal. lia.
Qed.

Lemma utf8_uncons b s : utf8_valid (b :: s) = true ->
  exists c s', scalar c /\ b :: s = utf8_encode c ++ s' /\ utf8_valid s' = true
    /\ (length s' <= length s)%nat.
Proof.
  cbn [utf8_valid]. unfold cont_byte.
  destruct (b <? 128) eqn:E0.
  { intros H. exists b, s. unfold scalar, utf8_encode. rewrite E0. repeat split; auto. lia. }
  destruct s as [|b1 s]; [discriminate|].
  destruct ((194 <=? b) && (b <=? 223)) eqn:E1.
  { intros H. apply andb_prop in H as [H1 H]. destruct (enc2 b b1) as (c & Hc & Ec); try lia.
    exists c, s. rewrite Ec. cbn [length]. repeat split; auto. }
  destruct s as [|b2 s]; [discriminate|].
  destruct (b =? 224) eqn:E2.
  { intros H. apply andb_prop in H as [H1 H]. destruct (enc3 b b1 b2) as (c & Hc & Ec); try lia.
    exists c, s. rewrite Ec. cbn [length]. repeat split; auto. }
  destruct (((225 <=? b) && (b <=? 236)) || (b =? 238) || (b =? 239)) eqn:E3.
  { intros H. apply andb_prop in H as [H1 H]. destruct (enc3 b b1 b2) as (c & Hc & Ec); try lia.
    exists c, s. rewrite Ec. cbn [length]. repeat split; auto. }
  destruct (b =? 237) eqn:E4.
  { intros H. apply andb_prop in H as [H1 H]. destruct (enc3 b b1 b2) as (c & Hc & Ec); try lia.
    exists c, s. rewrite Ec. cbn [length]. repeat split; auto. }
  destruct s as [|b3 s]; [discriminate|].
  destruct (b =? 240) eqn:E5.
  { intros H. apply andb_prop in H as [H1 H]. destruct (enc4 b b1 b2 b3) as (c & Hc & Ec); try lia.
    exists c, s. rewrite Ec. cbn [length]. repeat split; auto. }
  destruct ((241 <=? b) && (b <=? 243)) eqn:E6.
  { intros H. apply andb_prop in H as [H1 H]. destruct (enc4 b b1 b2 b3) as (c & Hc & Ec); try lia.
    exists c, s. rewrite Ec. cbn [length]. repeat split; auto. }
  destruct (b =? 244) eqn:E7; [|discriminate].
  intros H. apply andb_prop in H as [H1 H]. destruct (enc4 b b1 b2 b3) as (c & Hc & Ec); try lia.
  exists c, s. rewrite Ec. cbn [length]. repeat split; auto.
Qed.

Lemma utf8_valid_iff s : utf8_valid s = true <-> utf8_text s.
Proof.
  split.
  - remember (length s) as n eqn:Hn. assert (Hle : (length s <= n)%nat) by lia. clear Hn.
    revert s Hle. induction n as [|n IH]; intros [|b s] Hle H; cbn [length] in Hle; try lia.
    + exists []. split; [constructor|reflexivity].
    + exists []. split; [constructor|reflexivity].
    + apply utf8_uncons in H as (c & s' & Hc & E & Hv & Hl).
      apply IH in Hv as (cps & Hcps & ->); [|lia].
      exists (c :: cps). split; [now constructor|exact E].
  - intros (cps & Hc & ->). induction Hc as [|c cps Hc _ IH]; [reflexivity|].
    cbn [flat_map]. now rewrite utf8_cons_valid.
Qed.

(** ** UTF-16 *)

Lemma units_octets_aux n : forall s, length s = (2 * n)%nat -> bytes_ok s ->
  s = flat_map u16_octets (be_u16_units s) /\ Forall (fun u => u < 65536) (be_u16_units s).
Proof.
  induction n as [|n IH]; intros s Hl Hok.
  - destruct s; [|discriminate]. split; [reflexivity|constructor].
  - destruct s as [|a [|b s]]; cbn [length] in Hl; try lia.
    apply bytes_ok_cons in Hok as [Ha Hok]. apply bytes_ok_cons in Hok as [Hb Hok].
    destruct (IH s ltac:(lia) Hok) as [E F]. cbn [be_u16_units flat_map u16_octets app]. split.
    + rewrite <- E. f_equal; [lia|]. f_equal. lia.
    + constructor; [lia|exact F].
Qed.

Lemma units_octets s : bytes_ok s -> Nat.even (length s) = true ->
  s = flat_map u16_octets (be_u16_units s) /\ Forall (fun u => u < 65536) (be_u16_units s).
Proof.
  intros Hok He. apply Nat.even_spec in He as [n Hn]. now apply (units_octets_aux n).
Qed.

Lemma octets_units us : Forall (fun u => u < 65536) us ->
  be_u16_units (flat_map u16_octets us) = us /\ Nat.even (length (flat_map u16_octets us)) = true.
Proof.
  induction 1 as [|u us Hu _ [IH1 IH2]]; [split; reflexivity|].
  cbn [flat_map u16_octets app be_u16_units length Nat.even]. split; [|exact IH2].
  rewrite IH1. f_equal. lia.
Qed.

Lemma utf16_encode_lt c : scalar c -> Forall (fun u => u < 65536) (utf16_encode c).
Proof.
  unfold scalar, utf16_encode. intros Hc. destruct (c <? 65536) eqn:E; repeat constructor; lia.
Qed.

Lemma utf16_cons_valid c v : scalar c -> utf16_valid (utf16_encode c ++ v) = utf16_valid v.
Proof.
  unfold scalar, utf16_encode. intros Hc. destruct (c <? 65536) eqn:E; cbn [app utf16_valid].
  - replace ((55296 <=? c) && (c <=? 56319)) with false by lia.
    replace ((56320 <=? c) && (c <=? 57343)) with false by lia. reflexivity.
  - set (u := 55296 + (c - 65536) / 1024). set (w := 56320 + (c - 65536) mod 1024).
    assert (55296 <= u <= 56319) by (unfold u; lia). assert (56320 <= w <= 57343) by (unfold w; lia).
    clearbody u w. replace ((55296 <=? u) && (u <=? 56319)) with true by lia.
    replace ((56320 <=? w) && (w <=? 57343)) with true by lia. reflexivity.
Qed.

Lemma utf16_valid_iff us : Forall (fun u => u < 65536) us ->
  utf16_valid us = true <-> exists cps, Forall scalar cps /\ us = flat_map utf16_encode cps.
Proof.
  intros Hu. split.
  - remember (length us) as n eqn:Hn. assert (Hle : (length us <= n)%nat) by lia. clear Hn.
    revert us Hle Hu. induction n as [|n IH]; intros [|u us] Hle Hu H; cbn [length] in Hle; try lia.
    + exists []. split; [constructor|reflexivity].
    + exists []. split; [constructor|reflexivity].
    + cbn [utf16_valid] in H. inv Hu.
      destruct ((55296 <=? u) && (u <=? 56319)) eqn:E1.
      * destruct us as [|w us]; [discriminate|]. apply andb_prop in H as [H1 H]. inv H3.
        cbn [length] in Hle. apply IH in H as (cps & Hc & ->); [|lia|assumption].
        exists (65536 + (u - 55296) * 1024 + (w - 56320) :: cps). split.
        { constructor; [unfold scalar; lia|assumption]. }
        cbn [flat_map]. unfold utf16_encode at 2. destruct (_ <? 65536) eqn:E2; [lia|].
        cbn [app]. f_equal; [lia|]. f_equal. lia.
      * destruct ((56320 <=? u) && (u <=? 57343)) eqn:E2; [discriminate|].
        apply IH in H as (cps & Hc & ->); [|lia|assumption].
        exists (u :: cps). split; [constructor; [unfold scalar; lia|assumption]|].
        cbn [flat_map]. unfold utf16_encode at 2. destruct (u <? 65536) eqn:E3; [reflexivity|lia].
  - intros (cps & Hc & ->). clear Hu. induction Hc as [|c cps Hc _ IH]; [reflexivity|].
    cbn [flat_map]. now rewrite utf16_cons_valid.
Qed.

Lemma bmp_iff s : bytes_ok s ->
  (Nat.even (length s) = true /\ utf16_valid (be_u16_units s) = true) <-> utf16be_text s.
Proof.
  intros Hok. split.
  - intros [He Hv]. destruct (units_octets s Hok He) as [E F].
    apply utf16_valid_iff in Hv as (cps & Hc & Hu); [|assumption].
    exists cps. split; [assumption|]. now rewrite <- Hu.
  - intros (cps & Hc & ->).
    assert (F : Forall (fun u => u < 65536) (flat_map utf16_encode cps)).
    { clear Hok. induction Hc as [|c cps Hc _ IH]; [constructor|]. cbn [flat_map].
      apply Forall_app. split; [now apply utf16_encode_lt|assumption]. }
    destruct (octets_units _ F) as [E1 E2]. split; [assumption|].
    rewrite E1. apply utf16_valid_iff; eauto.
Qed.

(** ** Permitted characters *)

Lemma forallb_Forall {A} (p : A -> bool) (P : A -> Prop) :
  (forall x, p x = true <-> P x) -> forall l, forallb p l = true <-> Forall P l.
Proof.
  intros H l. rewrite forallb_forall, Forall_forall. firstorder.
Qed.

Lemma numeric_iff s : forallb numeric_char s = true <-> Forall numeric_permitted s.
Proof. apply forallb_Forall. intros x. unfold numeric_char, is_digit, numeric_permitted. lia. Qed.
Lemma visible_iff s : forallb visible_char s = true <-> Forall visible_permitted s.
Proof. apply forallb_Forall. intros x. unfold visible_char, visible_permitted. lia. Qed.
Lemma ia5_iff s : forallb ia5_char s = true <-> Forall ia5_permitted s.
Proof. apply forallb_Forall. intros x. unfold ia5_char, ia5_permitted. lia. Qed.
Lemma printable_iff s : forallb printable_char s = true <-> Forall printable_permitted s.
Proof.
  apply forallb_Forall. intros x. unfold printable_char, is_digit, is_upper, is_lower, printable_permitted.
  cbn [existsb In]. lia.
Qed.
