(** * Lemmas on INTEGER contents: two's complement values and the integer
    readers. *)

From Verif Require Import Base Asn1rs Ber Der Spec SpecValue SpecComb LemBase LemHeader LemSkip LemParse LemDer
  LemTree LemComb LemFrame.

(** ** Powers of 256 *)

Definition pw (k : nat) : N := 256 ^ N.of_nat k.

Lemma pw_S k : pw (S k) = 256 * pw k.
Proof. unfold pw. rewrite Nat2N.inj_succ, N.pow_succ_r'. reflexivity. Qed.

Lemma pw_pos k : 0 < pw k.
Proof. induction k; [reflexivity|rewrite pw_S; lia]. Qed.

Lemma pw_mono k m : (k <= m)%nat -> pw k <= pw m.
Proof. intros H. unfold pw. apply N.pow_le_mono_r; lia. Qed.

Lemma pw_two n : 2 ^ (8 * N.of_nat n) = pw n.
Proof. unfold pw. rewrite N.pow_mul_r. reflexivity. Qed.

Lemma pw_half n : (0 < n)%nat -> 2 * 2 ^ (8 * N.of_nat n - 1) = pw n.
Proof.
  intros H. rewrite <- pw_two, <- N.pow_succ_r'. f_equal. lia.
Qed.

Lemma pw_Z k : (256 ^ Z.of_nat k)%Z = Z.of_N (pw k).
Proof. unfold pw. rewrite N2Z.inj_pow. f_equal. lia. Qed.

Lemma unsigned_cons b r : unsigned (b :: r) = b * pw (length r) + unsigned r.
Proof. reflexivity. Qed.

Lemma unsigned_pw s : bytes_ok s -> unsigned s < pw (length s).
Proof. apply unsigned_lt. Qed.

Lemma unsigned_zeros k s : unsigned (repeat 0 k ++ s) = unsigned s.
Proof. induction k as [|k IH]; [reflexivity|]. cbn [repeat app]. rewrite unsigned_cons, IH. lia. Qed.

(** ** Sign *)

Lemma land_128 b : b < 256 -> negb (N.land b 128 =? 0) = (128 <=? b).
Proof.
  intros H. assert (Hb : N.testbit b 7 = (128 <=? b)).
  { rewrite N.testbit_odd, N.shiftr_div_pow2. change (2 ^ 7) with 128.
    destruct (128 <=? b) eqn:E.
    - replace (b / 128) with 1 by lia. reflexivity.
    - replace (b / 128) with 0 by lia. reflexivity. }
  rewrite <- Hb. destruct (N.testbit b 7) eqn:E.
  - apply Bool.negb_true_iff, N.eqb_neq. intros H0.
    assert (N.testbit (N.land b 128) 7 = true) by (rewrite N.land_spec, E; reflexivity).
    rewrite H0 in H1. discriminate.
  - apply Bool.negb_false_iff, N.eqb_eq. apply N.bits_inj. intros k. rewrite N.bits_0, N.land_spec.
    change 128 with (2 ^ 7). rewrite N.pow2_bits_eqb.
    destruct (N.eqb_spec 7 k) as [<-|]; [now rewrite E|apply Bool.andb_false_r].
Qed.

Definition negative (s : bytes) : bool := match s with b :: _ => 128 <=? b | [] => false end.

Lemma highest_bit_negative s : bytes_ok s -> is_highest_bit_set s = negative s.
Proof. intros H. destruct s as [|b s]; [reflexivity|]. apply bytes_ok_cons in H as [H _]. now apply land_128. Qed.

Lemma asn1_highest_bit_negative s : bytes_ok s -> asn1_highest_bit_set s = negative s.
Proof. apply highest_bit_negative. Qed.

Lemma tc_value s : bytes_ok s ->
  twos_complement s = (Z.of_N (unsigned s) - (if negative s then Z.of_N (pw (length s)) else 0))%Z.
Proof.
  intros H. destruct s as [|b s]; [reflexivity|]. unfold twos_complement, negative.
  destruct (128 <=? b); [now rewrite pw_Z|reflexivity].
Qed.

(** Bounds by the sign and the length. *)
Lemma negative_bounds s : bytes_ok s -> negative s = true ->
  pw (length s) <= 2 * unsigned s /\ unsigned s < pw (length s).
Proof.
  intros H Hn. split; [|now apply unsigned_pw]. destruct s as [|b s]; [discriminate|].
  cbn [negative] in Hn. rewrite unsigned_cons. cbn [length]. rewrite pw_S. pose proof (pw_pos (length s)). nia.
Qed.

Lemma nonneg_bounds s : bytes_ok s -> negative s = false -> 2 * unsigned s < pw (length s).
Proof.
  intros H Hn. destruct s as [|b s]; [reflexivity|]. apply bytes_ok_cons in H as [Hb H].
  cbn [negative] in Hn. rewrite unsigned_cons. cbn [length]. rewrite pw_S.
  pose proof (unsigned_pw _ H). nia.
Qed.

Lemma tc_sign s : bytes_ok s -> (twos_complement s < 0)%Z <-> negative s = true.
Proof.
  intros H. rewrite (tc_value _ H). destruct (negative s) eqn:E; split; intros; try reflexivity; try discriminate.
  - pose proof (unsigned_pw _ H). lia.
  - lia.
Qed.

Lemma tc_range s : bytes_ok s ->
  (- Z.of_N (pw (length s)) <= 2 * twos_complement s < Z.of_N (pw (length s)))%Z.
Proof.
  intros H. rewrite (tc_value _ H). destruct (negative s) eqn:E.
  - pose proof (negative_bounds _ H E). lia.
  - pose proof (nonneg_bounds _ H E). pose proof (pw_pos (length s)). lia.
Qed.

(** ** Minimal encodings *)

Lemma minimal_lower s k : bytes_ok s -> minimal_integer s -> length s = S (S k) ->
  (Z.of_N (pw (S k)) <= 2 * twos_complement s \/ 2 * twos_complement s < - Z.of_N (pw (S k)))%Z.
Proof.
  intros H Hm Hl. rewrite (tc_value _ H). destruct s as [|b [|c s]]; try discriminate.
  injection Hl as Hl. destruct Hm as [H0 H1].
  apply bytes_ok_cons in H as [Hb H]. apply bytes_ok_cons in H as [Hc H].
  pose proof (unsigned_pw _ H). cbn [negative length]. rewrite !unsigned_cons. cbn [length].
  rewrite Hl in *. rewrite !pw_S. pose proof (pw_pos k). destruct (128 <=? b) eqn:Es; [right|left]; nia.
Qed.

Lemma minimal_unique s s' : bytes_ok s -> bytes_ok s' -> minimal_integer s -> minimal_integer s' ->
  twos_complement s = twos_complement s' -> s = s'.
Proof.
  assert (Hlen : forall s s', bytes_ok s -> bytes_ok s' -> minimal_integer s -> minimal_integer s' ->
    twos_complement s = twos_complement s' -> (length s <= length s')%nat).
  { clear. intros s s' H H' Hm Hm' E. destruct (le_lt_dec (length s) (length s')) as [|Hlt]; [assumption|exfalso].
    destruct (length s) as [|[|k]] eqn:El; [lia| |].
    - destruct s'; [contradiction|cbn in Hlt; lia].
    - pose proof (minimal_lower s k H Hm El). pose proof (tc_range _ H').
      assert (pw (length s') <= pw (S k)) by (apply pw_mono; lia). lia. }
  intros H H' Hm Hm' E. assert (El : length s = length s').
  { apply Nat.le_antisymm; apply Hlen; auto. }
  apply (digits_value_inj 256); [reflexivity|exact H|exact H'|exact El|].
  change (unsigned s = unsigned s'). pose proof (tc_sign _ H) as Hs. pose proof (tc_sign _ H') as Hs'.
  rewrite (tc_value _ H), (tc_value _ H') in E. rewrite <- El in E.
  rewrite (tc_value _ H) in Hs. rewrite (tc_value _ H') in Hs'. rewrite <- El in Hs'.
  destruct (negative s), (negative s'); lia.
Qed.

(** ** Leading zeros *)

Lemma remove_zeroes_spec s : bytes_ok s ->
  unsigned (remove_zeroes s) = unsigned s /\ bytes_ok (remove_zeroes s)
  /\ (length (remove_zeroes s) <= length s)%nat
  /\ (forall k, length (remove_zeroes s) = S (S k) -> pw (S k) <= unsigned s)
  /\ (match s with 0 :: _ => True | _ => remove_zeroes s = s end).
Proof.
  induction s as [|b s IH]; intros H.
  - split; [reflexivity|]. split; [exact H|]. split; [constructor|]. split; [|reflexivity].
    intros k Hk. discriminate.
  - pose proof H as H'. apply bytes_ok_cons in H' as [Hb H'].
    destruct (N.eq_dec b 0) as [->|Hb0].
    + destruct s as [|c s].
      * split; [reflexivity|]. split; [exact H|]. split; [constructor|]. split; [|exact I].
        intros k Hk. discriminate.
      * change (remove_zeroes (0 :: c :: s)) with (remove_zeroes (c :: s)).
        destruct (IH H') as (E & Ho & Hl & Hk & _). rewrite (unsigned_cons 0).
        split; [lia|]. split; [exact Ho|]. split; [cbn [length] in *; lia|]. split; [|exact I].
        intros k Ek. specialize (Hk k Ek). lia.
    + assert (E : remove_zeroes (b :: s) = b :: s) by (destruct b, s; try contradiction; reflexivity).
      rewrite E. split; [reflexivity|]. split; [exact H|]. split; [constructor|]. split.
      * intros k Hk. cbn [length] in Hk. injection Hk as Hk. rewrite unsigned_cons, Hk. pose proof (pw_pos (S k)). nia.
      * destruct b; auto.
Qed.

Lemma trim_slice_spec s : bytes_ok s ->
  unsigned (trim_slice s) = unsigned s /\ bytes_ok (trim_slice s)
  /\ (forall k, length (trim_slice s) = S k -> pw k <= unsigned s).
Proof.
  induction s as [|b s IH]; intros H.
  - split; [reflexivity|]. split; [exact H|]. intros k Hk. discriminate.
  - pose proof H as H'. apply bytes_ok_cons in H' as [Hb H'].
    destruct (N.eq_dec b 0) as [->|Hb0].
    + change (trim_slice (0 :: s)) with (trim_slice s).
      destruct (IH H') as (E & Ho & Hk). rewrite (unsigned_cons 0).
      split; [lia|]. split; [exact Ho|]. intros k Ek. specialize (Hk k Ek). lia.
    + assert (E : trim_slice (b :: s) = b :: s) by (destruct b; try contradiction; reflexivity).
      rewrite E. split; [reflexivity|]. split; [exact H|].
      intros k Hk. cbn [length] in Hk. injection Hk as Hk. rewrite unsigned_cons, Hk. pose proof (pw_pos k). nia.
Qed.

(** ** Unsigned readers *)

(** What reading [n]-octet unsigned integers must give. *)
Definition uint_result (n : nat) (z : Z) : res berror N :=
  if (z <? 0)%Z then Err IntegerNegative
  else if (Z.of_N (pw n) <=? z)%Z then Err IntegerTooLarge
  else Ok (Z.to_N z).

Lemma decode_array_uint_spec n s : (0 < n)%nat -> bytes_ok s ->
  (let* a := decode_array_uint n s in Ok (u_from_be_bytes a)) = uint_result n (twos_complement s).
Proof.
  intros Hn H. unfold decode_array_uint, uint_result. rewrite (highest_bit_negative _ H).
  pose proof (tc_sign _ H) as Hs. rewrite (tc_value _ H) in *.
  destruct (negative s) eqn:E.
  - destruct (_ <? 0)%Z eqn:Ez; [reflexivity|lia].
  - destruct (_ <? 0)%Z eqn:Ez; [lia|]. clear Ez Hs.
    destruct (remove_zeroes_spec s H) as (Eu & Ho & Hl & Hk & _).
    destruct (n <? length (remove_zeroes s))%nat eqn:El; cbn [bind].
    + destruct (length (remove_zeroes s)) as [|[|k]] eqn:Elen; [lia|lia|].
      specialize (Hk k eq_refl). assert (pw n <= pw (S k)) by (apply pw_mono; lia).
      destruct (_ <=? _)%Z eqn:Ez; [reflexivity|lia].
    + pose proof (unsigned_pw _ Ho) as Hu. rewrite Eu in Hu.
      assert (pw (length (remove_zeroes s)) <= pw n) by (apply pw_mono; lia).
      destruct (_ <=? _)%Z eqn:Ez; [lia|]. unfold u_from_be_bytes.
      rewrite be_val_unsigned, unsigned_zeros, Eu. f_equal. lia.
Qed.

Lemma asn1_decode_uint_spec n s : bytes_ok s -> asn1_decode_uint n s = uint_result n (twos_complement s).
Proof.
  intros H. unfold asn1_decode_uint, uint_result. rewrite (asn1_highest_bit_negative _ H).
  pose proof (tc_sign _ H) as Hs. rewrite (tc_value _ H) in *.
  destruct (negative s) eqn:E.
  - destruct (_ <? 0)%Z eqn:Ez; [reflexivity|lia].
  - destruct (_ <? 0)%Z eqn:Ez; [lia|]. clear Ez Hs.
    destruct (trim_slice_spec s H) as (Eu & Ho & Hk).
    destruct (n <? length (trim_slice s))%nat eqn:El.
    + destruct (length (trim_slice s)) as [|k] eqn:Elen; [lia|].
      specialize (Hk k eq_refl). assert (pw n <= pw k) by (apply pw_mono; lia).
      destruct (_ <=? _)%Z eqn:Ez; [reflexivity|lia].
    + pose proof (unsigned_pw _ Ho) as Hu. rewrite Eu in Hu.
      assert (pw (length (trim_slice s)) <= pw n) by (apply pw_mono; lia).
      destruct (_ <=? _)%Z eqn:Ez; [lia|].
      rewrite be_val_unsigned, Eu. f_equal. lia.
Qed.

(** ** Signed readers *)

Lemma unsigned_ones k s : unsigned (repeat 255 k ++ s) + pw (length s) = pw (k + length s) + unsigned s.
Proof.
  induction k as [|k IH]; [cbn [repeat app]; rewrite Nat.add_0_l; lia|]. cbn [repeat app Nat.add].
  rewrite unsigned_cons, pw_S, app_length, repeat_length. lia.
Qed.

(** The accessor [as_i64]/[as_i32] of the crate on a content [s]: exact on
    negative values of at most [n] octets and on non-negative ones below
    2^(8n-1); wraps on the others below 2^(8n). *)
Definition int_accessor_result (n : nat) (s : bytes) : res berror Z :=
  let z := twos_complement s in
  if (z <? 0)%Z then if (n <? length s)%nat then Err IntegerTooLarge else Ok z
  else if (Z.of_N (pw n) <=? z)%Z then Err IntegerTooLarge
  else if (2 * z <? Z.of_N (pw n))%Z then Ok z else Ok (z - Z.of_N (pw n))%Z.

Lemma wrap_signed_spec n v : (0 < n)%nat ->
  wrap_signed (8 * N.of_nat n) v
  = if (2 * Z.of_N v <? Z.of_N (pw n))%Z then Z.of_N v else (Z.of_N v - Z.of_N (pw n))%Z.
Proof.
  intros Hn. unfold wrap_signed. pose proof (pw_half n Hn) as Hp.
  destruct (v <? 2 ^ (8 * N.of_nat n - 1)) eqn:E; destruct (_ <? _)%Z eqn:Ez; try lia.
  rewrite <- pw_two. rewrite N2Z.inj_pow. reflexivity.
Qed.

Lemma as_int_spec n s : (0 < n)%nat -> bytes_ok s -> as_int n (CInteger s) = int_accessor_result n s.
Proof.
  intros Hn H. unfold as_int, int_accessor_result. cbv zeta. pose proof (tc_sign _ H) as Hs.
  rewrite (highest_bit_negative _ H). destruct (negative s) eqn:E.
  - destruct (twos_complement s <? 0)%Z eqn:Ez; [|lia].
    destruct (remove_zeroes_spec s H) as (_ & _ & _ & _ & Er).
    assert (Er' : remove_zeroes s = s).
    { destruct s as [|b s]; [reflexivity|]. destruct b; [discriminate|exact Er]. }
    unfold decode_array_int. rewrite Er'. destruct (n <? length s)%nat eqn:El; [reflexivity|]. cbn [bind].
    f_equal. unfold i_from_be_bytes, nlen. rewrite be_val_unsigned.
    assert (Elen : length (repeat 255 (n - length s) ++ s) = n) by (rewrite app_length, repeat_length; lia).
    rewrite Elen, wrap_signed_spec by assumption.
    pose proof (unsigned_ones (n - length s) s) as Hu. replace (n - length s + length s)%nat with n in Hu by lia.
    rewrite (tc_value _ H), E. pose proof (negative_bounds _ H E).
    assert (pw (length s) <= pw n) by (apply pw_mono; lia).
    destruct (2 * _ <? _)%Z eqn:Ez'; lia.
  - destruct (twos_complement s <? 0)%Z eqn:Ez; [exfalso; destruct Hs as [Hs _]; specialize (Hs ltac:(lia)); discriminate|].
    pose proof (decode_array_uint_spec n s Hn H) as Hd. unfold uint_result in Hd. rewrite Ez in Hd.
    destruct (decode_array_uint n s) as [a| | |] eqn:Ed; cbn [bind] in *.
    + destruct (Z.of_N (pw n) <=? twos_complement s)%Z eqn:Ep; [discriminate|]. injection Hd as Hd.
      rewrite Hd, wrap_signed_spec by assumption. rewrite Z2N.id by lia.
      destruct (2 * twos_complement s <? Z.of_N (pw n))%Z; reflexivity.
    + destruct (Z.of_N (pw n) <=? twos_complement s)%Z eqn:Ep; [injection Hd as ->; reflexivity|discriminate].
    + destruct (Z.of_N (pw n) <=? twos_complement s)%Z; discriminate.
    + destruct (Z.of_N (pw n) <=? twos_complement s)%Z; discriminate.
Qed.

(** The asn1-rs reader behind [parse_ber_i32] etc. *)
Definition int_result (n : nat) (s : bytes) : res berror Z :=
  let z := twos_complement s in
  if (z <? 0)%Z then if (n <? length s)%nat then Err IntegerTooLarge else Ok z
  else if (Z.of_N (pw n) <=? 2 * z)%Z then Err IntegerTooLarge
  else Ok z.

Lemma asn1_decode_int_spec n s : (0 < n)%nat -> bytes_ok s -> asn1_decode_int n s = int_result n s.
Proof.
  intros Hn H. unfold asn1_decode_int, int_result. cbv zeta. pose proof (tc_sign _ H) as Hs.
  rewrite (asn1_highest_bit_negative _ H). destruct (negative s) eqn:E.
  - destruct (twos_complement s <? 0)%Z eqn:Ez; [|lia].
    destruct (n <? length s)%nat eqn:El; [reflexivity|]. f_equal.
    rewrite (tc_value _ H), E, be_val_unsigned. f_equal.
    rewrite <- pw_two, N2Z.inj_pow. f_equal. lia.
  - destruct (twos_complement s <? 0)%Z eqn:Ez; [exfalso; destruct Hs as [Hs _]; specialize (Hs ltac:(lia)); discriminate|].
    rewrite (asn1_decode_uint_spec _ _ H). unfold uint_result. rewrite Ez. pose proof (pw_half n Hn) as Hp.
    destruct (Z.of_N (pw n) <=? twos_complement s)%Z eqn:Ep; cbn [bind].
    + destruct (_ <=? 2 * _)%Z eqn:E2; [reflexivity|lia].
    + destruct (_ <=? Z.to_N _) eqn:E2; destruct (_ <=? 2 * _)%Z eqn:E3; try reflexivity; try lia.
      f_equal. lia.
Qed.
