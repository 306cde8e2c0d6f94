(** * C17, C18: values and bits of BIT STRINGs *)

From Coq Require Import String.
From Verif Require Import Base Asn1rs Ber Conformance Spec.
From Verif Require Import LemBase LemHeader LemInt.
Local Open Scope string_scope.
Local Open Scope N_scope.
Local Open Scope list_scope.

(** ** Octets as bits *)

Lemma digits_lt l : Forall (fun d => d < 2) (map N.b2n l).
Proof. induction l as [|b l IH]; constructor; [destruct b; reflexivity|assumption]. Qed.

Lemma bits_value_lt l : bits_value l < 2 ^ N.of_nat (length l).
Proof.
  unfold bits_value. rewrite <- (map_length N.b2n l). apply digits_value_lt; [lia|apply digits_lt].
Qed.

Lemma bits_value_app a b : bits_value (a ++ b) = bits_value a * 2 ^ N.of_nat (length b) + bits_value b.
Proof. unfold bits_value. rewrite map_app, digits_value_app, map_length. reflexivity. Qed.

Lemma octet_bits_value b : b < 256 -> bits_value (octet_bits b) = b.
Proof.
  intros H.
  assert (Hall : forallb (fun k => bits_value (octet_bits (N.of_nat k)) =? N.of_nat k) (seq 0 256) = true)
    by (vm_compute; reflexivity).
  rewrite forallb_forall in Hall. specialize (Hall (N.to_nat b)).
  rewrite N2Nat.id in Hall. apply N.eqb_eq, Hall, in_seq. lia.
Qed.

Lemma bits_length s : length (bits s) = (8 * length s)%nat.
Proof. induction s as [|b s IH]; [reflexivity|]. unfold bits in *. cbn [flat_map]. rewrite app_length, IH. cbn [length]. cbn. lia. Qed.

Lemma bits_unsigned s : bytes_ok s -> bits_value (bits s) = unsigned s.
Proof.
  induction s as [|b s IH]; intros H; [reflexivity|]. apply bytes_ok_cons in H as [Hb H].
  change (bits (b :: s)) with (octet_bits b ++ bits s).
  rewrite bits_value_app, octet_bits_value, (IH H), unsigned_cons, bits_length by assumption.
  f_equal. f_equal. rewrite <- pw_two. f_equal. lia.
Qed.

Lemma bits_firstn m s : firstn (8 * m) (bits s) = bits (firstn m s).
Proof.
  revert s. induction m as [|m IH]; intros s; [reflexivity|]. destruct s as [|b s].
  - cbn [firstn]. now rewrite firstn_nil.
  - cbn [firstn]. change (bits (b :: firstn m s)) with (octet_bits b ++ bits (firstn m s)).
    change (bits (b :: s)) with (octet_bits b ++ bits s). rewrite firstn_app, <- IH.
    rewrite (firstn_all2 (n := (8 * S m)%nat)) by (cbn [octet_bits map length]; lia).
    f_equal. f_equal. cbn [octet_bits map length]. lia.
Qed.

Lemma bits_value_firstn k l : (k <= length l)%nat ->
  bits_value (firstn k l) = bits_value l / 2 ^ N.of_nat (length l - k).
Proof.
  intros H. rewrite <- (firstn_skipn k l) at 2. rewrite bits_value_app, skipn_length.
  pose proof (bits_value_lt (skipn k l)) as Hs. rewrite skipn_length in Hs.
  apply (N.div_unique _ _ _ (bits_value (skipn k l))); lia.
Qed.

Lemma lor_add a c : c < 256 -> N.lor (N.shiftl a 8) c = 256 * a + c.
Proof.
  intros H.
  assert (E : N.land (N.shiftl a 8) c = 0).
  { apply N.bits_inj. intros k. rewrite N.land_spec, N.bits_0.
    destruct (N.lt_ge_cases k 8) as [Hk|Hk].
    - now rewrite N.shiftl_spec_low.
    - destruct (N.eq_dec c 0) as [->|Hc]; [now rewrite N.bits_0, Bool.andb_false_r|].
      rewrite (N.bits_above_log2 c), Bool.andb_false_r; [reflexivity|].
      apply N.lt_le_trans with 8; [|assumption]. apply N.log2_lt_pow2; [lia|]. exact H. }
  rewrite <- N.lxor_lor, <- N.add_nocarry_lxor by assumption.
  rewrite N.shiftl_mul_pow2. change (2 ^ 8) with 256. lia.
Qed.

Lemma acc_value s a : bytes_ok s -> a * pw (length s) + unsigned s < 2 ^ 64 ->
  fold_left (fun acc c => N.lor (N.shiftl acc 8 mod 18446744073709551616) c) s a = a * pw (length s) + unsigned s.
Proof.
  revert a. induction s as [|c s IH]; intros a H Hlt.
  - cbn. unfold pw. cbn. lia.
  - apply bytes_ok_cons in H as [Hc H]. cbn [fold_left length] in *. rewrite pw_S, unsigned_cons in *.
    assert (Hp := pw_pos (length s)).
    assert (Hs : N.shiftl a 8 mod 18446744073709551616 = N.shiftl a 8).
    { apply N.mod_small. rewrite N.shiftl_mul_pow2. change (2 ^ 8) with 256.
      change (2 ^ 64) with 18446744073709551616 in Hlt. nia. }
    rewrite Hs, lor_add by assumption. rewrite IH; [lia|assumption|]. lia.
Qed.

Lemma bitstring_value u s : bytes_ok s -> u <= 8 * nlen s -> 8 * nlen s - u <= 64 ->
  bitstring_to_u64 u s = Ok (bits_value (firstn (8 * length s - N.to_nat u) (bits s))).
Proof.
  intros H H1 H2. unfold bitstring_to_u64.
  destruct (nlen s * 8 <? u) eqn:E1; [lia|]. destruct (64 <? nlen s * 8 - u) eqn:E2; [lia|].
  cbv zeta.
  assert (En : (if 0 <? (nlen s * 8 - u) mod 8 then (nlen s * 8 - u) / 8 + 1 else (nlen s * 8 - u) / 8) = nlen s - u / 8).
  { destruct (0 <? _) eqn:E; lia. }
  rewrite En. clear En. destruct (nlen s <? nlen s - u / 8) eqn:E3; [lia|].
  set (m := N.to_nat (nlen s - u / 8)).
  assert (Hm : length (firstn m s) = m) by (apply firstn_length_le; unfold m, nlen in *; lia).
  assert (Hok : bytes_ok (firstn m s)).
  { rewrite <- (firstn_skipn m s) in H. now apply bytes_ok_app in H as [H _]. }
  assert (Hm8 : (m <= 8)%nat) by (unfold m, nlen in *; lia).
  pose proof (unsigned_pw _ Hok) as Hu. rewrite Hm in Hu.
  assert (Hp : pw m <= 2 ^ 64) by (apply (pw_mono m 8 Hm8)).
  rewrite acc_value by (auto; lia). f_equal. rewrite N.mul_0_l, N.add_0_l.
  replace (firstn (8 * length s - N.to_nat u) (bits s))
    with (firstn (8 * length s - N.to_nat u) (bits (firstn m s))).
  2: { rewrite <- bits_firstn, firstn_firstn. f_equal. unfold m, nlen in *. lia. }
  rewrite bits_value_firstn by (rewrite bits_length, Hm; unfold m, nlen in *; lia).
  rewrite bits_unsigned by assumption. rewrite N.shiftr_div_pow2. f_equal. f_equal.
  rewrite bits_length, Hm. unfold m, nlen in *. lia.
Qed.

(** ** C17 *)

(** The bits of the string: those of [data] but the last [unused]. *)
Definition string_bits (unused : N) (data : bytes) : list bool :=
  firstn (8 * length data - N.to_nat unused) (bits data).

Lemma string_bits_length u s : N.of_nat (length (string_bits u s)) = 8 * nlen s - u.
Proof. unfold string_bits. rewrite firstn_length, bits_length. unfold nlen. lia. Qed.

Theorem C17_u64 : forall u data, bytes_ok data ->
  let n := N.of_nat (length (string_bits u data)) in
  (as_u64 (CBitString u data) = Err InvalidLength <-> 8 * N.of_nat (length data) < u)
  /\ (as_u64 (CBitString u data) = Err IntegerTooLarge <-> u <= 8 * N.of_nat (length data) /\ 64 < n)
  /\ (forall v, as_u64 (CBitString u data) = Ok v
        <-> u <= 8 * N.of_nat (length data) /\ n <= 64 /\ v = bits_value (string_bits u data)).
Proof.
  intros u s H n. unfold n. rewrite string_bits_length. unfold as_u64. fold (nlen s).
  destruct (N.lt_ge_cases (8 * nlen s) u) as [H1|H1]; [|destruct (N.lt_ge_cases 64 (8 * nlen s - u)) as [H2|H2]].
  - assert (E : bitstring_to_u64 u s = Err InvalidLength).
    { unfold bitstring_to_u64. destruct (nlen s * 8 <? u) eqn:E; [reflexivity|lia]. }
    rewrite E. (split; [|split; [|intros v]]); split; intros; try discriminate; try reflexivity; lia.
  - assert (E : bitstring_to_u64 u s = Err IntegerTooLarge).
    { unfold bitstring_to_u64. destruct (nlen s * 8 <? u) eqn:E1; [lia|].
      destruct (64 <? nlen s * 8 - u) eqn:E2; [reflexivity|lia]. }
    rewrite E. (split; [|split; [|intros v]]); split; intros; try discriminate; try reflexivity; lia.
  - rewrite bitstring_value by assumption. fold (string_bits u s).
    (split; [|split; [|intros v]]); split; intros H0; try discriminate; try lia.
    + injection H0 as <-. auto.
    + f_equal. symmetry. apply H0.
Qed.
Print Assumptions C17_u64.

Theorem C17_u32 : forall u data, bytes_ok data ->
  (forall v, as_u32 (CBitString u data) = Ok v <-> as_u64 (CBitString u data) = Ok v /\ v < 2 ^ 32)
  /\ (as_u32 (CBitString u data) = Err IntegerTooLarge
      <-> as_u64 (CBitString u data) = Err IntegerTooLarge
          \/ exists v, as_u64 (CBitString u data) = Ok v /\ 2 ^ 32 <= v)
  /\ (as_u32 (CBitString u data) = Err InvalidLength <-> as_u64 (CBitString u data) = Err InvalidLength).
Proof.
  intros u s H. unfold as_u32, as_u64. change (2 ^ 32) with 4294967296.
  destruct (bitstring_to_u64 u s) as [x|e| |]; cbn [bind].
  - destruct (4294967295 <? x) eqn:E; (split; [intros v|split]); split; intros H0; try discriminate; try reflexivity.
    + destruct H0 as [H0 ?]. injection H0 as ->. lia.
    + right. exists x. split; [reflexivity|lia].
    + injection H0 as <-. split; [reflexivity|lia].
    + apply H0.
    + destruct H0 as [H0|(v & H0 & ?)]; [discriminate|]. injection H0 as ->. lia.
  - (split; [intros v|split]); split; intros H0; try discriminate; try assumption.
    + destruct H0; discriminate.
    + left. assumption.
    + destruct H0 as [H0|(v & H0 & _)]; [assumption|discriminate].
  - (split; [intros v|split]); split; intros H0; try discriminate.
    + destruct H0; discriminate.
    + destruct H0 as [H0|(v & H0 & _)]; discriminate.
  - (split; [intros v|split]); split; intros H0; try discriminate.
    + destruct H0; discriminate.
    + destruct H0 as [H0|(v & H0 & _)]; discriminate.
Qed.
Print Assumptions C17_u32.

Example C17_ex : bytes_ok (hx "ab cd f0")
  /\ as_u64 (CBitString 12 (hx "ab cd f0")) = Ok 2748
  /\ string_bits 12 (hx "ab cd f0") = [true; false; true; false; true; false; true; true; true; true; false; false]
  /\ as_u64 (CBitString 25 (hx "ab cd f0")) = Err InvalidLength
  /\ as_u64 (CBitString 7 (hx "80 00 00 00 00 00 00 00 00")) = Err IntegerTooLarge
  /\ as_u32 (CBitString 0 (hx "01 00 00 00 00")) = Err IntegerTooLarge.
Proof. split; [bok|]. vm_compute. auto 10. Qed.

(** ** C18 *)

Lemma bits_nth s k j : (j < 8)%nat ->
  nth_error (bits s) (8 * k + j) = option_map (fun b => N.testbit b (7 - N.of_nat j)) (nth_error s k).
Proof.
  intros Hj. revert k. induction s as [|b s IH]; intros k.
  - cbn [bits flat_map]. destruct k; [destruct j|]; reflexivity.
  - change (bits (b :: s)) with (octet_bits b ++ bits s). destruct k as [|k].
    + rewrite nth_error_app1 by (cbn; lia). cbn [nth_error option_map].
      do 8 (destruct j as [|j]; [reflexivity|]). lia.
    + rewrite nth_error_app2 by (cbn [octet_bits map length]; lia). cbn [nth_error].
      rewrite <- IH. f_equal. cbn [octet_bits map length]. lia.
Qed.

Lemma land_bit b k : negb (N.land b (N.shiftl 1 k) =? 0) = N.testbit b k.
Proof.
  rewrite N.shiftl_1_l. destruct (N.testbit b k) eqn:E.
  - apply Bool.negb_true_iff, N.eqb_neq. intros H0.
    assert (N.testbit (N.land b (2 ^ k)) k = true) by (now rewrite N.land_spec, E, N.pow2_bits_true).
    rewrite H0, N.bits_0 in H. discriminate.
  - apply Bool.negb_false_iff, N.eqb_eq, N.bits_inj. intros j. rewrite N.bits_0, N.land_spec, N.pow2_bits_eqb.
    destruct (N.eqb_spec k j) as [<-|]; [now rewrite E|apply Bool.andb_false_r].
Qed.

Theorem C18_is_set : forall data n,
  bit_is_set data n = Ok (match nth_error (bits data) (N.to_nat n) with Some b => b | None => false end).
Proof.
  intros s n. unfold bit_is_set. cbv zeta.
  assert (En : N.to_nat n = (8 * N.to_nat (n / 8) + N.to_nat (n mod 8))%nat) by lia.
  rewrite En, bits_nth by lia. replace (N.of_nat (N.to_nat (n mod 8))) with (n mod 8) by lia.
  destruct (nlen s <=? n / 8) eqn:E.
  - rewrite (proj2 (nth_error_None s _)) by (unfold nlen in *; lia). reflexivity.
  - destruct (nth_error s (N.to_nat (n / 8))) as [b|] eqn:Eb.
    + cbn [option_map]. now rewrite land_bit.
    + apply nth_error_None in Eb. unfold nlen in *. lia.
Qed.
Print Assumptions C18_is_set.

Example C18_ex : bit_is_set (hx "0f 00 40") 17 = Ok true /\ bit_is_set (hx "0f 00 40") 3 = Ok false
  /\ bit_is_set (hx "0f 00 40") 24 = Ok false.
Proof. vm_compute. auto. Qed.
