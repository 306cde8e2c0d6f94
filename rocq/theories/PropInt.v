(** * C14-C16, C19, C20: values of INTEGERs *)

From Coq Require Import String.
From Verif Require Import Base Asn1rs Ber Der Conformance Spec SpecValue SpecComb.
From Verif Require Import LemBase LemHeader LemSkip LemParse LemDer LemTree LemComb LemFrame LemInt.
Local Open Scope string_scope.
Local Open Scope N_scope.
Local Open Scope list_scope.

(** ** C14 *)

(** The three outcomes of reading the value [z] into an unsigned type of [n]
    bits; [w] wraps an error. *)
Definition unsigned_outcomes {E} (n : N) (z : Z) (w : berror -> E) (res : Base.res E N) : Prop :=
  (forall v, res = Ok v <-> z = Z.of_N v /\ v < 2 ^ n)
  /\ (res = Err (w IntegerNegative) <-> (z < 0)%Z)
  /\ (res = Err (w IntegerTooLarge) <-> (2 ^ Z.of_N n <= z)%Z).

Lemma uint_result_outcomes n z : unsigned_outcomes (8 * N.of_nat n) z (fun e => e) (uint_result n z).
Proof.
  assert (Ep : (2 ^ Z.of_N (8 * N.of_nat n) = Z.of_N (pw n))%Z) by (rewrite <- pw_two, N2Z.inj_pow; reflexivity).
  unfold unsigned_outcomes, uint_result. rewrite Ep, pw_two.
  pose proof (pw_pos n).
  destruct (z <? 0)%Z eqn:E1; [|destruct (_ <=? _)%Z eqn:E2]; (split; [|split]).
  all: try (intros v); split; intros H0; try discriminate H0; try reflexivity; try lia.
  - injection H0 as <-. lia.
  - f_equal. lia.
Qed.

Theorem C14_u64 : forall s, bytes_ok s ->
  unsigned_outcomes 64 (twos_complement s) (fun e => e) (as_u64 (CInteger s)).
Proof.
  intros s H. unfold as_u64. rewrite decode_array_uint_spec by (auto; lia).
  apply (uint_result_outcomes 8).
Qed.
Print Assumptions C14_u64.

Theorem C14_u32 : forall s, bytes_ok s ->
  unsigned_outcomes 32 (twos_complement s) (fun e => e) (as_u32 (CInteger s)).
Proof.
  intros s H. unfold as_u32. rewrite decode_array_uint_spec by (auto; lia).
  apply (uint_result_outcomes 4).
Qed.
Print Assumptions C14_u32.

Example C14_ex : bytes_ok (hx "00 00 00 ff ff ff ff ff ff ff ff")
  /\ as_u64 (CInteger (hx "00 00 00 ff ff ff ff ff ff ff ff")) = Ok 18446744073709551615
  /\ as_u64 (CInteger (hx "01 00 00 00 00 00 00 00 00")) = Err IntegerTooLarge
  /\ as_u32 (CInteger (hx "ff")) = Err IntegerNegative.
Proof. split; [bok|]. vm_compute. auto. Qed.

(** ** C15 *)

(** False: the value 2^63 is returned as -2^63. *)
Theorem C15_refuted : exists s v, bytes_ok s /\ as_i64 (CInteger s) = Ok v /\ v <> twos_complement s.
Proof.
  exists (hx "00 80 00 00 00 00 00 00 00"), (-9223372036854775808)%Z.
  split; [bok|]. split; [vm_compute; reflexivity|]. vm_compute. discriminate.
Qed.
Print Assumptions C15_refuted.

(** ... and -1 in nine octets, which parse_ber accepts, is refused. *)
Theorem C15_in_range_refuted : exists s, bytes_ok s /\ twos_complement s = (-1)%Z
  /\ as_i64 (CInteger s) = Err IntegerTooLarge.
Proof.
  exists (hx "ff ff ff ff ff ff ff ff ff").
  split; [bok|]. split; vm_compute; reflexivity.
Qed.
Print Assumptions C15_in_range_refuted.

(** What does hold: the whole behaviour. Missing from C15: values in
    [2^(n-1), 2^n) come out reduced by 2^n instead of an error; negative values
    in more octets than the type has are refused even when in range. *)
Definition signed_accessor_outcomes (n : N) (s : bytes) (res : Base.res berror Z) : Prop :=
  let z := twos_complement s in
  ((0 <= z < 2 ^ (Z.of_N n - 1))%Z -> res = Ok z)
  /\ ((2 ^ (Z.of_N n - 1) <= z < 2 ^ Z.of_N n)%Z -> res = Ok (z - 2 ^ Z.of_N n)%Z)
  /\ ((2 ^ Z.of_N n <= z)%Z -> res = Err IntegerTooLarge)
  /\ ((z < 0)%Z -> 8 * N.of_nat (length s) <= n -> res = Ok z)
  /\ ((z < 0)%Z -> n < 8 * N.of_nat (length s) -> res = Err IntegerTooLarge).

Lemma pw_half_Z n : (0 < n)%nat -> (2 * 2 ^ (Z.of_N (8 * N.of_nat n) - 1) = Z.of_N (pw n))%Z.
Proof.
  intros H. rewrite <- (pw_half n H). rewrite (N2Z.inj_mul 2), N2Z.inj_pow, N2Z.inj_sub by lia. reflexivity.
Qed.

Lemma pw_two_Z n : (2 ^ Z.of_N (8 * N.of_nat n) = Z.of_N (pw n))%Z.
Proof. rewrite <- pw_two, N2Z.inj_pow. reflexivity. Qed.

Lemma int_accessor_outcomes n s : (0 < n)%nat ->
  signed_accessor_outcomes (8 * N.of_nat n) s (int_accessor_result n s).
Proof.
  intros Hn. unfold signed_accessor_outcomes, int_accessor_result. cbv zeta.
  rewrite pw_two_Z. pose proof (pw_half_Z n Hn) as Hh. generalize dependent (2 ^ (Z.of_N (8 * N.of_nat n) - 1))%Z.
  intros p Hp. pose proof (pw_pos n).
  split; [|split; [|split; [|split]]]; intros.
  all: destruct (twos_complement s <? 0)%Z eqn:E1; try lia.
  all: try (destruct (n <? length s)%nat eqn:E2; try lia; reflexivity).
  all: destruct (_ <=? _)%Z eqn:E2; try lia; try reflexivity.
  all: destruct (2 * _ <? _)%Z eqn:E3; try lia; reflexivity.
Qed.

Theorem C15_i64_partial : forall s, bytes_ok s ->
  signed_accessor_outcomes 64 s (as_i64 (CInteger s)).
Proof.
  intros s H. unfold as_i64. rewrite as_int_spec by (auto; lia). apply (int_accessor_outcomes 8). lia.
Qed.
Print Assumptions C15_i64_partial.

Theorem C15_i32_partial : forall s, bytes_ok s ->
  signed_accessor_outcomes 32 s (as_i32 (CInteger s)).
Proof.
  intros s H. unfold as_i32. rewrite as_int_spec by (auto; lia). apply (int_accessor_outcomes 4). lia.
Qed.
Print Assumptions C15_i32_partial.

Example C15_ex : bytes_ok (hx "ff 7f") /\ as_i64 (CInteger (hx "ff 7f")) = Ok (-129)%Z
  /\ as_i32 (CInteger (hx "00 00 00 00 7f ff ff ff")) = Ok 2147483647%Z
  /\ as_i32 (CInteger (hx "00 80 00 00 00")) = Ok (-2147483648)%Z
  /\ as_i32 (CInteger (hx "01 00 00 00 00")) = Err IntegerTooLarge.
Proof. split; [bok|]. vm_compute. auto. Qed.

(** ** C16 *)

Theorem C16_bigint : forall s, bytes_ok s -> as_bigint (CInteger s) = Ok (twos_complement s).
Proof.
  intros s H. unfold as_bigint, bigint_from_signed_bytes_be. f_equal.
  rewrite (highest_bit_negative _ H), (tc_value _ H), be_val_unsigned.
  destruct (negative s); [|lia]. f_equal. rewrite <- pw_two, N2Z.inj_pow. f_equal. lia.
Qed.
Print Assumptions C16_bigint.

Theorem C16_biguint : forall s, bytes_ok s ->
  (forall v, as_biguint (CInteger s) = Ok v <-> twos_complement s = Z.of_N v)
  /\ (as_biguint (CInteger s) = Err IntegerNegative <-> (twos_complement s < 0)%Z).
Proof.
  intros s H. unfold as_biguint. pose proof (tc_sign s H) as Hs. rewrite (highest_bit_negative _ H), be_val_unsigned.
  rewrite (tc_value _ H) in *.
  destruct (negative s) eqn:E; (split; [intros v|]; split; intros H0); try discriminate H0; try reflexivity; try lia.
  - injection H0 as <-. lia.
  - f_equal. lia.
Qed.
Print Assumptions C16_biguint.

Example C16_ex : bytes_ok (hx "80 00 00 00 00 00 00 00 00 00")
  /\ as_bigint (CInteger (hx "80 00 00 00 00 00 00 00 00 00")) = Ok (-604462909807314587353088)%Z
  /\ as_biguint (CInteger (hx "00 80 00 00 00 00 00 00 00 00 00")) = Ok 604462909807314587353088
  /\ as_biguint (CInteger (hx "80")) = Err IntegerNegative.
Proof. split; [bok|]. vm_compute. auto. Qed.

(** ** C19 *)

(** [i] starts with a primitive element with tag number 2, definite length and
    content [c]; [r] is what follows. The class is not checked. *)
Definition integer_element (i r c : bytes) : Prop :=
  exists h bs, i = bs ++ r /\ definite_element h c bs /\ h_tag h = 2 /\ h_constructed h = false.

Lemma any_from_ber_definite h c bs x : definite_element h c bs -> any_from_ber (bs ++ x) = Ok (x, mkAny h c).
Proof.
  intros (hb & -> & Hh & Hl). apply any_from_ber_complete. exists hb, c.
  split; [reflexivity|]. split; [assumption|]. split.
  - eapply body_definite; eauto.
  - unfold content_octets. now rewrite Hl.
Qed.

Lemma any_from_der_definite h c bs x : definite_element h c bs -> any_from_der (bs ++ x) = Ok (x, mkAny h c).
Proof.
  intros (hb & -> & Hh & Hl). unfold any_from_der. rewrite <- app_assoc, (header_from_der_complete h) by congruence.
  cbn [bind]. rewrite Hl. cbn [length_definite map_err bind].
  rewrite (proj2 (take_streaming_ok _ _ x c)) by (split; [reflexivity|reflexivity]). reflexivity.
Qed.

Lemma primitive_definite i r a : bytes_ok i -> any_from_ber i = Ok (r, a) -> h_constructed (a_header a) = false ->
  exists bs, i = bs ++ r /\ definite_element (a_header a) (a_data a) bs.
Proof.
  intros Hok H Hp. apply any_from_ber_sound in H as (bs & -> & hb & b & -> & Hh & Hb & Hc); [|assumption].
  exists (hb ++ b). split; [reflexivity|]. pose proof Hh as (ib & lb & _ & _ & _ & _ & Hi).
  destruct Hb as [d h n b Hl El|d h b Hl Hu].
  - exists hb. unfold content_octets in Hc. rewrite Hl in Hc. rewrite Hc, Hl, <- El. auto.
  - rewrite (Hi Hl) in Hp. discriminate.
Qed.

Lemma integer_element_bytes i r c : bytes_ok i -> integer_element i r c -> bytes_ok c.
Proof.
  intros Hok (h & bs & -> & (hb & -> & _) & _).
  apply bytes_ok_app in Hok as [Hok _]. now apply bytes_ok_app in Hok as [_ Hok].
Qed.

Lemma uint_from_ber_iff n i r v : bytes_ok i ->
  uint_from_ber n i = Ok (r, v) <-> exists c, integer_element i r c /\ uint_result n (twos_complement c) = Ok v.
Proof.
  intros Hok. split.
  - unfold uint_from_ber. intros H. bind_inv H. destruct a as [r' a]. bind_inv H. inv H.
    apply map_err_ok in E0. unfold assert_tag, assert_primitive in E0.
    destruct (h_tag (a_header a) =? T_Integer) eqn:Et; [|discriminate]. cbn [bind] in E0.
    destruct (h_constructed (a_header a)) eqn:Ep; [discriminate|]. cbn [bind] in E0.
    destruct (primitive_definite _ _ _ Hok E Ep) as (bs & Ei & He).
    assert (Hi : integer_element i r (a_data a)).
    { exists (a_header a), bs. split; [assumption|]. split; [assumption|]. split; [|assumption]. now apply N.eqb_eq in Et. }
    exists (a_data a). split; [assumption|]. rewrite asn1_decode_uint_spec in E0; [assumption|].
    eapply integer_element_bytes; eauto.
  - intros (c & Hi & Hr). pose proof (integer_element_bytes _ _ _ Hok Hi) as Hc.
    destruct Hi as (h & bs & -> & He & Ht & Hp).
    unfold uint_from_ber. rewrite (any_from_ber_definite _ _ _ _ He). cbn [bind a_header a_data].
    unfold assert_tag, assert_primitive. rewrite Ht, Hp. change (2 =? T_Integer) with true. cbn [bind].
    rewrite asn1_decode_uint_spec, Hr by assumption. reflexivity.
Qed.

Lemma uint_from_ber_err n i r c e : bytes_ok i -> integer_element i r c -> uint_result n (twos_complement c) = Err e ->
  uint_from_ber n i = Err (Error e).
Proof.
  intros Hok Hi Hr. pose proof (integer_element_bytes _ _ _ Hok Hi) as Hc.
  destruct Hi as (h & bs & -> & He & Ht & Hp).
  unfold uint_from_ber. rewrite (any_from_ber_definite _ _ _ _ He). cbn [bind a_header a_data].
  unfold assert_tag, assert_primitive. rewrite Ht, Hp. change (2 =? T_Integer) with true. cbn [bind].
  rewrite asn1_decode_uint_spec, Hr by assumption. unfold uint_result in Hr.
  destruct (_ <? _)%Z; [injection Hr as <-; reflexivity|].
  destruct (_ <=? _)%Z; [injection Hr as <-; reflexivity|discriminate].
Qed.

Lemma int_from_ber_iff n i r v : (0 < n)%nat -> bytes_ok i ->
  int_from_ber n i = Ok (r, v) <-> exists c, integer_element i r c /\ int_result n c = Ok v.
Proof.
  intros Hn Hok. split.
  - unfold int_from_ber. intros H. bind_inv H. destruct a as [r' a]. bind_inv H. inv H.
    apply map_err_ok in E0. unfold assert_tag, assert_primitive in E0.
    destruct (h_tag (a_header a) =? T_Integer) eqn:Et; [|discriminate]. cbn [bind] in E0.
    destruct (h_constructed (a_header a)) eqn:Ep; [discriminate|]. cbn [bind] in E0.
    destruct (primitive_definite _ _ _ Hok E Ep) as (bs & Ei & He).
    assert (Hi : integer_element i r (a_data a)).
    { exists (a_header a), bs. split; [assumption|]. split; [assumption|]. split; [|assumption]. now apply N.eqb_eq in Et. }
    exists (a_data a). split; [assumption|]. rewrite asn1_decode_int_spec in E0; [assumption|assumption|].
    eapply integer_element_bytes; eauto.
  - intros (c & Hi & Hr). pose proof (integer_element_bytes _ _ _ Hok Hi) as Hc.
    destruct Hi as (h & bs & -> & He & Ht & Hp).
    unfold int_from_ber. rewrite (any_from_ber_definite _ _ _ _ He). cbn [bind a_header a_data].
    unfold assert_tag, assert_primitive. rewrite Ht, Hp. change (2 =? T_Integer) with true. cbn [bind].
    rewrite asn1_decode_int_spec, Hr by assumption. reflexivity.
Qed.

Lemma int_from_ber_err n i r c e : (0 < n)%nat -> bytes_ok i -> integer_element i r c -> int_result n c = Err e ->
  int_from_ber n i = Err (Error e).
Proof.
  intros Hn Hok Hi Hr. pose proof (integer_element_bytes _ _ _ Hok Hi) as Hc.
  destruct Hi as (h & bs & -> & He & Ht & Hp).
  unfold int_from_ber. rewrite (any_from_ber_definite _ _ _ _ He). cbn [bind a_header a_data].
  unfold assert_tag, assert_primitive. rewrite Ht, Hp. change (2 =? T_Integer) with true. cbn [bind].
  rewrite asn1_decode_int_spec, Hr by assumption. unfold int_result in Hr.
  destruct (_ <? 0)%Z; [destruct (_ <? _)%nat; [injection Hr as <-; reflexivity|discriminate]|].
  destruct (_ <=? _)%Z; [injection Hr as <-; reflexivity|discriminate].
Qed.

Lemma uint_result_iff n z v : uint_result n z = Ok v <-> z = Z.of_N v /\ v < 2 ^ (8 * N.of_nat n).
Proof. apply uint_result_outcomes. Qed.

(** The signed result, with the bounds of the type. *)
Lemma int_result_ok n c v : (0 < n)%nat -> bytes_ok c -> int_result n c = Ok v <->
  v = twos_complement c /\ (- 2 ^ (Z.of_N (8 * N.of_nat n) - 1) <= v < 2 ^ (Z.of_N (8 * N.of_nat n) - 1))%Z
  /\ ((v < 0)%Z -> (length c <= n)%nat).
Proof.
  intros Hn H. unfold int_result. cbv zeta. pose proof (pw_half_Z n Hn) as Hh.
  generalize dependent (2 ^ (Z.of_N (8 * N.of_nat n) - 1))%Z. intros p Hp.
  pose proof (pw_pos n). pose proof (tc_range c H). split.
  - destruct (_ <? 0)%Z eqn:E1.
    + destruct (n <? length c)%nat eqn:E2; [discriminate|]. intros H2; injection H2 as <-.
      assert (pw (length c) <= pw n) by (apply pw_mono; lia). lia.
    + destruct (_ <=? _)%Z eqn:E2; [discriminate|]. intros H2; injection H2 as <-. lia.
  - intros (-> & Hr & Hl). destruct (_ <? 0)%Z eqn:E1.
    + destruct (n <? length c)%nat eqn:E2; [lia|reflexivity].
    + destruct (_ <=? _)%Z eqn:E2; [lia|reflexivity].
Qed.

Lemma int_result_err n c : (0 < n)%nat -> bytes_ok c ->
  (~ (- 2 ^ (Z.of_N (8 * N.of_nat n) - 1) <= twos_complement c < 2 ^ (Z.of_N (8 * N.of_nat n) - 1))%Z
   \/ (twos_complement c < 0)%Z /\ (n < length c)%nat) ->
  int_result n c = Err IntegerTooLarge.
Proof.
  intros Hn H. unfold int_result. cbv zeta. pose proof (pw_half_Z n Hn) as Hh.
  generalize dependent (2 ^ (Z.of_N (8 * N.of_nat n) - 1))%Z. intros p Hp Hr.
  pose proof (pw_pos n). pose proof (tc_range c H). destruct (_ <? 0)%Z eqn:E1.
  - destruct (n <? length c)%nat eqn:E2; [reflexivity|].
    assert (pw (length c) <= pw n) by (apply pw_mono; lia). lia.
  - destruct (_ <=? _)%Z eqn:E2; [reflexivity|lia].
Qed.

(** The unsigned readers, for [n] bits. *)
Definition unsigned_reader (n : N) (f : bytes -> iresult berror N) : Prop :=
  forall i r, bytes_ok i ->
  (forall v, f i = Ok (r, v) <-> exists c, integer_element i r c /\ twos_complement c = Z.of_N v /\ v < 2 ^ n)
  /\ forall c, integer_element i r c ->
     ((twos_complement c < 0)%Z -> f i = Err (Error IntegerNegative))
     /\ ((2 ^ Z.of_N n <= twos_complement c)%Z -> f i = Err (Error IntegerTooLarge)).

(** The signed readers, for [n] bits.  A negative value in more octets than
    the type has is refused too, even in range. *)
Definition signed_reader (n : N) (f : bytes -> iresult berror Z) : Prop :=
  forall i r, bytes_ok i ->
  (forall v, f i = Ok (r, v) <-> exists c, integer_element i r c /\ v = twos_complement c
     /\ (- 2 ^ (Z.of_N n - 1) <= v < 2 ^ (Z.of_N n - 1))%Z
     /\ ((v < 0)%Z -> 8 * N.of_nat (length c) <= n))
  /\ forall c, integer_element i r c ->
     ~ (- 2 ^ (Z.of_N n - 1) <= twos_complement c < 2 ^ (Z.of_N n - 1))%Z ->
     f i = Err (Error IntegerTooLarge).

Lemma uint_from_ber_reader n : unsigned_reader (8 * N.of_nat n) (uint_from_ber n).
Proof.
  intros i r Hok. split.
  - intros v. rewrite (uint_from_ber_iff _ _ _ _ Hok).
    split; intros (c & Hi & Hr); exists c; (split; [assumption|]); now apply uint_result_iff.
  - intros c Hi. pose proof (uint_result_outcomes n (twos_complement c)) as (_ & H1 & H2).
    split; intros Hz; eapply uint_from_ber_err; eauto; [now apply H1|now apply H2].
Qed.

Lemma int_from_ber_reader n : (0 < n)%nat -> signed_reader (8 * N.of_nat n) (int_from_ber n).
Proof.
  intros Hn i r Hok. split.
  - intros v. rewrite (int_from_ber_iff _ _ _ _ Hn Hok).
    split; intros (c & Hi & Hr); exists c; (split; [assumption|]);
      pose proof (integer_element_bytes _ _ _ Hok Hi) as Hc.
    + apply int_result_ok in Hr as (E & Hb & Hl); auto. split; [assumption|]. split; [assumption|].
      intros Hv. specialize (Hl Hv). lia.
    + apply int_result_ok; auto. destruct Hr as (E & Hb & Hl). split; [assumption|]. split; [assumption|].
      intros Hv. specialize (Hl Hv). lia.
  - intros c Hi Hz. eapply int_from_ber_err; eauto. apply int_result_err; auto.
    eapply integer_element_bytes; eauto.
Qed.

Theorem C19_u32 : unsigned_reader 32 parse_ber_u32.
Proof. exact (uint_from_ber_reader 4). Qed.
Theorem C19_u64 : unsigned_reader 64 parse_ber_u64.
Proof. exact (uint_from_ber_reader 8). Qed.
Theorem C19_i32 : signed_reader 32 parse_ber_i32.
Proof. apply (int_from_ber_reader 4). lia. Qed.
Theorem C19_i64 : signed_reader 64 parse_ber_i64.
Proof. apply (int_from_ber_reader 8). lia. Qed.
Print Assumptions C19_u32.
Print Assumptions C19_u64.
Print Assumptions C19_i32.
Print Assumptions C19_i64.

Example C19_ex : bytes_ok (hx "02 09 00 ff ff ff ff ff ff ff ff aa")
  /\ parse_ber_u64 (hx "02 09 00 ff ff ff ff ff ff ff ff aa") = Ok ([170], 18446744073709551615)
  /\ parse_ber_u32 (hx "02 05 01 00 00 00 00") = Err (Error IntegerTooLarge)
  /\ parse_ber_u32 (hx "02 01 80") = Err (Error IntegerNegative)
  /\ parse_ber_i32 (hx "02 02 ff 7f aa") = Ok ([170], (-129)%Z)
  /\ parse_ber_i64 (hx "02 09 00 80 00 00 00 00 00 00 00") = Err (Error IntegerTooLarge).
Proof. split; [bok|]. vm_compute. auto 10. Qed.

(** ** C20 *)

Lemma minimal_check h c : h_constructed h = false -> h_length h = Definite (N.of_nat (length c)) ->
  bytes_ok c ->
  (check_der_int_constraints (mkAny h c) = Ok tt <-> minimal_integer c).
Proof.
  intros Hp Hl Hc. unfold check_der_int_constraints, assert_primitive. cbn [a_header a_data]. rewrite Hp, Hl.
  cbn [bind length_definite]. unfold minimal_integer. destruct c as [|b [|c0 c]].
  - split; [discriminate|contradiction].
  - tauto.
  - destruct ((b =? 0) && (c0 <? 128)) eqn:E1; [split; [discriminate|lia]|].
    destruct ((b =? 255) && (128 <=? c0)) eqn:E2; [split; [discriminate|lia]|].
    split; [lia|reflexivity].
Qed.

Lemma check_primitive a : check_der_int_constraints a = Ok tt -> h_constructed (a_header a) = false.
Proof.
  unfold check_der_int_constraints, assert_primitive. destruct (h_constructed (a_header a)); [discriminate|reflexivity].
Qed.

Lemma from_der_iff {A} (dec : bytes -> Base.res berror A) i r v : bytes_ok i ->
  (let* (r, a) := any_from_der i in
   let* v := map_err nerr_of_err
     (let* _ := assert_tag (a_header a) T_Integer in
      let* _ := check_der_int_constraints a in
      dec (a_data a)) in
   Ok (r, v)) = Ok (r, v)
  <-> exists c, integer_element i r c /\ minimal_integer c /\ dec c = Ok v.
Proof.
  intros Hok. split.
  - intros H. bind_inv H. destruct a as [r' a]. bind_inv H. inv H.
    apply map_err_ok in E0. unfold assert_tag in E0.
    destruct (h_tag (a_header a) =? T_Integer) eqn:Et; [|discriminate]. cbn [bind] in E0.
    destruct (check_der_int_constraints a) as [[]| | |] eqn:Ec; try discriminate. cbn [bind] in E0.
    pose proof (check_primitive _ Ec) as Ep.
    apply any_from_der_ber in E. destruct (primitive_definite _ _ _ Hok E Ep) as (bs & Ei & He).
    assert (Hi : integer_element i r (a_data a)).
    { exists (a_header a), bs. split; [assumption|]. split; [assumption|]. split; [|assumption]. now apply N.eqb_eq in Et. }
    exists (a_data a). split; [assumption|]. split; [|assumption].
    apply (minimal_check (a_header a)); [assumption| |eapply integer_element_bytes; eauto|destruct a; exact Ec].
    now destruct He as (? & _ & _ & ?).
  - intros (c & Hi & Hm & Hr). pose proof (integer_element_bytes _ _ _ Hok Hi) as Hc.
    destruct Hi as (h & bs & -> & He & Ht & Hp).
    rewrite (any_from_der_definite _ _ _ _ He). cbn [bind a_header a_data].
    unfold assert_tag. rewrite Ht. change (2 =? T_Integer) with true. cbn [bind].
    assert (Hl : h_length h = Definite (N.of_nat (length c))) by (now destruct He as (? & _ & _ & ?)).
    rewrite (proj2 (minimal_check h c Hp Hl Hc) Hm). cbn [bind]. rewrite Hr. reflexivity.
Qed.

(** A minimal encoding of a value in range fits in the octets of the type. *)
Lemma minimal_fits n c : (0 < n)%nat -> bytes_ok c -> minimal_integer c ->
  (- 2 ^ (Z.of_N (8 * N.of_nat n) - 1) <= twos_complement c < 2 ^ (Z.of_N (8 * N.of_nat n) - 1))%Z ->
  (length c <= n)%nat.
Proof.
  intros Hn H Hm. pose proof (pw_half_Z n Hn) as Hh.
  generalize dependent (2 ^ (Z.of_N (8 * N.of_nat n) - 1))%Z. intros p Hp Hr.
  destruct (le_lt_dec (length c) n) as [|Hlt]; [assumption|exfalso].
  destruct (length c) as [|[|k]] eqn:El; [lia|lia|].
  pose proof (minimal_lower c k H Hm El). assert (pw n <= pw (S k)) by (apply pw_mono; lia). lia.
Qed.

(** The DER readers: exactly the minimal encodings of the values in range, so
    the content octets are determined by the value. *)
Definition der_unsigned_reader (n : N) (f : bytes -> iresult berror N) : Prop :=
  (forall i r v, bytes_ok i ->
    f i = Ok (r, v) <-> exists c, integer_element i r c /\ minimal_integer c
                          /\ twos_complement c = Z.of_N v /\ v < 2 ^ n)
  /\ forall i i' r r' v c c', bytes_ok i -> bytes_ok i' -> f i = Ok (r, v) -> f i' = Ok (r', v) ->
     integer_element i r c -> integer_element i' r' c' -> c = c'.

Definition der_signed_reader (n : N) (f : bytes -> iresult berror Z) : Prop :=
  (forall i r v, bytes_ok i ->
    f i = Ok (r, v) <-> exists c, integer_element i r c /\ minimal_integer c
                          /\ twos_complement c = v /\ (- 2 ^ (Z.of_N n - 1) <= v < 2 ^ (Z.of_N n - 1))%Z)
  /\ forall i i' r r' v c c', bytes_ok i -> bytes_ok i' -> f i = Ok (r, v) -> f i' = Ok (r', v) ->
     integer_element i r c -> integer_element i' r' c' -> c = c'.

Lemma integer_element_unique i r c c' : integer_element i r c -> integer_element i r c' -> c = c'.
Proof.
  intros (h & bs & -> & He & _) (h' & bs' & E & He' & _).
  pose proof (any_from_ber_definite _ _ _ r He) as H. rewrite E in H.
  rewrite (any_from_ber_definite _ _ _ r He') in H. congruence.
Qed.

Lemma uint_from_der_reader n : der_unsigned_reader (8 * N.of_nat n) (uint_from_der n).
Proof.
  assert (Hiff : forall i r v, bytes_ok i ->
    uint_from_der n i = Ok (r, v) <-> exists c, integer_element i r c /\ minimal_integer c
                          /\ twos_complement c = Z.of_N v /\ v < 2 ^ (8 * N.of_nat n)).
  { intros i r v Hok. unfold uint_from_der. rewrite (from_der_iff (asn1_decode_uint n) i r v Hok).
    split; intros (c & Hi & Hm & Hr); exists c; (split; [assumption|]); (split; [assumption|]);
      pose proof (integer_element_bytes _ _ _ Hok Hi) as Hc.
    - rewrite asn1_decode_uint_spec in Hr by assumption. now apply uint_result_iff in Hr.
    - rewrite asn1_decode_uint_spec by assumption. now apply uint_result_iff. }
  split; [exact Hiff|]. intros i i' r r' v c c' Hok Hok' H H' Hi Hi'.
  apply Hiff in H as (d & Hd & Hm & E & _); [|assumption].
  apply Hiff in H' as (d' & Hd' & Hm' & E' & _); [|assumption].
  pose proof (integer_element_bytes _ _ _ Hok Hi). pose proof (integer_element_bytes _ _ _ Hok' Hi').
  rewrite <- (integer_element_unique _ _ _ _ Hi Hd) in *.
  rewrite <- (integer_element_unique _ _ _ _ Hi' Hd') in *.
  apply minimal_unique; auto. congruence.
Qed.

Lemma int_from_der_reader n : (0 < n)%nat -> der_signed_reader (8 * N.of_nat n) (int_from_der n).
Proof.
  intros Hn.
  assert (Hiff : forall i r v, bytes_ok i ->
    int_from_der n i = Ok (r, v) <-> exists c, integer_element i r c /\ minimal_integer c
       /\ twos_complement c = v
       /\ (- 2 ^ (Z.of_N (8 * N.of_nat n) - 1) <= v < 2 ^ (Z.of_N (8 * N.of_nat n) - 1))%Z).
  { intros i r v Hok. unfold int_from_der. rewrite (from_der_iff (asn1_decode_int n) i r v Hok).
    split; intros (c & Hi & Hm & Hr); exists c; (split; [assumption|]); (split; [assumption|]);
      pose proof (integer_element_bytes _ _ _ Hok Hi) as Hc.
    - rewrite asn1_decode_int_spec in Hr by assumption. apply int_result_ok in Hr as (-> & Hb & _); auto.
    - rewrite asn1_decode_int_spec by assumption. destruct Hr as (<- & Hb). apply int_result_ok; auto.
      split; [reflexivity|]. split; [assumption|]. intros _. now apply minimal_fits. }
  split; [exact Hiff|]. intros i i' r r' v c c' Hok Hok' H H' Hi Hi'.
  apply Hiff in H as (d & Hd & Hm & E & _); [|assumption].
  apply Hiff in H' as (d' & Hd' & Hm' & E' & _); [|assumption].
  pose proof (integer_element_bytes _ _ _ Hok Hi). pose proof (integer_element_bytes _ _ _ Hok' Hi').
  rewrite <- (integer_element_unique _ _ _ _ Hi Hd) in *.
  rewrite <- (integer_element_unique _ _ _ _ Hi' Hd') in *.
  apply minimal_unique; auto. congruence.
Qed.

Theorem C20_u32 : der_unsigned_reader 32 parse_der_u32.
Proof. exact (uint_from_der_reader 4). Qed.
Theorem C20_u64 : der_unsigned_reader 64 parse_der_u64.
Proof. exact (uint_from_der_reader 8). Qed.
Theorem C20_i32 : der_signed_reader 32 parse_der_i32.
Proof. apply (int_from_der_reader 4). lia. Qed.
Theorem C20_i64 : der_signed_reader 64 parse_der_i64.
Proof. apply (int_from_der_reader 8). lia. Qed.
Print Assumptions C20_u32.
Print Assumptions C20_u64.
Print Assumptions C20_i32.
Print Assumptions C20_i64.

Example C20_ex : bytes_ok (hx "02 02 00 80")
  /\ parse_der_u32 (hx "02 02 00 80 aa") = Ok ([170], 128)
  /\ parse_der_u32 (hx "02 02 00 7f") = Err (Error (DerConstraintFailed DcIntegerLeadingZeroes))
  /\ parse_der_i64 (hx "02 02 ff 80") = Err (Error (DerConstraintFailed DcIntegerLeadingFF))
  /\ parse_der_i64 (hx "02 08 80 00 00 00 00 00 00 00") = Ok ([], (-9223372036854775808)%Z).
Proof. split; [bok|]. vm_compute. auto 10. Qed.
