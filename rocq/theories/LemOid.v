(** * Lemmas about the encoder of the oid! macro. *)

From Verif Require Import Base OidMacro Spec SpecOid LemBase.
Local Open Scope N_scope.

Fixpoint le_value (l : bytes) : N :=
  match l with [] => 0 | b :: r => b + 256 * le_value r end.

Notation p2 k := (2 ^ k).
Notation p128 r := (128 ^ N.of_nat r).

Lemma p2_pos k : 0 < p2 k.
Proof. apply N.neq_0_lt_0, N.pow_nonzero. lia. Qed.
Lemma p128_pos r : 0 < p128 r.
Proof. apply N.neq_0_lt_0, N.pow_nonzero. lia. Qed.
Lemma p128_S r : p128 (S r) = 128 * p128 r.
Proof. rewrite Nat2N.inj_succ, N.pow_succ_r'. reflexivity. Qed.
Lemma p128_p2 r : p128 r = p2 (7 * N.of_nat r).
Proof. change 128 with (2 ^ 7). now rewrite N.pow_mul_r. Qed.

Lemma upd_app a x b v : upd (a ++ x :: b) (length a) v = Ok (a ++ v :: b).
Proof. induction a as [|y a IH]; cbn [app length upd]; [reflexivity|]. rewrite IH. reflexivity. Qed.

Lemma repeat_snoc r (out : bytes) : repeat 0 (S r) ++ out = repeat 0 r ++ 0 :: out.
Proof. induction r as [|r IH]; [reflexivity|]. cbn [repeat app] in *. now rewrite IH. Qed.

Lemma upd_last pre r out v :
  upd (pre ++ repeat 0 (S r) ++ out) (length pre + r) v = Ok (pre ++ repeat 0 r ++ v :: out).
Proof.
  rewrite repeat_snoc, app_assoc.
  replace (length pre + r)%nat with (length (pre ++ repeat 0 r)) by (rewrite app_length, repeat_length; lia).
  rewrite upd_app, <- app_assoc. reflexivity.
Qed.

Lemma octet_sweep : forallb (fun es => forallb (fun b => forallb (fun x =>
    N.lor (N.lor (N.shiftl (N.of_nat b) (N.of_nat es) mod 256) (N.of_nat x)) 128
      =? 128 + (N.of_nat b * p2 (N.of_nat es) + N.of_nat x) mod 128)
    (seq 0 (2 ^ es))) (seq 0 256)) (seq 0 7) = true.
Proof. vm_compute. reflexivity. Qed.

Lemma octet_eq es b x : es < 7 -> b < 256 -> x < p2 es ->
  N.lor (N.lor (N.shiftl b es mod 256) x) 128 = 128 + (b * p2 es + x) mod 128.
Proof.
  intros He Hb Hx. pose proof octet_sweep as H. rewrite forallb_forall in H.
  specialize (H (N.to_nat es)). rewrite forallb_forall in H.
  assert (H1 : In (N.to_nat es) (seq 0 7)) by (apply in_seq; lia). specialize (H H1 (N.to_nat b)).
  rewrite forallb_forall in H. assert (H2 : In (N.to_nat b) (seq 0 256)) by (apply in_seq; lia).
  specialize (H H2 (N.to_nat x)). rewrite !N2Nat.id in H. apply N.eqb_eq, H, in_seq.
  assert (E : N.of_nat (2 ^ N.to_nat es) = p2 es).
  { clear -He. assert (Hc : es = 0 \/ es = 1 \/ es = 2 \/ es = 3 \/ es = 4 \/ es = 5 \/ es = 6) by lia.
    destruct Hc as [->|[->|[->|[->|[->|[->| ->]]]]]]; reflexivity. }
  lia.
Qed.

Lemma flush_eq x : x < 128 -> N.lor x 128 = 128 + x.
Proof.
  intros H. assert (Hall : forallb (fun k => N.lor (N.of_nat k) 128 =? 128 + N.of_nat k) (seq 0 128) = true)
    by (vm_compute; reflexivity).
  rewrite forallb_forall in Hall. specialize (Hall (N.to_nat x)). rewrite N2Nat.id in Hall.
  apply N.eqb_eq, Hall, in_seq. lia.
Qed.

(** The most significant octet is not zero. *)
Definition top_ok (l : bytes) : Prop := l = [] \/ last l 0 <> 0.

Lemma top_ok_tl b l : top_ok (b :: l) -> top_ok l.
Proof. intros [H|H]; [discriminate|]. destruct l as [|c l]; [now left|]. right. exact H. Qed.

Lemma top_lower l : l <> [] -> top_ok l -> 0 < le_value l.
Proof.
  induction l as [|b l IH]; [congruence|]. intros _ Ht. cbn [le_value]. destruct l as [|c l].
  - destruct Ht as [H|H]; [discriminate|]. cbn in *. lia.
  - assert (0 < le_value (c :: l)) by (apply IH; [discriminate|now apply top_ok_tl in Ht]). lia.
Qed.

(** What the loop leaves: [ds] were written, [r] octets are left, [x] is still
    to be written when there is room. *)
Definition written_out (pre : bytes) (r0 : nat) (out : bytes) (stored0 : nat) (V : N) (s : st) : Prop :=
  exists r ds, r0 = (r + length ds)%nat /\ enc s = pre ++ repeat 0 r ++ map (N.add 128) ds ++ out
    /\ Forall (fun d => d < 128) ds /\ stored s = (stored0 + length ds)%nat
    /\ (r = 0%nat -> V = digits_value 128 ds)
    /\ (r <> 0%nat -> V = extra s * p128 (length ds) + digits_value 128 ds /\ extra s < 128).

Lemma written_more pre r out stored d V s : d < 128 ->
  written_out pre r ((128 + d) :: out) (S stored) V s ->
  written_out pre (S r) out stored (d + 128 * V) s.
Proof.
  intros Hd (r' & ds & -> & He & Hds & Hst & H0 & H1). exists r', (ds ++ [d]).
  rewrite app_length, map_app. cbn [length map]. split; [lia|]. split; [rewrite He, <- app_assoc; reflexivity|].
  split; [apply Forall_app; auto|]. split; [lia|].
  assert (Ed : digits_value 128 (ds ++ [d]) = 128 * digits_value 128 ds + d).
  { rewrite digits_value_app. cbn [length digits_value]. change (128 ^ N.of_nat 1) with 128. change (128 ^ N.of_nat 0) with 1. lia. }
  rewrite Ed. split.
  - intros Hr. rewrite <- (H0 Hr). lia.
  - intros Hr. destruct (H1 Hr) as [E Hx]. split; [|exact Hx]. rewrite Nat.add_1_r, p128_S, E. lia.
Qed.

Lemma split_byte b es x : es < 7 -> x < p2 es ->
  b * p2 es + x = (b * p2 es + x) mod 128 + 128 * N.shiftr b (8 - (es + 1)).
Proof.
  intros He Hx. rewrite N.shiftr_div_pow2. replace (8 - (es + 1)) with (7 - es) by lia.
  assert (E : 128 = p2 es * p2 (7 - es)) by (rewrite <- N.pow_add_r; replace (es + (7 - es)) with 7 by lia; reflexivity).
  rewrite (N.div_mod (b * p2 es + x) 128) at 1 by lia.
  assert (Eq : (b * p2 es + x) / 128 = b / p2 (7 - es)).
  { rewrite E, <- N.div_div by (apply N.pow_nonzero; lia). f_equal.
    rewrite N.div_add_l by (apply N.pow_nonzero; lia). rewrite (N.div_small x) by assumption. lia. }
  rewrite Eq. lia.
Qed.

(** Without a pending flush. *)
Lemma steps_spec l : forall pre r out x es n0,
  bytes_ok l -> top_ok l -> es <= 7 -> x < p2 es ->
  x + p2 es * le_value l < p128 r -> (0 < le_value l \/ r <> 0%nat) ->
  exists s, steps (mkSt (pre ++ repeat 0 r ++ out) (length pre + r - 1) x es n0) l = Ok s
    /\ written_out pre r out n0 (x + p2 es * le_value l) s.
Proof.
  induction l as [|b l IH]; intros pre r out x es n0 Hok Ht He Hx Hv Hr0.
  - eexists. split; [reflexivity|]. exists r, []. cbn [length app map enc stored extra digits_value le_value].
    split; [lia|]. split; [reflexivity|]. split; [constructor|]. split; [lia|]. cbn [le_value] in *. split; [lia|].
    intros _. split; [change (128 ^ N.of_nat 0) with 1; lia|]. pose proof (N.pow_le_mono_r 2 es 7). change (2 ^ 7) with 128 in *. lia.
  - apply bytes_ok_cons in Hok as [Hb Hok]. pose proof (top_ok_tl _ _ Ht) as Ht'.
    assert (Hpos : 0 < le_value (b :: l)) by (apply top_lower; [discriminate|assumption]).
    assert (Hstore : forall r out x es n0, es < 7 -> x < p2 es -> x + p2 es * le_value (b :: l) < p128 (S r) ->
      exists s, (let* e := upd (pre ++ repeat 0 (S r) ++ out) (length pre + r)
            (N.lor (N.lor (N.shiftl b es mod 256) x) 128) in
          let* s' := match (length pre + r)%nat with
            | O => Ok (mkSt e O x es (S n0))
            | S p => let es := es + 1 in Ok (mkSt e p (N.shiftr b (8 - es)) es (S n0))
            end in steps s' l) = Ok s
        /\ written_out pre (S r) out n0 (x + p2 es * le_value (b :: l)) s).
    { clear r out x es n0 He Hx Hv Hr0. intros r out x es n0 He Hx Hv.
      rewrite octet_eq, upd_last by assumption. cbn [bind].
      pose proof (split_byte b es x He Hx) as Esp. set (d := (b * p2 es + x) mod 128) in *.
      assert (Hd : d < 128) by (apply N.mod_lt; lia).
      set (y := N.shiftr b (8 - (es + 1))) in *.
      assert (Hy : y < p2 (es + 1)).
      { unfold y. rewrite N.shiftr_div_pow2. apply N.div_lt_upper_bound; [apply N.pow_nonzero; lia|].
        rewrite <- N.pow_add_r. replace (8 - (es + 1) + (es + 1)) with 8 by lia. exact Hb. }
      assert (EV : x + p2 es * le_value (b :: l) = d + 128 * (y + p2 (es + 1) * le_value l)).
      { cbn [le_value]. rewrite N.pow_add_r. change (2 ^ 1) with 2. lia. }
      rewrite EV in *. rewrite p128_S in Hv.
      assert (Hv' : y + p2 (es + 1) * le_value l < p128 r) by lia.
      destruct r as [|r].
      - change (p128 0) with 1 in Hv'. assert (Hl : le_value l = 0) by (pose proof (p2_pos (es + 1)); nia).
        assert (l = []) as ->.
        { destruct l as [|c l]; [reflexivity|]. pose proof (top_lower (c :: l) ltac:(discriminate) Ht'). lia. }
        assert (Ey : y + p2 (es + 1) * le_value [] = 0) by lia. rewrite Ey.
        destruct (length pre + 0)%nat; (eexists; split; [reflexivity|]);
          (exists 0%nat, [d]; cbn [length app map enc stored repeat digits_value];
           split; [reflexivity|]; split; [reflexivity|]; split; [now constructor|]; split; [lia|]; split; [|congruence];
           intros _; change (128 ^ N.of_nat 0) with 1; lia).
      - replace (length pre + S r)%nat with (S (length pre + r)) by lia. cbn [bind]. cbv zeta.
        destruct (IH pre (S r) ((128 + d) :: out) y (es + 1) (S n0)) as (s & Es & Hs); auto; [lia|].
        replace (length pre + S r - 1)%nat with (length pre + r)%nat in Es by lia. fold y.
        exists s. split; [exact Es|]. now apply written_more. }
    cbn [steps]. unfold step. cbn [enc pos extra extra_size stored]. destruct (es =? 7) eqn:E7.
    + assert (es = 7) as -> by lia. change (2 ^ 7) with 128 in Hv, Hx. rewrite (flush_eq x) by exact Hx.
      assert (Hr : (2 <= r)%nat).
      { destruct r as [|[|r]]; [change (p128 0) with 1 in Hv; lia|change (p128 1) with 128 in Hv; lia|lia]. }
      destruct r as [|[|r]]; [lia|lia|]. replace (length pre + S (S r) - 1)%nat with (length pre + S r)%nat by lia.
      rewrite upd_last. cbn [bind]. replace (length pre + S r)%nat with (S (length pre + r)) by lia. cbn [bind].
      cbn [enc pos extra extra_size stored].
      destruct (Hstore r ((128 + x) :: out) 0 0 (S n0)) as (s & Es & Hs);
        [lia|reflexivity|change (p2 0) with 1; rewrite p128_S in Hv; lia|].
      exists s. split.
      * rewrite <- Es. destruct (upd _ _ _); cbn [bind]; [|reflexivity|reflexivity|reflexivity].
        destruct (length pre + r)%nat; reflexivity.
      * change (2 ^ 7) with 128. change (p2 0) with 1 in Hs. rewrite N.add_0_l, N.mul_1_l in Hs. apply written_more; auto.
    + destruct r as [|r]; [change (p128 0) with 1 in Hv; pose proof (p2_pos es); nia|].
      replace (length pre + S r - 1)%nat with (length pre + r)%nat by lia. cbn [bind enc pos extra extra_size stored].
      destruct (Hstore r out x es n0) as (s & Es & Hs); [lia|assumption|assumption|].
      exists s. split; [|assumption]. rewrite <- Es. destruct (upd _ _ _); cbn [bind]; [|reflexivity|reflexivity|reflexivity].
      destruct (length pre + r)%nat; reflexivity.
Qed.

(** ** Octets of a number *)

Lemma bytes_le_spec fuel : forall n, n < p2 (N.of_nat fuel) ->
  bytes_ok (bytes_le_fuel (S fuel) n) /\ le_value (bytes_le_fuel (S fuel) n) = n
  /\ bytes_le_fuel (S fuel) n <> [] /\ (n <> 0 -> last (bytes_le_fuel (S fuel) n) 0 <> 0)
  /\ (n = 0 -> bytes_le_fuel (S fuel) n = [0]).
Proof.
  induction fuel as [|fuel IH]; intros n Hn.
  - change (p2 (N.of_nat 0)) with 1 in Hn. assert (n = 0) as -> by lia. vm_compute.
    split; [repeat constructor|]. repeat split; congruence.
  - cbn [bytes_le_fuel]. destruct (n / 256 =? 0) eqn:E.
    + cbn [le_value last]. split; [constructor; [apply N.mod_lt; lia|constructor]|].
      split; [lia|]. split; [discriminate|]. split; [lia|]. intros ->. reflexivity.
    + destruct (IH (n / 256)) as (H1 & H2 & H3 & H4 & _).
      { rewrite Nat2N.inj_succ, N.pow_succ_r' in Hn. lia. }
      change (if n / 256 / 256 =? 0 then [] else bytes_le_fuel fuel (n / 256 / 256)) with
        (if n / 256 / 256 =? 0 then [] else bytes_le_fuel fuel (n / 256 / 256)).
      change ((n / 256) mod 256 :: (if n / 256 / 256 =? 0 then [] else bytes_le_fuel fuel (n / 256 / 256)))
        with (bytes_le_fuel (S fuel) (n / 256)).
      set (r := bytes_le_fuel (S fuel) (n / 256)) in *. clearbody r.
      split; [constructor; [apply N.mod_lt; lia|assumption]|]. cbn [le_value]. split; [lia|]. split; [discriminate|].
      split; [|intros ->; discriminate]. intros _. destruct r as [|c r]; [congruence|]. cbn [last] in *. apply H4. lia.
Qed.

Lemma size_nat_eq n : N.of_nat (N.size_nat n) = N.size n.
Proof.
  destruct n as [|p]; [reflexivity|]. cbn [N.size_nat N.size].
  induction p as [p IH|p IH|]; cbn [Pos.size_nat Pos.size]; [| |reflexivity]; rewrite Nat2N.inj_succ, IH; reflexivity.
Qed.

Lemma to_bytes_le_spec n :
  bytes_ok (to_bytes_le n) /\ le_value (to_bytes_le n) = n
  /\ to_bytes_le n <> [] /\ (n <> 0 -> last (to_bytes_le n) 0 <> 0) /\ (n = 0 -> to_bytes_le n = [0]).
Proof.
  apply bytes_le_spec. rewrite size_nat_eq. apply N.size_gt.
Qed.

Lemma le_value_snoc l b : le_value (l ++ [b]) = le_value l + b * p2 (8 * N.of_nat (length l)).
Proof.
  induction l as [|x l IH]; cbn [app le_value length].
  - change (p2 (8 * N.of_nat 0)) with 1. lia.
  - rewrite IH, Nat2N.inj_succ. replace (8 * N.succ (N.of_nat (length l))) with (8 + 8 * N.of_nat (length l)) by lia.
    rewrite N.pow_add_r. change (p2 8) with 256. lia.
Qed.

Lemma le_value_lt l : bytes_ok l -> le_value l < p2 (8 * N.of_nat (length l)).
Proof.
  induction l as [|x l IH]; intros Hok; [reflexivity|]. apply bytes_ok_cons in Hok as [Hx Hok]. specialize (IH Hok).
  cbn [le_value length]. rewrite Nat2N.inj_succ. replace (8 * N.succ (N.of_nat (length l))) with (8 + 8 * N.of_nat (length l)) by lia.
  rewrite N.pow_add_r. change (p2 8) with 256. lia.
Qed.

Lemma size_le n : n <> 0 -> p2 (N.size n - 1) <= n.
Proof.
  intros Hn. pose proof (N.size_log2 n Hn) as E. rewrite E. replace (N.succ (N.log2 n) - 1) with (N.log2 n) by lia.
  apply N.log2_spec. lia.
Qed.

Lemma continued_snoc ds d : continued (ds ++ [d]) = map (N.add 128) ds ++ [d].
Proof.
  induction ds as [|x ds IH]; [reflexivity|]. cbn [app map]. destruct ds as [|y ds]; [reflexivity|].
  cbn [app] in *. cbn [continued]. now rewrite <- IH.
Qed.

Lemma xor_clear d : d < 128 -> N.lxor (128 + d) 128 = d.
Proof.
  intros H. assert (Hall : forallb (fun k => N.lxor (128 + N.of_nat k) 128 =? N.of_nat k) (seq 0 128) = true)
    by (vm_compute; reflexivity).
  rewrite forallb_forall in Hall. specialize (Hall (N.to_nat d)). rewrite N2Nat.id in Hall.
  apply N.eqb_eq, Hall, in_seq. lia.
Qed.

Lemma finish pre ds : ds <> [] -> Forall (fun d => d < 128) ds ->
  match nth_error (pre ++ map (N.add 128) ds) (length (pre ++ map (N.add 128) ds) - 1) with
  | None => Panic
  | Some x => upd (pre ++ map (N.add 128) ds) (length (pre ++ map (N.add 128) ds) - 1) (N.lxor x 128)
  end = @Ok unit _ (pre ++ continued ds).
Proof.
  intros Hn Hd. destruct (exists_last Hn) as (ds' & d & ->). apply Forall_app in Hd as [_ Hd]. inversion Hd as [|? ? Hd' _]; subst.
  rewrite continued_snoc, map_app. cbn [map]. rewrite !app_assoc.
  replace (length ((pre ++ map (N.add 128) ds') ++ [(128 + d)%N]) - 1)%nat with (length (pre ++ map (N.add 128) ds'))
    by (rewrite (app_length (pre ++ _) [_]); cbn [length]; lia).
  rewrite nth_error_app2 by lia. rewrite Nat.sub_diag. cbn [nth_error]. rewrite upd_app, xor_clear by assumption. reflexivity.
Qed.

Lemma p128_lt a b : p128 a < p128 b -> (a < b)%nat.
Proof. rewrite !p128_p2. intros H. apply N.pow_lt_mono_r_iff in H; lia. Qed.

Lemma encode_component_spec pre n : exists bs, encode_component pre n = Ok (pre ++ bs) /\ subidentifier n bs.
Proof.
  unfold encode_component, to_bytes_be. destruct (to_bytes_le_spec n) as (Hok & Hv & Hne & Hlast & Hz).
  destruct (N.eq_dec n 0) as [->|Hn].
  - rewrite (Hz eq_refl). cbn [rev app N.eqb]. exists [0]. split; [reflexivity|]. exists [0].
    split; [reflexivity|]. split; [reflexivity|]. split; [discriminate|]. split; [repeat constructor|now left].
  - specialize (Hlast Hn). clear Hz. set (l := to_bytes_le n) in *. clearbody l.
    destruct (exists_last Hne) as (l' & b & ->). rewrite last_last in Hlast. rewrite rev_app_distr. cbn [rev app].
    destruct (b =? 0) eqn:Eb; [lia|]. rewrite rev_involutive. rewrite rev_length.
    pose proof Hok as Hok'. apply bytes_ok_app in Hok' as [Hl' Hb]. 
    set (bits := (N.size_nat b + length l' * 8)%nat). 
    assert (Hbits : p2 (N.of_nat bits - 1) <= n /\ n < p2 (N.of_nat bits) /\ (1 <= bits)%nat).
    { pose proof (N.size_gt b) as H1. pose proof (size_le b Hlast) as H2. pose proof (size_nat_eq b) as H3.
      pose proof (le_value_lt l' Hl') as H4. rewrite le_value_snoc in Hv.
      assert (Hs : 1 <= N.size b) by (rewrite N.size_log2 by assumption; lia).
      assert (E1 : N.of_nat bits = N.size b + 8 * N.of_nat (length l')) by (unfold bits; lia).
      assert (E2 : N.of_nat bits - 1 = (N.size b - 1) + 8 * N.of_nat (length l')) by lia.
      rewrite E2, E1, !N.pow_add_r. set (q := p2 (8 * N.of_nat (length l'))) in *. 
      split; [|split; [|lia]].
      - transitivity (b * q); [now apply N.mul_le_mono_r|lia].
      - apply N.lt_le_trans with ((b + 1) * q); [lia|]. apply N.mul_le_mono_r. lia. }
    destruct Hbits as (Hlo & Hhi & Hb1). clearbody bits.
    set (k := Nat.max ((bits + 6) / 7) 1).
    assert (Hk : p128 (k - 1) <= n /\ n < p128 k /\ (1 <= k)%nat).
    { assert (Ek : k = ((bits + 6) / 7)%nat) by (unfold k; lia). rewrite !p128_p2. split; [|split; [|lia]].
      - etransitivity; [|exact Hlo]. apply N.pow_le_mono_r; lia.
      - eapply N.lt_le_trans; [exact Hhi|]. apply N.pow_le_mono_r; lia. }
    destruct Hk as (Hk1 & Hk2 & Hk3). clearbody k. clear Hlo Hhi Hb1.
    destruct (steps_spec (l' ++ [b]) pre k [] 0 0 0%nat) as (s & Es & r & ds & Ek & He & Hds & Hst & H0 & H1);
      [assumption|right; now rewrite last_last|lia|reflexivity|change (p2 0) with 1; lia|right; lia|].
    change (p2 0) with 1 in *. rewrite N.add_0_l, N.mul_1_l, Hv in *. rewrite app_nil_r in *.
    replace (length (pre ++ repeat 0%N k) - 1)%nat with (length pre + k - 1)%nat
      by (rewrite app_length, repeat_length; reflexivity).
    rewrite Es. cbn [bind].
    assert (Hdlt : digits_value 128 ds < p128 (length ds)) by (apply digits_value_lt; [lia|assumption]).
    assert (Hmin : forall ds', Forall (fun d => d < 128) ds' -> digits_value 128 ds' = n -> length ds' = k ->
      length ds' = 1%nat \/ hd 0 ds' <> 0).
    { intros [|d ds'] Hf Ev El; [cbn in El; lia|]. cbn [hd]. right. intros ->. inversion Hf as [|? ? _ Hf'].
      cbn [digits_value length] in Ev, El. pose proof (digits_value_lt 128 ds' ltac:(lia) Hf') as Hlt.
      replace (k - 1)%nat with (length ds') in Hk1 by lia. rewrite <- Ev in Hk1. rewrite N.mul_0_l, N.add_0_l in Hk1. lia. }
    assert (Hr : (r <= 1)%nat).
    { destruct r as [|r]; [lia|]. destruct H1 as [EV Hx]; [lia|].
      assert (Hlt : p128 (k - 1) < p128 (S (length ds))) by (rewrite p128_S; nia).
      apply p128_lt in Hlt. lia. }
    destruct r as [|r].
    + cbn [repeat app] in He. specialize (H0 eq_refl). rewrite Hst. cbn [Nat.add] in Ek |- *. rewrite <- Ek, Nat.eqb_refl. cbn [bind]. rewrite He.
      assert (ds <> []) by (intros ->; cbn in Ek; lia).
      rewrite finish by assumption. exists (continued ds). split; [reflexivity|]. exists ds.
      split; [reflexivity|]. split; [auto|]. split; [assumption|]. split; [assumption|]. apply Hmin; auto.
    + assert (r = 0%nat) as -> by lia. cbn [repeat app] in He. destruct H1 as [EV Hx]; [lia|]. rewrite Hst. cbn [Nat.add] in *.
      destruct (length ds =? k)%nat eqn:E; [apply Nat.eqb_eq in E; lia|]. rewrite He, flush_eq by assumption.
      replace (length (pre ++ 0%N :: map (N.add 128) ds) - 1 + 1 - k)%nat with (length pre)
        by (rewrite app_length; cbn [length]; rewrite map_length; lia).
      rewrite upd_app. cbn [bind].
      replace (length (pre ++ 0 :: map (N.add 128) ds)) with (length (pre ++ map (N.add 128) (extra s :: ds)))
        by (rewrite !app_length; cbn [length map]; reflexivity).
      change (128 + extra s :: map (N.add 128) ds) with (map (N.add 128) (extra s :: ds)).
      assert (Hf : Forall (fun d => d < 128) (extra s :: ds)) by (constructor; assumption).
      assert (Hnz : extra s :: ds <> []) by discriminate.
      rewrite finish by assumption. exists (continued (extra s :: ds)). split; [reflexivity|]. exists (extra s :: ds).
      split; [reflexivity|]. split; [cbn [digits_value]; lia|]. split; [assumption|]. split; [assumption|].
      apply Hmin; [assumption|cbn [digits_value]; lia|cbn [length]; lia].
Qed.

Lemma encode_all_spec comps : forall pre, exists parts,
  encode_all pre comps = Ok (pre ++ concat parts) /\ Forall2 subidentifier comps parts.
Proof.
  induction comps as [|n comps IH]; intros pre.
  - exists []. rewrite app_nil_r. split; [reflexivity|constructor].
  - destruct (encode_component_spec pre n) as (bs & E & Hs). destruct (IH (pre ++ bs)) as (parts & E2 & Hp).
    exists (bs :: parts). split; [|now constructor]. cbn [encode_all]. rewrite E. cbn [bind]. rewrite E2. cbn [concat].
    now rewrite app_assoc.
Qed.

(** ** The code is uniquely decodable *)

Lemma continued_cut ds : forall ds' r r', ds <> [] -> ds' <> [] ->
  Forall (fun d => d < 128) ds -> Forall (fun d => d < 128) ds' ->
  continued ds ++ r = continued ds' ++ r' -> ds = ds' /\ r = r'.
Proof.
  induction ds as [|d ds IH]; intros [|d' ds'] r r' H H' Hd Hd' E; try congruence.
  inversion Hd as [|? ? Hd1 Hd2]; inversion Hd' as [|? ? Hd1' Hd2']; subst.
  destruct ds as [|e ds], ds' as [|e' ds']; cbn [continued app] in E.
  - inversion E; auto.
  - exfalso. assert (d = 128 + d') by congruence. lia.
  - exfalso. assert (128 + d = d') by congruence. lia.
  - assert (E1 : 128 + d = 128 + d') by congruence. assert (d = d') by lia. subst d'.
    destruct (IH (e' :: ds') r r') as [E2 E3]; try discriminate; auto; [|split; [now rewrite E2|assumption]].
    cbn [continued app]. congruence.
Qed.

Lemma parts_unique comps : forall comps' parts parts', Forall2 subidentifier comps parts -> Forall2 subidentifier comps' parts' ->
  concat parts = concat parts' -> comps = comps'.
Proof.
  assert (Hne : forall n bs, subidentifier n bs -> bs <> []).
  { intros n bs (ds & -> & _ & Hn & _). destruct ds as [|d [|e ds]]; [congruence|discriminate|discriminate]. }
  induction comps as [|n comps IH]; intros comps' parts parts' H H' E; inversion H as [|? ? ? ps Hs Hps]; subst;
    inversion H' as [|n' ? bs' ps' Hs' Hps']; subst; cbn [concat] in E; [reflexivity| | |].
  - exfalso. apply Hne in Hs'. symmetry in E. apply app_eq_nil in E as [E _]. congruence.
  - exfalso. apply Hne in Hs. apply app_eq_nil in E as [E _]. congruence.
  - destruct Hs as (ds & -> & <- & Hn & Hd & _), Hs' as (ds' & -> & <- & Hn' & Hd' & _).
    apply continued_cut in E as [-> E]; auto. f_equal. eapply IH; eauto.
Qed.

(** ** Reading the text *)

Lemma trim_start_blank a s : blank a -> trim_start (a ++ s) = trim_start s.
Proof.
  induction 1 as [|c a Hc _ IH]; [reflexivity|]. cbn [app trim_start]. unfold is_space.
  destruct ((9 <=? c) && (c <=? 13) || (c =? 32)) eqn:E; [assumption|lia].
Qed.

Definition digit_char (c : N) : Prop := 48 <= c < 58.

Lemma decimal_chars n d : decimal n d -> Forall digit_char d /\ d <> [].
Proof.
  intros (ds & -> & Hn & Hd & _). split; [|destruct ds; [congruence|discriminate]].
  apply Forall_map. eapply Forall_impl; [|exact Hd]. intros x Hx. cbv beta in Hx. unfold digit_char. lia.
Qed.

Lemma trim_start_digits d s : Forall digit_char d -> d <> [] -> trim_start (d ++ s) = d ++ s.
Proof.
  intros Hd Hn. destruct d as [|c d]; [congruence|]. inversion Hd as [|? ? Hc _]; subst. unfold digit_char in Hc.
  cbn [app trim_start]. unfold is_space. destruct ((9 <=? c) && (c <=? 13) || (c =? 32)) eqn:E; [lia|reflexivity].
Qed.

Lemma trim_spec a d b : blank a -> Forall digit_char d -> d <> [] -> blank b -> trim (a ++ d ++ b) = d.
Proof.
  intros Ha Hd Hn Hb. unfold trim. rewrite trim_start_blank by assumption. rewrite trim_start_digits by assumption.
  rewrite rev_app_distr. rewrite trim_start_blank by (apply Forall_rev; assumption).
  rewrite <- (app_nil_r (rev d)). rewrite trim_start_digits.
  - rewrite app_nil_r. apply rev_involutive.
  - now apply Forall_rev.
  - intros E. apply Hn. rewrite <- (rev_involutive d), E. reflexivity.
Qed.

Lemma parse_digits_spec ds : forall acc, Forall (fun d => d < 10) ds ->
  parse_digits acc (map (N.add 48) ds) = Some (acc * 10 ^ N.of_nat (length ds) + digits_value 10 ds).
Proof.
  induction ds as [|d ds IH]; intros acc H; cbn [map parse_digits length digits_value].
  - change (10 ^ N.of_nat 0) with 1. f_equal. lia.
  - inversion H as [|? ? Hd Hds]; subst. destruct (48 + d =? 95) eqn:E1; [lia|].
    destruct ((48 <=? 48 + d) && (48 + d <=? 57)) eqn:E2; [|lia]. rewrite IH by assumption.
    f_equal. rewrite Nat2N.inj_succ, N.pow_succ_r'. replace (48 + d - 48) with d by lia. lia.
Qed.

Lemma parse_biguint_spec n d : decimal n d -> parse_biguint d = Some n.
Proof.
  intros H. pose proof (decimal_chars _ _ H) as [Hc Hn]. destruct H as (ds & -> & _ & Hds & <-).
  unfold parse_biguint, strip_plus. destruct ds as [|x ds]; [exfalso; apply Hn; reflexivity|].
  pose proof (parse_digits_spec (x :: ds) 0 Hds) as E. cbn [map] in *. pose proof (Forall_inv Hds) as H1. cbv beta in H1.
  destruct (48 + x =? 43) eqn:E0; [lia|]. destruct (48 + x =? 95) eqn:E1; [lia|]. rewrite E. f_equal.
Qed.

Lemma split_dot_nodot s : Forall (fun c => c <> 46) s -> split_dot s = [s].
Proof.
  induction 1 as [|c s Hc _ IH]; [reflexivity|]. cbn [split_dot]. rewrite IH. destruct (c =? 46) eqn:E; [lia|reflexivity].
Qed.

Lemma split_dot_more s r : Forall (fun c => c <> 46) s -> split_dot (s ++ 46 :: r) = s :: split_dot r.
Proof.
  induction 1 as [|c s Hc _ IH]; [reflexivity|]. cbn [app split_dot]. rewrite IH. destruct (c =? 46) eqn:E; [lia|reflexivity].
Qed.

Lemma segment_nodot a d b : blank a -> Forall digit_char d -> blank b -> Forall (fun c => c <> 46) (a ++ d ++ b).
Proof.
  intros Ha Hd Hb. apply Forall_app. split; [|apply Forall_app; split]; eapply Forall_impl; try eassumption;
    unfold digit_char; cbn; intros; lia.
Qed.

Lemma dotted_parse ns text : dotted ns text -> parse_segments (split_dot text) = Ok ns.
Proof.
  induction 1 as [n a d b Ha Hd Hb|n a d b ns r Ha Hd Hb _ IH]; pose proof (decimal_chars _ _ Hd) as [Hc Hn].
  - rewrite split_dot_nodot by now apply segment_nodot. cbn [parse_segments].
    rewrite trim_spec, (parse_biguint_spec n) by assumption. reflexivity.
  - rewrite split_dot_more by now apply segment_nodot. cbn [parse_segments].
    rewrite trim_spec, (parse_biguint_spec n) by assumption. rewrite IH. reflexivity.
Qed.

Lemma dotted_not_rel ns text : dotted ns text -> strip_rel text = (text, false).
Proof.
  intros H. assert (Hc : match text with c :: _ => c <> 114 | [] => True end).
  { assert (Hs : forall a d b r, blank a -> Forall digit_char d -> d <> [] ->
      match (a ++ d ++ b) ++ r with c :: _ => c <> 114 | [] => True end).
    { intros a d b r Ha Hd Hn. destruct a as [|c a]; cbn [app].
      - destruct d as [|c d]; [congruence|]. cbn [app]. inversion Hd as [|? ? H1 _]; subst. unfold digit_char in H1. lia.
      - inversion Ha as [|? ? H1 _]; subst. lia. }
    destruct H as [n a d b Ha Hd Hb|n a d b ns r Ha Hd Hb _]; pose proof (decimal_chars _ _ Hd) as [Hc Hn].
    - rewrite <- (app_nil_r (a ++ d ++ b)). now apply Hs.
    - now apply Hs. }
  destruct text as [|c text]; [reflexivity|]. unfold strip_rel. destruct c as [|p]; [reflexivity|].
  do 7 (destruct p as [p|p|]; try reflexivity). congruence.
Qed.
