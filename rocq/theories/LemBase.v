(** * Tactics and list/number lemmas shared by the proofs. *)

From Coq Require Export ZifyBool ZifyNat ZifyN.
From Verif Require Import Base Asn1rs Spec.
Ltac Zify.zify_post_hook ::= Z.div_mod_to_equations.

(** Invert [bind r k = Ok _] hypotheses. *)
Ltac bind_inv H :=
  match type of H with
  | bind ?r ?k = _ =>
      let E := fresh "E" in
      destruct r eqn:E; cbn [bind] in H; try discriminate H
  end.
Ltac inv H := inversion H; subst; clear H.

Lemma bind_ok {E A B} (r : res E A) (k : A -> res E B) b :
  bind r k = Ok b -> exists a, r = Ok a /\ k a = Ok b.
Proof. destruct r; cbn; intros H; try discriminate; eauto. Qed.

Lemma map_err_ok {E F A} (f : E -> F) (r : res E A) a :
  map_err f r = Ok a <-> r = Ok a.
Proof. destruct r; cbn; split; intros H; congruence. Qed.

Lemma nlen_app a b : nlen (a ++ b) = nlen a + nlen b.
Proof. unfold nlen. rewrite app_length. lia. Qed.

Lemma nlen_nil : nlen [] = 0. Proof. reflexivity. Qed.
Lemma nlen_cons x s : nlen (x :: s) = 1 + nlen s.
Proof. unfold nlen. cbn [length]. lia. Qed.

Lemma firstn_app_exact {A} (a b : list A) : firstn (length a) (a ++ b) = a.
Proof. rewrite firstn_app, Nat.sub_diag, firstn_all, firstn_O. apply app_nil_r. Qed.
Lemma skipn_app_exact {A} (a b : list A) : skipn (length a) (a ++ b) = b.
Proof. rewrite skipn_app, Nat.sub_diag, skipn_all. reflexivity. Qed.
Lemma firstn_app_le {A} n (a b : list A) : (n <= length a)%nat -> firstn n (a ++ b) = firstn n a.
Proof. intros H. rewrite firstn_app. replace (n - length a)%nat with O by lia.
  rewrite firstn_O. apply app_nil_r. Qed.

Lemma bytes_ok_app a b : bytes_ok (a ++ b) <-> bytes_ok a /\ bytes_ok b.
Proof. unfold bytes_ok. apply Forall_app. Qed.
Lemma bytes_ok_cons x s : bytes_ok (x :: s) <-> x < 256 /\ bytes_ok s.
Proof. unfold bytes_ok. split; intros H; [inv H; auto | constructor; tauto]. Qed.

Lemma bytes_ok_skipn n s : bytes_ok s -> bytes_ok (skipn n s).
Proof. intros H. rewrite <- (firstn_skipn n s) in H. apply bytes_ok_app in H. tauto. Qed.
Lemma bytes_ok_firstn n s : bytes_ok s -> bytes_ok (firstn n s).
Proof. intros H. rewrite <- (firstn_skipn n s) in H. apply bytes_ok_app in H. tauto. Qed.

Lemma class_eqb_spec a b : class_eqb a b = true <-> a = b.
Proof. destruct a, b; cbn; split; intros H; congruence. Qed.
Lemma class_eqb_refl a : class_eqb a a = true.
Proof. now apply class_eqb_spec. Qed.

(** ** Big-endian values *)

Lemma fold_be_val s acc :
  fold_left (fun a b => a * 256 + b) s acc
  = acc * 256 ^ N.of_nat (length s) + unsigned s.
Proof.
  revert acc; induction s as [|b s IH]; intros acc; cbn [fold_left unsigned digits_value length].
  - change (256 ^ N.of_nat 0) with 1. unfold unsigned; cbn [digits_value]. lia.
  - rewrite IH. unfold unsigned. cbn [digits_value].
    replace (N.of_nat (S (length s))) with (N.succ (N.of_nat (length s))) by lia.
    rewrite N.pow_succ_r'. lia.
Qed.

Lemma be_val_unsigned s : be_val s = unsigned s.
Proof. unfold be_val. rewrite fold_be_val. lia. Qed.

Lemma digits_value_app base a b :
  digits_value base (a ++ b) = digits_value base a * base ^ N.of_nat (length b) + digits_value base b.
Proof.
  induction a as [|d a IH]; cbn [digits_value app]; [lia|].
  rewrite IH, app_length.
  replace (N.of_nat (length a + length b)) with (N.of_nat (length a) + N.of_nat (length b)) by lia.
  rewrite N.pow_add_r. lia.
Qed.

Lemma digits_value_lt base ds :
  0 < base -> Forall (fun d => d < base) ds -> digits_value base ds < base ^ N.of_nat (length ds).
Proof.
  intros Hb H. induction H as [|d r Hd Hr IH]; cbn [digits_value length].
  - change (N.of_nat 0) with 0. rewrite N.pow_0_r. lia.
  - replace (N.of_nat (S (length r))) with (N.succ (N.of_nat (length r))) by lia.
    rewrite N.pow_succ_r'. nia.
Qed.

Lemma unsigned_lt s : bytes_ok s -> unsigned s < 256 ^ N.of_nat (length s).
Proof. intros H. apply digits_value_lt; [lia|exact H]. Qed.

Lemma unsigned_app a b : unsigned (a ++ b) = unsigned a * 256 ^ N.of_nat (length b) + unsigned b.
Proof. apply digits_value_app. Qed.

(** A value determines its digits when their number is known. *)
Lemma digits_value_inj base a b :
  1 < base -> Forall (fun d => d < base) a -> Forall (fun d => d < base) b ->
  length a = length b -> digits_value base a = digits_value base b -> a = b.
Proof.
  intros Hb Ha. revert b. induction Ha as [|d r Hd Hr IH]; intros [|e s] Hs Hl Hv;
    cbn [length] in Hl; try discriminate; [reflexivity|].
  inv Hs. cbn [digits_value] in Hv. injection Hl as Hl.
  pose proof (digits_value_lt base r ltac:(lia) Hr) as L1.
  pose proof (digits_value_lt base s ltac:(lia) H2) as L2.
  rewrite <- Hl in *.
  set (P := base ^ N.of_nat (length r)) in *.
  assert (d = e) by nia. subst e. f_equal. apply IH; auto. lia.
Qed.

(** Deciding [bytes_ok] on literals. *)
Lemma bytes_okb_ok s : forallb (fun b => b <? 256) s = true -> bytes_ok s.
Proof.
  intros H. apply Forall_forall. intros x Hx. rewrite forallb_forall in H.
  apply H in Hx. lia.
Qed.
Ltac bok := apply bytes_okb_ok; vm_compute; reflexivity.
