(** * C112: how much the encoder writes *)

From Coq Require Import String.
From Verif Require Import Base Asn1rs Ber Der Conformance Serialize Cost CostEnc Spec SpecSize.
From Verif Require Import LemBase LemHeader LemSkip LemParse LemInt LemSer PropCost PropStack.
Local Open Scope string_scope. Local Open Scope N_scope. Local Open Scope list_scope.

(** ** The count changes nothing *)

Lemma snd_seq a b : snd (e_seq a b) = gen_seq (snd a) (snd b).
Proof.
  unfold e_seq, gen_seq, gen in *. rewrite snd_cbind. apply bind_ext. intros x. rewrite snd_cbind. apply bind_ext. reflexivity.
Qed.

Lemma snd_length l : snd (e_length l) = encode_length l.
Proof. destruct l as [n|]; [|reflexivity]. cbn [e_length encode_length]. destruct (n <=? 127); [reflexivity|]. cbv zeta. now rewrite snd_seq. Qed.

Lemma snd_header h : snd (e_header h) = ber_encode_header h.
Proof.
  unfold e_header, ber_encode_header. cbv zeta. destruct (30 <? h_tag h); [reflexivity|]. now rewrite snd_seq, snd_length.
Qed.

Lemma snd_with_header h x : snd (e_with_header h x) = with_header h (snd x).
Proof.
  unfold e_with_header, with_header, gen in *. rewrite snd_cbind. apply bind_ext. intros v. rewrite snd_cbind, snd_header. reflexivity.
Qed.

Lemma snd_many {A} (f : A -> nat * gen) g l : Forall (fun x => snd (f x) = g x) l -> snd (e_many f l) = gen_many g l.
Proof.
  induction 1 as [|x l Hx Hl IH]; [reflexivity|].
  change (e_many f (x :: l)) with (e_seq (f x) (e_many f l)). rewrite snd_seq, Hx, IH. reflexivity.
Qed.

Lemma snd_objects L : (forall o, snd (e_object L o) = ber_encode_object L o)
  /\ (forall c, snd (e_object_content L c) = ber_encode_object_content L c).
Proof.
  apply obj_content_ind.
  - intros h c H. cbn [e_object ber_encode_object]. now rewrite snd_with_header, H.
  - intros l H. cbn [e_object_content ber_encode_object_content]. now apply snd_many.
  - intros l H. cbn [e_object_content ber_encode_object_content]. now apply snd_many.
  - intros h c H _. exact H.
  - intros k t o H. exact H.
  - intros c H. destruct c as [| | | | | | | | | | | | | | | |[]| |]; try reflexivity; destruct H.
Qed.

Theorem C112_same : forall L o t k h c,
  snd (e_object L o) = to_vec L o
  /\ snd (e_tagged_explicit L t k o) = ber_encode_tagged_explicit L t k o
  /\ snd (e_tagged_implicit L t k o) = ber_encode_tagged_implicit L t k o
  /\ snd (e_object_raw L h c) = ber_encode_object_raw L h c.
Proof.
  intros L o t k h c. destruct (snd_objects L) as [Ho Hc]. split; [apply Ho|]. split; [|split].
  - unfold e_tagged_explicit. rewrite snd_with_header, Ho. reflexivity.
  - unfold e_tagged_implicit. rewrite snd_with_header, Hc. reflexivity.
  - unfold e_object_raw. rewrite snd_seq, snd_header, Hc. reflexivity.
Qed.
Print Assumptions C112_same.

(** ** Octets written for each octet of the result *)

(** [x] writes at most [k] octets for each octet of its result. *)
Definition copies (k : nat) (x : nat * gen) : Prop := forall v, snd x = Ok v -> (fst x <= k * length v)%nat.

Lemma copies_le k k' x : (k <= k')%nat -> copies k x -> copies k' x.
Proof. intros Hk H v Hv. specialize (H v Hv). nia. Qed.

Lemma copies_slice s : copies 1 (e_slice s).
Proof. intros v Hv. injection Hv as <-. cbn. lia. Qed.

Lemma seq_ok a b v : snd (e_seq a b) = Ok v -> exists x y, snd a = Ok x /\ snd b = Ok y /\ v = x ++ y
  /\ fst (e_seq a b) = (fst a + fst b)%nat.
Proof.
  unfold e_seq. destruct a as [n [x|e| |]], b as [m [y|e'| |]]; cbn [cbind fst snd]; try discriminate.
  intros H. injection H as <-. exists x, y. repeat split; lia.
Qed.

Lemma copies_seq k a b : copies k a -> copies k b -> copies k (e_seq a b).
Proof.
  intros Ha Hb v Hv. apply seq_ok in Hv as (x & y & Hx & Hy & -> & ->). specialize (Ha _ Hx). specialize (Hb _ Hy).
  rewrite app_length. nia.
Qed.

Lemma copies_header h : copies 1 (e_header h).
Proof.
  unfold e_header. cbv zeta. destruct (30 <? h_tag h); [intros v; discriminate|].
  apply copies_seq; [apply copies_slice|]. destruct (h_length h) as [n|]; cbn [e_length]; [|apply copies_slice].
  destruct (n <=? 127); [apply copies_slice|]. cbv zeta. apply copies_seq; apply copies_slice.
Qed.

Lemma with_header_ok h x v : snd (e_with_header h x) = Ok v ->
  exists hb c, v = hb ++ c /\ snd x = Ok c /\ snd (e_header (with_length h (Definite (nlen c)))) = Ok hb
    /\ fst (e_with_header h x) = (fst x + fst (e_header (with_length h (Definite (nlen c)))) + length hb + length c)%nat.
Proof.
  unfold e_with_header. destruct x as [n [c|e| |]]; cbn [cbind fst snd]; try discriminate.
  destruct (e_header (with_length h (Definite (nlen c)))) as [m [hb|e| |]] eqn:Eh; cbn [cbind e_seq e_slice fst snd]; try discriminate.
  intros H. injection H as <-. exists hb, c. rewrite Eh. cbn [fst snd]. repeat split; lia.
Qed.

Lemma copies_with_header k h x : (1 <= k)%nat -> copies k x -> copies (S k) (e_with_header h x).
Proof.
  intros Hk Hx v Hv. apply with_header_ok in Hv as (hb & c & -> & Hc & Hh & ->).
  specialize (Hx _ Hc). pose proof (copies_header _ _ Hh). rewrite app_length. nia.
Qed.

Lemma copies_many {A} (f : A -> nat * gen) k l : Forall (fun x => copies k (f x)) l -> copies k (e_many f l).
Proof.
  induction 1 as [|x l Hx Hl IH]; [intros v Hv; cbn; lia|].
  change (e_many f (x :: l)) with (e_seq (f x) (e_many f l)). now apply copies_seq.
Qed.

Lemma copies_objects L : (forall o, copies (S (height o)) (e_object L o))
  /\ (forall c, copies (S (height_content c)) (e_object_content L c)).
Proof.
  apply obj_content_ind.
  - intros h c H. cbn [e_object height]. apply copies_with_header; [lia|exact H].
  - intros l H. cbn [e_object_content height_content]. apply copies_many. rewrite Forall_forall in *.
    intros o Ho. eapply copies_le; [|exact (H _ Ho)]. pose proof (list_max_in height _ _ Ho). lia.
  - intros l H. cbn [e_object_content height_content]. apply copies_many. rewrite Forall_forall in *.
    intros o Ho. eapply copies_le; [|exact (H _ Ho)]. pose proof (list_max_in height _ _ Ho). lia.
  - intros h c H _. cbn [e_object_content height_content height]. eapply copies_le; [|exact H]. lia.
  - intros k t o H. cbn [e_object_content height_content]. exact H.
  - intros c H. apply (copies_le 1); [lia|].
    destruct c as [| | | | | | | | | | | | | | | |[]| |]; try destruct H;
      first [apply copies_slice | apply copies_seq; apply copies_slice | intros v Hv; cbn; lia].
Qed.

(** Every octet of the result was written at most once more than there are levels of the
    tree; a tree that was decoded has no more levels than the limit. *)
Theorem C112_bound : forall L o v, to_vec L o = Ok v ->
  (fst (e_object L o) <= (height o + 1) * length v)%nat
  /\ (forall i d r, bytes_ok i -> parse_ber_recursive L i d = Ok (r, o) ->
        (fst (e_object L o) <= (d + 1) * length v)%nat)
  /\ (forall i d r, bytes_ok i -> parse_der_recursive L i d = Ok (r, o) -> (1 <= d)%nat ->
        (fst (e_object L o) <= (d + 1) * length v)%nat).
Proof.
  intros L o v Hv. destruct (copies_objects L) as [H _]. specialize (H o).
  rewrite <- (proj1 (C112_same L o 0 Universal (o_header o) (o_content o))) in Hv. specialize (H _ Hv).
  split; [nia|]. destruct (C105_encoder L o) as [_ Hh].
  split; intros i d r Hok Hp; [|intros Hd]; specialize (Hh i d r Hok); destruct Hh as [H1 H2];
    [specialize (H1 Hp)|specialize (H2 Hp)]; nia.
Qed.
Print Assumptions C112_bound.

Theorem C112_others : forall L o t k h c,
  (forall v, ber_encode_tagged_explicit L t k o = Ok v -> (fst (e_tagged_explicit L t k o) <= (height o + 2) * length v)%nat)
  /\ (forall v, ber_encode_tagged_implicit L t k o = Ok v -> (fst (e_tagged_implicit L t k o) <= (height o + 1) * length v)%nat)
  /\ (forall v, ber_encode_object_raw L h c = Ok v -> (fst (e_object_raw L h c) <= (height_content c + 1) * length v)%nat).
Proof.
  intros L o t k h c. destruct (copies_objects L) as [Ho Hc]. destruct (C112_same L o t k h c) as (_ & E1 & E2 & E3).
  split; [|split]; intros v Hv.
  - rewrite <- E1 in Hv. eapply copies_with_header in Hv; [|apply le_n_S, Nat.le_0_l|apply Ho].
    unfold e_tagged_explicit. nia.
  - rewrite <- E2 in Hv. eapply copies_with_header in Hv; [|apply le_n_S, Nat.le_0_l|apply Hc].
    unfold e_tagged_implicit. destruct o as [h' c']. cbn [height o_content] in *. nia.
  - rewrite <- E3 in Hv. eapply copies_seq in Hv; [|eapply copies_le; [|apply copies_header]; apply le_n_S, Nat.le_0_l|apply Hc].
    unfold e_object_raw. nia.
Qed.
Print Assumptions C112_others.

(** ** No bound linear in the result alone *)

(** [n] SEQUENCEs around an OCTET STRING of [m] octets. *)
Fixpoint tower (n m : nat) : obj :=
  match n with
  | O => Obj (mkHeader Universal false 4 (Definite 0) None) (COctetString (repeat 0 m))
  | S n' => Obj (mkHeader Universal true 16 (Definite 0) None) (CSequence [tower n' m])
  end.

Lemma header_some h : h_tag h <= 30 -> exists hb, snd (e_header h) = Ok hb /\ (length hb <= 10)%nat.
Proof.
  intros Ht. rewrite snd_header. unfold ber_encode_header. cbv zeta. destruct (30 <? h_tag h) eqn:E; [lia|].
  destruct (h_length h) as [n|]; cbn [encode_length]; [|eexists; split; [reflexivity|cbn; lia]].
  destruct (n <=? 127); [eexists; split; [reflexivity|cbn; lia]|]. cbv zeta. eexists. split; [reflexivity|].
  pose proof (skip_zeroes_length (to_be_bytes 8 n)) as H. cbn [length app]. change (length (to_be_bytes 8 n)) with 8%nat in H. lia.
Qed.

Lemma with_header_cost h (x : nat * gen) c : h_tag h <= 30 -> snd x = Ok c ->
  exists hb, snd (e_with_header h x) = Ok (hb ++ c) /\ (length hb <= 10)%nat
    /\ (fst x + length c <= fst (e_with_header h x))%nat.
Proof.
  intros Ht Hx. destruct (header_some (with_length h (Definite (nlen c))) Ht) as (hb & Hh & Hl).
  assert (H : snd (e_with_header h x) = Ok (hb ++ c)).
  { rewrite snd_with_header, Hx. unfold with_header. cbn [bind]. rewrite <- snd_header, Hh. reflexivity. }
  exists hb. split; [exact H|]. split; [exact Hl|]. apply with_header_ok in H as (hb' & c' & _ & Hc & _ & ->).
  rewrite Hx in Hc. injection Hc as <-. lia.
Qed.

Lemma tower_cost L n m : exists v, snd (e_object L (tower n m)) = Ok v
  /\ (m <= length v <= m + 10 * (n + 1))%nat /\ ((n + 1) * m <= fst (e_object L (tower n m)))%nat.
Proof.
  induction n as [|n (v & Hv & Hl & Hc)]; cbn [tower e_object e_object_content].
  - destruct (with_header_cost (mkHeader Universal false 4 (Definite 0) None) (e_slice (repeat 0 m)) (repeat 0 m))
      as (hb & H & Hl & Hc); [cbn; lia|reflexivity|]. exists (hb ++ repeat 0 m). split; [exact H|].
    rewrite app_length, repeat_length in *. split; [lia|]. lia.
  - destruct (with_header_cost (mkHeader Universal true 16 (Definite 0) None) (e_many (e_object L) [tower n m]) v)
      as (hb & H & Hl' & Hc'); [cbn; lia| |].
    { change (e_many (e_object L) [tower n m]) with (e_seq (e_object L (tower n m)) (O, Ok [])).
      rewrite snd_seq, Hv. unfold gen_seq. cbn [bind snd]. now rewrite app_nil_r. }
    exists (hb ++ v). split; [exact H|]. rewrite app_length. split; [lia|].
    change (e_many (e_object L) [tower n m]) with (e_seq (e_object L (tower n m)) (O, Ok [])) in Hc' at 1.
    assert (Hs : snd (e_seq (e_object L (tower n m)) (O, Ok [])) = Ok (v ++ [])).
    { rewrite snd_seq, Hv. reflexivity. }
    apply seq_ok in Hs as (_ & _ & _ & _ & _ & Hs). rewrite Hs in Hc'. cbn [fst] in Hc'. nia.
Qed.

(** The claim that some factor bounds the octets written for every object is false: *)
Theorem C112_refuted : forall L k, exists o v, to_vec L o = Ok v /\ (k * length v < fst (e_object L o))%nat.
Proof.
  intros L k. destruct (tower_cost L (2 * k) (20 * k + 1)) as (v & Hv & Hl & Hc).
  exists (tower (2 * k) (20 * k + 1)), v. split; [|nia].
  rewrite <- Hv. symmetry. apply (snd_objects L).
Qed.
Print Assumptions C112_refuted.

(** SEQUENCE { SEQUENCE { INTEGER 5 } }: seven octets, written by three nested calls. *)
Example C112_ex :
  let o := Obj (mkHeader Universal true 16 (Definite 5) (Some [48]))
             (CSequence [Obj (mkHeader Universal true 16 (Definite 3) (Some [48]))
                (CSequence [Obj (mkHeader Universal false 2 (Definite 1) (Some [2])) (CInteger [5])])]) in
  to_vec SL o = Ok [48; 5; 48; 3; 2; 1; 5] /\ height o = 3%nat
  /\ parse_ber_recursive SL [48; 5; 48; 3; 2; 1; 5] 3 = Ok ([], o)
  /\ fst (e_object SL o) = 22%nat.
Proof. vm_compute. repeat split. Qed.
