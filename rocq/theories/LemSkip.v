(** * Skipping and delimiting content. *)

From Verif Require Import Base Asn1rs Ber Der Spec LemBase LemHeader.

(** The copy of the algorithm in asn1-rs and the one of the crate agree. *)
Lemma asn1_skip_eq d i h : asn1_skip d i h = ber_skip_object_content d i h.
Proof. reflexivity. Qed.
Lemma asn1_get_content_eq d i h : asn1_get_content d i h = ber_get_object_content i h d.
Proof. reflexivity. Qed.

Definition eocb (h : header) : bool :=
  match h_length h with
  | Definite n => (n =? 0) && (h_tag h =? T_EndOfContent)
  | Indefinite => false
  end.

Lemma eocb_spec h : eocb h = true <-> ends_contents h.
Proof.
  unfold eocb, ends_contents, T_EndOfContent. destruct (h_length h) as [n|]; split.
  - intros H. split; [lia|f_equal; lia].
  - intros [H1 H2]. inv H2. lia.
  - discriminate.
  - intros [_ H]; discriminate.
Qed.

Lemma eocb_false h : eocb h = false <-> ~ ends_contents h.
Proof. rewrite <- eocb_spec. destruct (eocb h); split; congruence. Qed.

(** ** Structural facts, no hypothesis on the octets *)

Lemma skip_eoc d i h r e : ber_skip_object_content d i h = Ok (r, e) -> e = eocb h.
Proof.
  destruct d as [|d]; cbn [ber_skip_object_content]; [discriminate|]. unfold eocb.
  destruct (h_length h) as [n|].
  - destruct ((n =? 0) && (h_tag h =? T_EndOfContent)).
    + intros H; now inv H.
    + intros H. bind_inv H. destruct a. now inv H.
  - destruct (negb (h_constructed h)); [discriminate|].
    generalize (S (length i)) as fuel. intros fuel; revert i.
    induction fuel as [|fuel IH]; intros i; cbn [ber_skip_loop]; [discriminate|].
    intros H. bind_inv H. destruct a as [i2 h2]. bind_inv H. destruct a as [i3 eoc].
    destruct eoc; [now inv H|eauto].
Qed.

Lemma loop_false skip1 fuel : forall i r e, ber_skip_loop skip1 fuel i = Ok (r, e) -> e = false.
Proof.
  induction fuel as [|fuel IH]; intros i r e H; cbn [ber_skip_loop] in H; [discriminate|].
  bind_inv H. destruct a as [i2 h2]. bind_inv H. destruct a as [i3 eoc].
  destruct eoc; [now inv H|eauto].
Qed.

(** The remainder is a suffix. *)
Lemma loop_split skip1 fuel :
  (forall i h r e, skip1 i h = Ok (r, e) -> exists p, i = p ++ r) ->
  forall i r e, ber_skip_loop skip1 fuel i = Ok (r, e) ->
    exists p, i = p ++ r /\ (2 <= length p)%nat.
Proof.
  intros H1. induction fuel as [|fuel IH]; intros i r e H; cbn [ber_skip_loop] in H; [discriminate|].
  bind_inv H. destruct a as [i2 h2]. bind_inv H. destruct a as [i3 eoc].
  apply header_from_ber_consumes in E as (hb & -> & Hl).
  apply H1 in E0 as (p & ->).
  destruct eoc.
  - inv H. exists (hb ++ p). rewrite app_assoc, app_length. split; [reflexivity|lia].
  - apply IH in H as (q & -> & _). exists (hb ++ p ++ q).
    rewrite <- !app_assoc, !app_length. split; [reflexivity|lia].
Qed.

Lemma skip_split d : forall i h r e,
  ber_skip_object_content d i h = Ok (r, e) -> exists p, i = p ++ r.
Proof.
  induction d as [|d IH]; intros i h r e H; cbn [ber_skip_object_content] in H; [discriminate|].
  destruct (h_length h) as [n|].
  - destruct ((n =? 0) && (h_tag h =? T_EndOfContent)).
    + inv H. exists []. reflexivity.
    + bind_inv H. destruct a. inv H. apply take_streaming_ok in E as [-> _]. eauto.
  - destruct (negb (h_constructed h)); [discriminate|].
    apply loop_split in H as (p & Hp & _); eauto.
Qed.

(** No panic, no divergence. *)
Lemma loop_total skip1 :
  (forall i h, total (skip1 i h)) ->
  (forall i h r e, skip1 i h = Ok (r, e) -> exists p, i = p ++ r) ->
  forall fuel i, (length i < fuel)%nat -> total (ber_skip_loop skip1 fuel i).
Proof.
  intros Ht Hs. induction fuel as [|fuel IH]; intros i Hf; [lia|]. cbn [ber_skip_loop].
  apply total_bind; [apply header_from_ber_total|]. intros [i2 h2] E.
  apply header_from_ber_consumes in E as (hb & -> & Hl).
  apply total_bind; [apply Ht|]. intros [i3 eoc] E.
  apply Hs in E as (p & ->).
  destruct eoc; [auto with total|]. apply IH. rewrite !app_length in Hf. lia.
Qed.

Lemma skip_total d : forall i h, total (ber_skip_object_content d i h).
Proof.
  induction d as [|d IH]; intros i h; cbn [ber_skip_object_content]; [auto with total|].
  destruct (h_length h) as [n|].
  - destruct ((n =? 0) && (h_tag h =? T_EndOfContent)); [auto with total|].
    apply total_bind; [apply take_streaming_total|]. intros [r s] _. auto with total.
  - destruct (negb (h_constructed h)); [auto with total|].
    apply loop_total; [exact IH|apply skip_split|lia].
Qed.

(** Bytes after the content do not matter; a larger limit does not matter. *)
Lemma loop_app_mono skip1 skip2 x :
  (forall i h r e, skip1 i h = Ok (r, e) -> skip2 (i ++ x) h = Ok (r ++ x, e)) ->
  forall fuel fuel' i r e, (fuel <= fuel')%nat ->
    ber_skip_loop skip1 fuel i = Ok (r, e) ->
    ber_skip_loop skip2 fuel' (i ++ x) = Ok (r ++ x, e).
Proof.
  intros H1. induction fuel as [|fuel IH]; intros fuel' i r e Hf H; cbn [ber_skip_loop] in H;
    [discriminate|].
  destruct fuel' as [|fuel']; [lia|]. cbn [ber_skip_loop].
  bind_inv H. destruct a as [i2 h2]. unfold ber_read_element_header in *.
  rewrite (header_from_ber_app _ x _ _ E). cbn [bind].
  bind_inv H. destruct a as [i3 eoc]. rewrite (H1 _ _ _ _ E0). cbn [bind].
  destruct eoc; [now inv H|]. apply IH; [lia|assumption].
Qed.

Lemma skip_app_mono d : forall d' i x h r e, (d <= d')%nat ->
  ber_skip_object_content d i h = Ok (r, e) ->
  ber_skip_object_content d' (i ++ x) h = Ok (r ++ x, e).
Proof.
  induction d as [|d IH]; intros d' i x h r e Hd H; cbn [ber_skip_object_content] in H; [discriminate|].
  destruct d' as [|d']; [lia|]. cbn [ber_skip_object_content].
  destruct (h_length h) as [n|].
  - destruct ((n =? 0) && (h_tag h =? T_EndOfContent)); [now inv H|].
    bind_inv H. destruct a as [r' s]. rewrite (take_streaming_app _ _ x _ _ E). cbn [bind].
    now inv H.
  - destruct (negb (h_constructed h)); [discriminate|].
    eapply loop_app_mono; [|rewrite app_length; apply le_n_S, Nat.le_add_r|exact H].
    intros i' h' r' e'. apply IH. lia.
Qed.

Lemma skip_app d i x h r e :
  ber_skip_object_content d i h = Ok (r, e) ->
  ber_skip_object_content d (i ++ x) h = Ok (r ++ x, e).
Proof. now apply skip_app_mono. Qed.

Lemma skip_mono d d' i h r e : (d <= d')%nat ->
  ber_skip_object_content d i h = Ok (r, e) -> ber_skip_object_content d' i h = Ok (r, e).
Proof.
  intros Hd H. apply (skip_app_mono d d' i [] h r e Hd) in H. now rewrite !app_nil_r in H.
Qed.

(** [ber_get_object_content] in terms of the skipper. *)
Lemma get_content_inv d i h r c :
  ber_get_object_content i h d = Ok (r, c) ->
  exists b, i = b ++ r /\ c = content_octets h b
    /\ ber_skip_object_content d i h = Ok (r, eocb h)
    /\ (h_length h = Indefinite -> (2 <= length b)%nat).
Proof.
  unfold ber_get_object_content. intros H. bind_inv H. destruct a as [r0 e].
  pose proof (skip_eoc _ _ _ _ _ E) as ->.
  pose proof (skip_split _ _ _ _ _ E) as (b & ->).
  replace (length (b ++ r0) - length r0)%nat with (length b) in H by (rewrite app_length; lia).
  rewrite firstn_app_exact, skipn_app_exact in H.
  unfold content_octets. destruct (h_length h) as [n|] eqn:El.
  - inv H. exists c. repeat split; auto. discriminate.
  - destruct (length b <? 2)%nat eqn:E2; [discriminate|]. inv H.
    exists b. repeat split; auto. intros _. lia.
Qed.

Lemma get_content_intro d b h r :
  ber_skip_object_content d (b ++ r) h = Ok (r, eocb h) ->
  ber_get_object_content (b ++ r) h d = Ok (r, content_octets h b).
Proof.
  intros H. unfold ber_get_object_content. rewrite H. cbn [bind].
  replace (length (b ++ r) - length r)%nat with (length b) by (rewrite app_length; lia).
  rewrite firstn_app_exact, skipn_app_exact.
  unfold content_octets. destruct (h_length h) as [n|] eqn:El; [reflexivity|].
  destruct (length b <? 2)%nat eqn:E2; [exfalso|reflexivity].
  destruct d as [|d]; cbn [ber_skip_object_content] in H; [discriminate|].
  rewrite El in H. destruct (negb (h_constructed h)); [discriminate|].
  apply loop_split in H as (p & Hp & Hl); [|apply skip_split].
  apply app_inv_tail in Hp. subst. lia.
Qed.

Lemma get_content_total d i h : total (ber_get_object_content i h d).
Proof.
  unfold ber_get_object_content. apply total_bind; [apply skip_total|].
  intros [r e] E. destruct (h_length h) as [n|] eqn:El; [auto with total|].
  destruct (length (firstn (length i - length r) i) <? 2)%nat eqn:E2; [exfalso|auto with total].
  destruct d as [|d]; cbn [ber_skip_object_content] in E; [discriminate|].
  rewrite El in E. destruct (negb (h_constructed h)); [discriminate|].
  apply loop_split in E as (p & -> & Hl); [|apply skip_split].
  rewrite firstn_length, app_length in E2. lia.
Qed.

Lemma get_content_app_mono d d' i x h r c : (d <= d')%nat ->
  ber_get_object_content i h d = Ok (r, c) ->
  ber_get_object_content (i ++ x) h d' = Ok (r ++ x, c).
Proof.
  intros Hd H. apply get_content_inv in H as (b & -> & -> & H & _).
  apply (skip_app_mono d d' _ x _ _ _ Hd) in H. rewrite <- app_assoc in *.
  now apply get_content_intro.
Qed.

(** ** Soundness and completeness against [body] *)

Scheme body_mind := Induction for body Sort Prop
with until_eoc_mind := Induction for until_eoc Sort Prop.
Combined Scheme body_until_ind from body_mind, until_eoc_mind.

Lemma loop_sound d fuel :
  (forall i h r e, bytes_ok i -> ber_skip_object_content d i h = Ok (r, e) ->
     exists b, i = b ++ r /\ body d h b) ->
  forall i r e, bytes_ok i -> ber_skip_loop (ber_skip_object_content d) fuel i = Ok (r, e) ->
    exists b, i = b ++ r /\ until_eoc d b.
Proof.
  intros H1. induction fuel as [|fuel IH]; intros i r e Hok H; cbn [ber_skip_loop] in H; [discriminate|].
  bind_inv H. destruct a as [i2 h2].
  apply header_from_ber_sound in E as (hb & -> & Hh); [|assumption].
  apply bytes_ok_app in Hok as [_ Hok].
  bind_inv H. destruct a as [i3 eoc].
  pose proof (skip_eoc _ _ _ _ _ E) as ->.
  pose proof (H1 _ _ _ _ Hok E) as (b & -> & Hb).
  apply bytes_ok_app in Hok as [_ Hok].
  destruct (eocb h2) eqn:Ee.
  - inv H. apply eocb_spec in Ee.
    destruct d as [|d]; [discriminate|].
    exists hb. split; [|now apply (eoc_now d h2)].
    destruct Ee as [_ El]. inv Hb; [|congruence].
    assert (En : N.of_nat (length b) = 0) by congruence.
    destruct b; [reflexivity|cbn [length] in En; lia].
  - apply eocb_false in Ee.
    apply IH in H as (rest & -> & Hr); [|assumption].
    exists (hb ++ b ++ rest). rewrite <- !app_assoc. split; [reflexivity|].
    now apply (eoc_later d h2).
Qed.

Lemma skip_sound d : forall i h r e, bytes_ok i ->
  ber_skip_object_content d i h = Ok (r, e) -> exists b, i = b ++ r /\ body d h b.
Proof.
  induction d as [|d IH]; intros i h r e Hok H; cbn [ber_skip_object_content] in H; [discriminate|].
  destruct (h_length h) as [n|] eqn:El.
  - destruct ((n =? 0) && (h_tag h =? T_EndOfContent)) eqn:Ee.
    + inv H. exists []. split; [reflexivity|]. eapply body_definite; eauto.
      cbn. lia.
    + bind_inv H. destruct a. inv H. apply take_streaming_ok in E as [-> E].
      exists b0. split; [reflexivity|]. eapply body_definite; eauto.
  - destruct (h_constructed h) eqn:Ec; cbn [negb] in H; [|discriminate].
    apply loop_sound in H as (b & -> & Hb); [|exact IH|assumption].
    exists b. split; [reflexivity|]. now apply body_indefinite.
Qed.

Lemma header_octets_len h hb : header_octets h hb -> (2 <= length hb)%nat.
Proof.
  intros (ib & lb & -> & Hi & Hl & _). rewrite app_length.
  inv Hi; inv Hl; cbn [length]; lia.
Qed.

Lemma body_complete_mut :
  (forall d h b, body d h b -> forall x,
     ber_skip_object_content d (b ++ x) h = Ok (x, eocb h))
  /\ (forall d b, until_eoc d b -> forall fuel x, (length b < fuel)%nat ->
     ber_skip_loop (ber_skip_object_content d) fuel (b ++ x) = Ok (x, false)).
Proof.
  apply body_until_ind.
  - intros d h n bs El En x. cbn [ber_skip_object_content]. rewrite El. unfold eocb. rewrite El.
    destruct ((n =? 0) && (h_tag h =? T_EndOfContent)) eqn:Ee.
    + assert (bs = []) by (destruct bs; [reflexivity|cbn [length] in En; lia]). now subst.
    + assert (Ht : take_streaming (E := berror) n (bs ++ x) = Ok (x, bs))
        by (apply take_streaming_ok; auto).
      now rewrite Ht.
  - intros d h bs El Ec Hu IH x. cbn [ber_skip_object_content]. rewrite El, Ec. cbn [negb].
    unfold eocb. rewrite El. apply IH. rewrite app_length. lia.
  - intros d h hb Hh He fuel x Hf. destruct fuel as [|fuel]; [lia|]. cbn [ber_skip_loop].
    unfold ber_read_element_header. rewrite (header_from_ber_complete _ _ _ Hh). cbn [bind].
    cbn [ber_skip_object_content]. destruct He as [Ht El]. rewrite El, Ht. reflexivity.
  - intros d h hb b rest Hh He Hb IHb Hr IHr fuel x Hf.
    destruct fuel as [|fuel]; [lia|]. cbn [ber_skip_loop].
    unfold ber_read_element_header. rewrite <- app_assoc, (header_from_ber_complete _ _ _ Hh). cbn [bind].
    rewrite <- app_assoc, IHb. cbn [bind]. apply eocb_false in He. rewrite He.
    apply IHr. rewrite !app_length in Hf. pose proof (header_octets_len _ _ Hh). lia.
Qed.

Lemma skip_complete d h b x :
  body d h b -> ber_skip_object_content d (b ++ x) h = Ok (x, eocb h).
Proof. intros H. now apply body_complete_mut. Qed.

Lemma get_content_sound d i h r c : bytes_ok i ->
  ber_get_object_content i h d = Ok (r, c) ->
  exists b, i = b ++ r /\ body d h b /\ c = content_octets h b.
Proof.
  intros Hok H. apply get_content_inv in H as (b & -> & -> & H & _).
  apply skip_sound in H as (b' & Eb & Hb); [|assumption].
  apply app_inv_tail in Eb. subst b'. eauto.
Qed.

Lemma get_content_complete d h b x :
  body d h b -> ber_get_object_content (b ++ x) h d = Ok (x, content_octets h b).
Proof. intros H. apply get_content_intro. now apply skip_complete. Qed.

(** ** [Any::from_ber] *)

Lemma any_from_ber_sound i r a : bytes_ok i -> any_from_ber i = Ok (r, a) ->
  exists bs, i = bs ++ r /\ element ASN1_MAX_RECURSION (a_header a) (a_data a) bs.
Proof.
  intros Hok H. unfold any_from_ber in H. bind_inv H. destruct a0 as [i1 h].
  apply header_from_ber_sound in E as (hb & -> & Hh); [|assumption].
  apply bytes_ok_app in Hok as [_ Hok].
  bind_inv H. destruct a0 as [i2 data]. inv H. rewrite asn1_get_content_eq in E.
  apply get_content_sound in E as (b & -> & Hb & ->); [|assumption].
  exists (hb ++ b). rewrite app_assoc. split; [reflexivity|].
  exists hb, b. auto.
Qed.

Lemma any_from_ber_complete h c bs x :
  element ASN1_MAX_RECURSION h c bs -> any_from_ber (bs ++ x) = Ok (x, mkAny h c).
Proof.
  intros (hb & b & -> & Hh & Hb & ->). unfold any_from_ber.
  rewrite <- app_assoc, (header_from_ber_complete _ _ _ Hh). cbn [bind].
  rewrite asn1_get_content_eq, (get_content_complete _ _ _ _ Hb). reflexivity.
Qed.

Lemma any_from_ber_total i : total (any_from_ber i).
Proof.
  unfold any_from_ber. apply total_bind; [apply header_from_ber_total|]. intros [i1 h] _.
  rewrite asn1_get_content_eq.
  apply total_bind; [apply get_content_total|]. intros [i2 data] _. auto with total.
Qed.

Lemma any_from_ber_app i x r a :
  any_from_ber i = Ok (r, a) -> any_from_ber (i ++ x) = Ok (r ++ x, a).
Proof.
  unfold any_from_ber. intros H. bind_inv H. destruct a0 as [i1 h].
  rewrite (header_from_ber_app _ x _ _ E). cbn [bind].
  bind_inv H. destruct a0 as [i2 data]. rewrite asn1_get_content_eq in *.
  rewrite (get_content_app_mono _ _ _ x _ _ _ (le_n _) E0). cbn [bind]. now inv H.
Qed.

(** What was read: header octets, then a body; no hypothesis on the octets. *)
Lemma any_from_ber_split i r a :
  any_from_ber i = Ok (r, a) ->
  exists hb b, i = hb ++ b ++ r /\ (2 <= length hb)%nat
    /\ header_from_ber i = Ok (b ++ r, a_header a)
    /\ a_data a = content_octets (a_header a) b
    /\ ber_skip_object_content ASN1_MAX_RECURSION (b ++ r) (a_header a) = Ok (r, eocb (a_header a)).
Proof.
  unfold any_from_ber. intros H. bind_inv H. destruct a0 as [i1 h].
  bind_inv H. destruct a0 as [i2 data]. inv H. rewrite asn1_get_content_eq in E0.
  apply get_content_inv in E0 as (b & -> & -> & Hs & _).
  pose proof (header_from_ber_consumes _ _ _ E) as (hb & -> & Hl).
  exists hb, b. cbn [a_header a_data]. auto.
Qed.

Lemma any_from_der_ber i r a : any_from_der i = Ok (r, a) -> any_from_ber i = Ok (r, a).
Proof.
  unfold any_from_der, any_from_ber. intros H. bind_inv H. destruct a0 as [i1 h].
  apply header_from_der_ber in E as [E [n El]]. rewrite E. cbn [bind].
  bind_inv H. rewrite El in E0. inv E0. bind_inv H. destruct a1 as [i2 data]. inv H.
  apply take_streaming_ok in E0 as [-> En].
  rewrite asn1_get_content_eq.
  assert (Hb : body ASN1_MAX_RECURSION h data) by (eapply body_definite; eauto).
  rewrite (get_content_complete _ _ _ _ Hb). unfold content_octets. now rewrite El.
Qed.

Lemma any_from_der_total i : total (any_from_der i).
Proof.
  unfold any_from_der. apply total_bind; [apply header_from_der_total|]. intros [i1 h] _.
  apply total_bind.
  - apply total_map_err. destruct (h_length h); cbn; auto with total.
  - intros n _. apply total_bind; [apply take_streaming_total|]. intros [i2 d] _. auto with total.
Qed.
#[export] Hint Resolve any_from_ber_total any_from_der_total get_content_total skip_total : total.
