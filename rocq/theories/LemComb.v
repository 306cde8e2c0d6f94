(** * Lemmas about the combinators. *)

From Verif Require Import Base Asn1rs Ber Der Combinators Spec SpecComb
  LemBase LemHeader LemSkip LemParse LemDer.

Lemma returns_total {E A} (r : res E A) : returns r <-> total r.
Proof.
  unfold returns, total. destruct r; split; intros H; try (split; discriminate); eauto.
  - destruct H as [[? H]|[? H]]; discriminate.
  - destruct H; congruence.
  - destruct H as [[? H]|[? H]]; discriminate.
  - destruct H; congruence.
Qed.

Lemma take_complete_ok {E} (ops : err_ops E) l i r s :
  take_complete ops l i = Ok (r, s) <-> i = s ++ r /\ nlen s = l.
Proof.
  unfold take_complete. rewrite <- (take_streaming_ok (E := E)). unfold take_streaming.
  destruct (nlen i <? l); [split; discriminate|tauto].
Qed.

Lemma take_complete_total {E} (ops : err_ops E) l i : total (take_complete ops l i).
Proof. unfold take_complete. destruct (nlen i <? l); auto with total. Qed.

(** ** BER containers *)

Lemma ber_container_complete {E A} (ops : err_ops E) (f : bytes -> header -> iresult E A) h c bs r :
  element 50 h c bs ->
  parse_ber_container ops f (bs ++ r) = (let* (_, v) := f c h in Ok (r, v)).
Proof.
  intros (hb & b & -> & Hh & Hb & ->). unfold parse_ber_container, ber_read_element_header.
  rewrite <- app_assoc. rewrite (header_from_ber_complete _ _ _ Hh). cbn [map_err bind].
  destruct (h_length h) as [n|] eqn:El.
  - assert (H : take_complete ops n (b ++ r) = Ok (r, b)).
    { apply take_complete_ok. split; [reflexivity|]. inv Hb; [unfold nlen; congruence|congruence]. }
    rewrite H. cbn [bind]. unfold content_octets. rewrite El. reflexivity.
  - change MAX_RECURSION with 50%nat.
    rewrite (get_content_complete _ _ _ _ Hb). reflexivity.
Qed.

Lemma ber_container_sound {E A} (ops : err_ops E) (f : bytes -> header -> iresult E A) i :
  bytes_ok i ->
  (exists h c bs r, i = bs ++ r /\ element 50 h c bs)
  \/ exists e, forall g : bytes -> header -> iresult E A, parse_ber_container ops g i = Err e.
Proof.
  intros Hok. unfold parse_ber_container, ber_read_element_header.
  destruct (header_from_ber_total i) as [Hp Hd].
  destruct (header_from_ber i) as [[i1 h]|e| |] eqn:E1; try congruence.
  2:{ right. eexists. intros g. reflexivity. }
  cbn [map_err bind].
  apply header_from_ber_sound in E1 as (hb & -> & Hh); [|assumption].
  apply bytes_ok_app in Hok as [_ Hok].
  destruct (h_length h) as [n|] eqn:El.
  - destruct (take_complete_total ops n i1) as [Hp' Hd'].
    destruct (take_complete ops n i1) as [[r b]|e| |] eqn:E2; try congruence.
    2:{ right. eexists. intros g. reflexivity. }
    left. apply take_complete_ok in E2 as [-> Hn]. exists h, b, (hb ++ b), r.
    split; [now rewrite app_assoc|]. exists hb, b. repeat split; auto.
    + eapply body_definite; eauto.
    + unfold content_octets. now rewrite El.
  - destruct (get_content_total MAX_RECURSION i1 h) as [Hp' Hd'].
    destruct (ber_get_object_content i1 h MAX_RECURSION) as [[r c]|e| |] eqn:E2; try congruence.
    2:{ right. eexists. intros g. reflexivity. }
    left. apply get_content_sound in E2 as (b & -> & Hb & ->); [|assumption].
    exists h, (content_octets h b), (hb ++ b), r. split; [now rewrite app_assoc|].
    exists hb, b. auto.
Qed.

Lemma ber_container_iff {E A} (ops : err_ops E) (f : bytes -> header -> iresult E A) i r v :
  bytes_ok i ->
  (parse_ber_container ops f i = Ok (r, v)
   <-> exists h c bs u, i = bs ++ r /\ element 50 h c bs /\ f c h = Ok (u, v)).
Proof.
  intros Hok. split.
  - intros H. destruct (ber_container_sound ops f i Hok) as [(h & c & bs & r' & -> & He)|(e & He)].
    + rewrite (ber_container_complete ops f _ _ _ r' He) in H.
      bind_inv H. destruct a as [u v']. inv H. exists h, c, bs, u. auto.
    + rewrite He in H. discriminate.
  - intros (h & c & bs & u & -> & He & Hf). rewrite (ber_container_complete ops f _ _ _ r He), Hf.
    reflexivity.
Qed.

(** Totality needs no assumption on the octets. *)
Lemma ber_container_total {E A} (ops : err_ops E) (f : bytes -> header -> iresult E A) i :
  (forall c h, total (f c h)) -> total (parse_ber_container ops f i).
Proof.
  intros Hf. unfold parse_ber_container, ber_read_element_header.
  apply total_bind; [apply total_map_err, header_from_ber_total|]. intros [i1 h] _.
  apply total_bind.
  - destruct (h_length h); [apply take_complete_total|apply total_map_err, get_content_total].
  - intros [i2 data] _. apply total_bind; [apply Hf|]. intros [] _. auto with total.
Qed.

(** ** DER containers *)

Lemma definite_is_element h c bs D : definite_element h c bs -> element (S D) h c bs.
Proof.
  intros (hb & -> & Hh & Hl). exists hb, c. repeat split; auto.
  - eapply body_definite; eauto.
  - unfold content_octets. now rewrite Hl.
Qed.

Lemma der_container_complete {E A} (ops : err_ops E) (f : bytes -> header -> iresult E A) h c bs r :
  definite_element h c bs ->
  parse_der_container ops f (bs ++ r) = (let* (_, v) := f c h in Ok (r, v)).
Proof.
  intros (hb & -> & Hh & Hl). unfold parse_der_container, der_read_element_header.
  rewrite <- app_assoc. rewrite (header_from_der_complete _ _ _ Hh) by congruence.
  cbn [map_err bind]. rewrite Hl.
  assert (H : take_complete ops (N.of_nat (length c)) (c ++ r) = Ok (r, c))
    by (apply take_complete_ok; auto).
  now rewrite H.
Qed.

Lemma der_container_sound {E A} (ops : err_ops E) (f : bytes -> header -> iresult E A) i :
  bytes_ok i ->
  (exists h c bs r, i = bs ++ r /\ definite_element h c bs)
  \/ exists e, forall g : bytes -> header -> iresult E A, parse_der_container ops g i = Err e.
Proof.
  intros Hok. unfold parse_der_container, der_read_element_header.
  destruct (header_from_der_total i) as [Hp Hd].
  destruct (header_from_der i) as [[i1 h]|e| |] eqn:E1; try congruence.
  2:{ right. eexists. intros g. reflexivity. }
  cbn [map_err bind].
  apply header_from_der_ber in E1 as [E1 [n El]].
  apply header_from_ber_sound in E1 as (hb & -> & Hh); [|assumption].
  rewrite El.
  destruct (take_complete_total ops n i1) as [Hp' Hd'].
  destruct (take_complete ops n i1) as [[r b]|e| |] eqn:E2; try congruence.
  2:{ right. eexists. intros g. reflexivity. }
  left. apply take_complete_ok in E2 as [-> Hn]. exists h, b, (hb ++ b), r.
  split; [now rewrite app_assoc|]. exists hb. repeat split; auto. now rewrite El, <- Hn.
Qed.

Lemma der_container_iff {E A} (ops : err_ops E) (f : bytes -> header -> iresult E A) i r v :
  bytes_ok i ->
  (parse_der_container ops f i = Ok (r, v)
   <-> exists h c bs u, i = bs ++ r /\ definite_element h c bs /\ f c h = Ok (u, v)).
Proof.
  intros Hok. split.
  - intros H. destruct (der_container_sound ops f i Hok) as [(h & c & bs & r' & -> & He)|(e & He)].
    + rewrite (der_container_complete ops f _ _ _ r' He) in H.
      bind_inv H. destruct a as [u v']. inv H. exists h, c, bs, u. auto.
    + rewrite He in H. discriminate.
  - intros (h & c & bs & u & -> & He & Hf). rewrite (der_container_complete ops f _ _ _ r He), Hf.
    reflexivity.
Qed.

Lemma der_container_total {E A} (ops : err_ops E) (f : bytes -> header -> iresult E A) i :
  (forall c h, total (f c h)) -> total (parse_der_container ops f i).
Proof.
  intros Hf. unfold parse_der_container, der_read_element_header.
  apply total_bind; [apply total_map_err, header_from_der_total|]. intros [i1 h] _.
  apply total_bind.
  - destruct (h_length h); [apply take_complete_total|auto with total].
  - intros [i2 data] _. apply total_bind; [apply Hf|]. intros [] _. auto with total.
Qed.

(** ** SEQUENCE OF / SET OF *)

Section Of.
Context {E A : Type} (ops : err_ops E) (f : bytes -> iresult E A).

(** One step of the element loop. *)
Lemma cc_ok i r v : nom_complete ops (nom_cut f) i = Ok (r, v) <-> f i = Ok (r, v).
Proof.
  unfold nom_complete, nom_cut. destruct (f i) as [a|[]| |]; cbn [map_err]; split; intros H; congruence.
Qed.

Lemma many0_sound : nom_parser f ->
  forall fuel acc i r vs, nom_many0_loop ops (nom_complete ops (nom_cut f)) fuel acc i = Ok (r, vs) ->
  exists ws n, vs = rev acc ++ ws /\ f r = Err (Incomplete n)
    /\ (r = [] -> splits f i ws) .
Proof.
  intros Hf. induction fuel as [|fuel IH]; intros acc i r vs H; [discriminate|].
  cbn [nom_many0_loop] in H.
  destruct (f i) as [[i1 o]|e| |] eqn:Ef.
  - rewrite (proj2 (cc_ok i i1 o) Ef) in H.
    destruct (length i1 =? length i)%nat eqn:El; [discriminate|].
    destruct (IH _ _ _ _ H) as (ws & n & -> & Hr & Hs).
    exists (o :: ws), n. cbn [rev]. rewrite <- app_assoc. split; [reflexivity|]. split; [exact Hr|].
    intros E0. destruct (Hf _ _ _ Ef) as [p ->]. apply Nat.eqb_neq in El.
    constructor; auto. intros ->. now apply El.
  - unfold nom_complete, nom_cut in H. rewrite Ef in H. cbn [map_err] in H.
    destruct e; try discriminate. inv H. exists [], needed. rewrite app_nil_r.
    split; [reflexivity|]. split; [exact Ef|]. intros ->. constructor.
  - unfold nom_complete, nom_cut in H. rewrite Ef in H. discriminate.
  - unfold nom_complete, nom_cut in H. rewrite Ef in H. discriminate.
Qed.

Lemma many0_complete n : f [] = Err (Incomplete n) ->
  forall c vs, splits f c vs -> forall fuel acc, (length c < fuel)%nat ->
  nom_many0_loop ops (nom_complete ops (nom_cut f)) fuel acc c = Ok ([], rev acc ++ vs).
Proof.
  intros Hn. induction 1 as [|p rest v vs Hp Hf Hs IH]; intros fuel acc Hfuel.
  - destruct fuel as [|fuel]; [cbn in Hfuel; lia|]. cbn [nom_many0_loop].
    unfold nom_complete, nom_cut. rewrite Hn. cbn [map_err]. now rewrite app_nil_r.
  - destruct fuel as [|fuel]; [cbn in Hfuel; lia|]. cbn [nom_many0_loop].
    rewrite (proj2 (cc_ok _ _ _) Hf).
    assert (0 < length p)%nat by (destruct p; [congruence|cbn; lia]).
    rewrite app_length in *.
    replace (length rest =? length p + length rest)%nat with false by (symmetry; apply Nat.eqb_neq; lia).
    rewrite IH by lia. cbn [rev]. now rewrite <- app_assoc.
Qed.

Lemma of_subparser_iff c vs r : nom_parser f ->
  (of_subparser ops f c = Ok (r, vs)
   <-> r = [] /\ (exists n, f [] = Err (Incomplete n)) /\ splits f c vs).
Proof.
  intros Hf. unfold of_subparser, nom_all_consuming, nom_many0. split.
  - intros H. bind_inv H. destruct a as [r' vs']. destruct r'; [|discriminate]. inv H.
    destruct (many0_sound Hf _ _ _ _ _ E0) as (ws & n & -> & Hr & Hs). cbn [rev app].
    split; [reflexivity|]. split; [eauto|auto].
  - intros (-> & [n Hn] & Hs). rewrite (many0_complete _ Hn _ _ Hs) by lia. reflexivity.
Qed.

Lemma many0_total : (forall i, total (f i)) -> nom_parser f ->
  forall fuel acc i, (length i < fuel)%nat ->
  total (nom_many0_loop ops (nom_complete ops (nom_cut f)) fuel acc i).
Proof.
  intros Ht Hf. induction fuel as [|fuel IH]; intros acc i Hlt; [lia|]. cbn [nom_many0_loop].
  destruct (Ht i) as [Hp Hd].
  destruct (f i) as [[i1 o]|e| |] eqn:Ef; try congruence.
  - rewrite (proj2 (cc_ok i i1 o) Ef). destruct (length i1 =? length i)%nat eqn:El; [auto with total|].
    apply IH. destruct (Hf _ _ _ Ef) as [p ->]. rewrite app_length in *. apply Nat.eqb_neq in El. lia.
  - unfold nom_complete, nom_cut. rewrite Ef. cbn [map_err]. destruct e; auto with total.
Qed.

Lemma of_subparser_total c : (forall i, total (f i)) -> nom_parser f -> total (of_subparser ops f c).
Proof.
  intros Ht Hf. unfold of_subparser, nom_all_consuming, nom_many0.
  apply total_bind; [apply many0_total; auto; lia|]. intros [[|b r] vs] _; auto with total.
Qed.

(** The first failing element decides. *)
Lemma many0_error c c' : reaches f c c' ->
  forall fuel acc, (length c < fuel)%nat ->
  exists acc' fuel', (length c' < fuel')%nat /\
  nom_many0_loop ops (nom_complete ops (nom_cut f)) fuel acc c
  = nom_many0_loop ops (nom_complete ops (nom_cut f)) fuel' acc' c'.
Proof.
  induction 1 as [c|p rest v c' Hp Hf Hr IH]; intros fuel acc Hlt; [eauto|].
  destruct fuel as [|fuel]; [lia|]. cbn [nom_many0_loop].
  rewrite (proj2 (cc_ok _ _ _) Hf).
  assert (0 < length p)%nat by (destruct p; [congruence|cbn; lia]).
  rewrite app_length in *.
  replace (length rest =? length p + length rest)%nat with false by (symmetry; apply Nat.eqb_neq; lia).
  apply IH. lia.
Qed.

Lemma of_subparser_error c c' : reaches f c c' ->
  (forall e, f c' = Err (Error e) -> of_subparser ops f c = Err (Failure e))
  /\ (forall e, f c' = Err (Failure e) -> of_subparser ops f c = Err (Failure e))
  /\ (forall n, f c' = Err (Incomplete n) -> c' <> [] ->
        of_subparser ops f c = Err (Error (from_error_kind ops c' EkEof))).
Proof.
  intros Hr. unfold of_subparser, nom_all_consuming, nom_many0.
  destruct (many0_error _ _ Hr (S (length c)) []) as (acc & fuel & Hl & ->); [lia|].
  destruct fuel as [|fuel]; [lia|]. cbn [nom_many0_loop].
  unfold nom_complete, nom_cut.
  split; [|split]; intros e He; rewrite He; cbn [map_err bind]; auto.
  intros Hc. destruct c'; [congruence|reflexivity].
Qed.

End Of.
