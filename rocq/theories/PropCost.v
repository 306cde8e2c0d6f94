(** * Property C79: the number of headers read is linear in the input. *)

From Coq Require Import String.
From Verif Require Import Base Asn1rs Ber Der Cost Spec SpecValue
  LemBase LemHeader LemSkip LemParse LemTree Conformance PropFraming.
Local Open Scope string_scope.
Local Open Scope N_scope.
Local Open Scope list_scope.

(** ** Counting does not change the result *)

Lemma snd_cbind {E A B} (x : nat * res E A) (k : A -> nat * res E B) :
  snd (cbind x k) = bind (snd x) (fun a => snd (k a)).
Proof. destruct x as [n [a| | |]]; cbn; try reflexivity. destruct (k a). reflexivity. Qed.

Lemma snd_cmap_err {E F A} (f : E -> F) (x : nat * res E A) : snd (cmap_err f x) = map_err f (snd x).
Proof. destruct x. reflexivity. Qed.

Lemma bind_ext {E A B} (x : res E A) (k k' : A -> res E B) :
  (forall a, k a = k' a) -> bind x k = bind x k'.
Proof. intros H. destruct x; cbn; auto. Qed.

Lemma same_skip d : forall i h, snd (t_skip d i h) = ber_skip_object_content d i h.
Proof.
  induction d as [|d IH]; intros i h; cbn [t_skip ber_skip_object_content]; [reflexivity|].
  destruct (h_length h) as [n|]; [destruct ((n =? 0) && (h_tag h =? T_EndOfContent)); reflexivity|].
  destruct (negb (h_constructed h)); [reflexivity|].
  generalize (S (length i)). intros fuel. revert i. induction fuel as [|fuel IHf]; intros i; [reflexivity|].
  cbn [t_skip_loop ber_skip_loop]. rewrite snd_cbind. unfold t_header. cbn [snd].
  apply bind_ext. intros [i2 h2]. rewrite snd_cbind, IH. apply bind_ext. intros [i3 [|]]; [reflexivity|apply IHf].
Qed.

Lemma same_get_content i h d : snd (t_get_content i h d) = ber_get_object_content i h d.
Proof.
  unfold t_get_content, ber_get_object_content. rewrite snd_cbind, same_skip.
  apply bind_ext. intros [r e]. reflexivity.
Qed.

Lemma same_any i : snd (t_any_from_ber i) = any_from_ber i.
Proof.
  unfold t_any_from_ber, any_from_ber, t_header. rewrite snd_cbind. cbn [snd]. apply bind_ext. intros [i1 h].
  rewrite snd_cbind, same_get_content, asn1_get_content_eq. apply bind_ext. intros [i2 data]. reflexivity.
Qed.

Lemma same_iter conv conv' : (forall a, snd (conv a) = conv' a) ->
  forall fuel data, snd (t_iter_collect conv fuel data) = iter_collect conv' fuel data.
Proof.
  intros Hc. induction fuel as [|fuel IH]; intros [|b data]; cbn [t_iter_collect iter_collect]; try reflexivity.
  rewrite snd_cbind, snd_cmap_err, same_any. apply bind_ext. intros [r a].
  rewrite snd_cbind, Hc. apply bind_ext. intros o. rewrite snd_cbind, IH. reflexivity.
Qed.

Lemma same_conv L d : forall a, snd (t_berobject_from_any L d a) = try_berobject_from_any L d a.
Proof.
  induction d as [|d IH]; intros a; [reflexivity|].
  cbn [t_berobject_from_any]. destruct (negb (class_eqb (h_class (a_header a)) Universal)) eqn:Ec; [reflexivity|].
  destruct (utag_of (h_tag (a_header a))) eqn:Et; try reflexivity;
    cbn [try_berobject_from_any]; rewrite Ec, Et, snd_cbind; cbn [snd]; apply bind_ext; intros _;
    rewrite snd_cbind, (same_iter _ _ IH); reflexivity.
Qed.

Lemma same_content_as L i t l c d : snd (t_content_as L i t l c d) = ber_read_element_content_as L i t l c d.
Proof.
  unfold t_content_as, ber_read_element_content_as, try_read_berobjectcontent_as. cbv zeta.
  assert (E : forall h, snd (cbind (t_get_content i h d) (fun rd => let (r, data) := rd in
        cbind (cmap_err nerr_of_err (t_berobject_from_any L d (mkAny h data))) (fun o =>
        (O, Ok (r, o_content o)))))
      = (let* (r, data) := ber_get_object_content i h d in
           let* o := map_err nerr_of_err (try_berobject_from_any L d (mkAny h data)) in
           Ok (r, o_content o))).
  { intros h. rewrite snd_cbind, same_get_content. apply bind_ext. intros [r data].
    rewrite snd_cbind, snd_cmap_err, same_conv. reflexivity. }
  destruct l as [n|]; [|apply E]. destruct (MAX_OBJECT_SIZE <? n); [reflexivity|].
  destruct (nlen i <? n); [reflexivity|]. apply E.
Qed.

Lemma same_der_content_as L i t l c d :
  snd (t_der_content_as L i t l c d) = der_read_element_content_as L i t l c d.
Proof.
  unfold t_der_content_as, der_read_element_content_as. rewrite snd_cbind. cbn [snd]. apply bind_ext. intros n.
  destruct (nlen i <? n); [reflexivity|]. rewrite <- same_content_as.
  destruct (utag_of t); try reflexivity;
    repeat first [reflexivity | match goal with |- context[match ?x with _ => _ end] => destruct x end].
Qed.

Lemma same_der_content_recursive L i h d :
  snd (t_der_content_recursive L i h d) = der_read_element_content_recursive L i h d.
Proof.
  unfold t_der_content_recursive, der_read_element_content_recursive. cbv zeta.
  assert (E : snd (cbind (t_get_content i h d) (fun rd => let (r, data) := rd in
      (O, @Ok (nerr berror) (bytes * obj) (r, Obj h (CUnknown (mkAny h data))))))
    = (let* (r, data) := ber_get_object_content i h d in Ok (r, Obj h (CUnknown (mkAny h data))))).
  { rewrite snd_cbind, same_get_content. apply bind_ext. intros [r data]. reflexivity. }
  destruct (h_class h); try exact E. rewrite <- E, <- same_der_content_as.
  destruct (t_der_content_as _ _ _ _ _ _) as [n [[r c]|e| |]]; try reflexivity. cbn [snd].
  destruct e as [k|e|e]; try reflexivity. destruct e; try reflexivity.
  destruct (cbind _ _). reflexivity.
Qed.

(** The counted functions give the results of the functions of the model. *)
Theorem C79_same : forall L i d t,
  snd (t_parse_ber_recursive L i d) = parse_ber_recursive L i d
  /\ snd (t_parse_ber_with_tag L i t) = parse_ber_with_tag L i t
  /\ snd (t_parse_der_recursive L i d) = parse_der_recursive L i d
  /\ snd (t_parse_der_with_tag L i t) = parse_der_with_tag L i t.
Proof.
  intros L i d t. split; [|split; [|split]].
  - unfold t_parse_ber_recursive, parse_ber_recursive, parse_ber_any_r. destruct (d =? 0)%nat; [reflexivity|].
    rewrite snd_cbind, same_any. apply bind_ext. intros [r a]. rewrite snd_cbind, snd_cmap_err, same_conv. reflexivity.
  - unfold t_parse_ber_with_tag, parse_ber_with_tag. rewrite snd_cbind. apply bind_ext. intros [i1 h].
    rewrite snd_cbind. apply bind_ext. intros _. rewrite snd_cbind, same_content_as. apply bind_ext.
    intros [i2 c]. reflexivity.
  - unfold t_parse_der_recursive, parse_der_recursive. rewrite snd_cbind. apply bind_ext. intros [i1 h].
    destruct (h_length h) as [n|]; [destruct (MAX_OBJECT_SIZE <? n); [reflexivity|]|];
      apply same_der_content_recursive.
  - unfold t_parse_der_with_tag, parse_der_with_tag. rewrite snd_cbind. apply bind_ext. intros [i1 h].
    rewrite snd_cbind. apply bind_ext. intros _. rewrite snd_cbind, same_der_content_as. apply bind_ext.
    intros [i2 c]. reflexivity.
Qed.
Print Assumptions C79_same.

(** ** The bound *)

(** [m] octets were there; [w] says how many are left on success; two are used up by
    every header, but for the one that could not be read. *)
Definition fits {E A} (m : nat) (w : A -> nat) (x : nat * res E A) : Prop :=
  match snd x with
  | Ok a => (2 * fst x + w a <= m)%nat
  | _ => (2 * fst x <= m + 2)%nat
  end.

Lemma fits_bind {E A B} m (w : A -> nat) (w' : B -> nat) (x : nat * res E A) (k : A -> nat * res E B) :
  fits m w x -> (forall a, snd x = Ok a -> fits (w a) w' (k a)) -> fits m w' (cbind x k).
Proof.
  intros Hx Hk. destruct x as [n [a| | |]]; unfold fits in *; cbn [fst snd cbind] in *; auto.
  specialize (Hk a eq_refl). destruct (k a) as [n' v]. cbn [fst snd] in *. destruct v; lia.
Qed.

Lemma fits_header i : fits (length i) (fun rh => length (fst rh)) (t_header i).
Proof.
  unfold fits, t_header. cbn [fst snd]. destruct (header_from_ber i) as [[r h]| | |] eqn:E; cbn [fst]; try lia.
  apply header_from_ber_split in E as (raw & lb & -> & _ & H1 & H2). rewrite !app_length. lia.
Qed.

Lemma fits_skip d : forall i h, fits (length i) (fun re => length (fst re)) (t_skip d i h).
Proof.
  induction d as [|d IH]; intros i h; cbn [t_skip]; [unfold fits; cbn; lia|].
  destruct (h_length h) as [n|].
  - destruct ((n =? 0) && (h_tag h =? T_EndOfContent)); [unfold fits; cbn; lia|].
    unfold fits. cbn [fst snd]. destruct (take_streaming n i) as [[r x]| | |] eqn:E; cbn [bind fst]; try lia.
    apply take_streaming_ok in E as [-> _]. rewrite app_length. lia.
  - destruct (negb (h_constructed h)); [unfold fits; cbn; lia|].
    generalize (S (length i)). intros fuel. revert i. induction fuel as [|fuel IHf]; intros i;
      cbn [t_skip_loop]; [unfold fits; cbn; lia|].
    eapply fits_bind; [apply fits_header|]. intros [i2 h2] _. cbn [fst].
    eapply fits_bind; [apply IH|]. intros [i3 [|]] _; cbn [fst]; [unfold fits; cbn; lia|apply IHf].
Qed.

Lemma fits_get_content i h d :
  fits (length i) (fun rc => length (fst rc)) (t_get_content i h d).
Proof.
  unfold t_get_content. eapply fits_bind; [apply fits_skip|]. intros [r e] E. cbn [fst].
  rewrite same_skip in E. apply skip_split in E as (p & ->).
  rewrite !app_length, Nat.add_sub, skipn_app_exact.
  unfold fits. cbn [fst snd]. destruct (h_length h); cbn [fst]; try lia.
  destruct (_ <? 2)%nat; cbn [fst]; lia.
Qed.

Lemma fits_any i : fits (length i) (fun ra => length (fst ra)) (t_any_from_ber i).
Proof.
  unfold t_any_from_ber. eapply fits_bind; [apply fits_header|]. intros [i1 h] _. cbn [fst].
  eapply fits_bind; [apply fits_get_content|]. intros [i2 data] _. unfold fits. cbn. lia.
Qed.

Lemma any_data_length i r a : any_from_ber i = Ok (r, a) ->
  (length (a_data a) + 2 + length r <= length i)%nat.
Proof.
  intros H. apply any_from_ber_split in H as (hb & b & -> & Hl & _ & -> & _).
  unfold content_octets. destruct (h_length (a_header a)); rewrite ?firstn_length, !app_length; lia.
Qed.

(** Decoding contents of [m] octets with limit [d]. *)
Definition conv_fits {A} (d m : nat) (x : nat * res berror A) : Prop :=
  match snd x with
  | Ok _ => (1 <= d)%nat /\ (2 * fst x + m <= d * m)%nat
  | _ => (2 * fst x <= d * m + 2)%nat
  end.

Lemma fits_iter d conv : (forall a, conv_fits d (length (a_data a)) (conv a)) ->
  forall fuel data,
    let x := t_iter_collect conv fuel data in
    match snd x with
    | Ok _ => (2 * fst x <= d * length data)%nat
    | _ => (2 * fst x <= S d * length data + 2)%nat
    end.
Proof.
  intros Hc fuel. induction fuel as [|fuel IH]; intros [|b data]; cbv zeta;
    cbn [t_iter_collect fst snd]; try lia.
  set (i := b :: data). pose proof (fits_any i) as Ha. pose proof (same_any i) as Es.
  destruct (t_any_from_ber i) as [n1 v]. unfold fits in Ha. cbn [fst snd] in *. subst v.
  cbn [cmap_err cbind]. destruct (any_from_ber i) as [[r a]| | |] eqn:E; cbn [map_err fst snd] in *; try lia.
  apply any_data_length in E. specialize (Hc a). unfold conv_fits in Hc.
  destruct (conv a) as [n2 v2]. cbn [fst snd cbind] in *.
  destruct v2 as [o| | |]; cbn [fst snd] in *; try nia.
  specialize (IH r). cbv zeta in IH. destruct (t_iter_collect conv fuel r) as [n3 v3]. cbn [fst snd cbind] in *.
  destruct v3; cbn [fst snd] in *; nia.
Qed.

Lemma fits_conv L d : forall a, conv_fits d (length (a_data a)) (t_berobject_from_any L d a).
Proof.
  induction d as [|d IH]; intros a; [unfold conv_fits; cbn; lia|].
  assert (H0 : forall v : res berror obj, conv_fits (S d) (length (a_data a)) (O, v))
    by (intros v; unfold conv_fits; destruct v; cbn [fst snd]; lia).
  cbn [t_berobject_from_any]. destruct (negb _); [apply H0|].
  pose proof (fits_iter d _ IH (length (a_data a)) (a_data a)) as Hi. cbv zeta in Hi.
  destruct (utag_of (h_tag (a_header a))); try apply H0;
    (destruct (assert_constructed (a_header a)) as [?| | |]; cbn [cbind]; try apply H0;
     destruct (t_iter_collect (t_berobject_from_any L d) (length (a_data a)) (a_data a)) as [n v];
     unfold conv_fits; cbn [fst snd] in Hi; destruct v; cbn [cbind fst snd] in *; nia).
Qed.

(** With limit [d], at most [d] headers are read per two octets consumed, and if
    the input is refused, at most [d + 1] per two octets of the input and one more. *)
Theorem C79_bound : forall L i d,
  (forall r o, parse_ber_recursive L i d = Ok (r, o) ->
     (2 * fst (t_parse_ber_recursive L i d) <= d * (length i - length r))%nat)
  /\ (2 * fst (t_parse_ber_recursive L i d) <= (d + 1) * length i + 2)%nat.
Proof.
  intros L i d. unfold t_parse_ber_recursive, parse_ber_recursive, parse_ber_any_r.
  destruct d as [|d]; [split; [discriminate|cbn; lia]|]. cbn [Nat.eqb].
  pose proof (fits_any i) as Ha. pose proof (same_any i) as Es.
  destruct (t_any_from_ber i) as [n1 v]. unfold fits in Ha. cbn [fst snd] in *. subst v.
  destruct (any_from_ber i) as [[r a]| | |] eqn:E; cbn [cbind fst snd bind] in *;
    try (split; [discriminate|nia]).
  apply any_data_length in E. pose proof (fits_conv L (S d) a) as Hc. unfold conv_fits in Hc.
  pose proof (same_conv L (S d) a) as Ec.
  destruct (t_berobject_from_any L (S d) a) as [n2 v2]. cbn [fst snd] in *. subst v2.
  destruct (try_berobject_from_any L (S d) a) as [o| | |]; cbn [cmap_err map_err cbind fst snd bind] in *.
  - split; [|nia]. intros r' o' H. inv H. nia.
  - split; [destruct e; discriminate|nia].
  - split; [discriminate|nia].
  - split; [discriminate|nia].
Qed.
Print Assumptions C79_bound.

Lemma fst_cbind0 {E A B} (v : res E A) (k : A -> nat * res E B) m :
  (forall a, v = Ok a -> (2 * fst (k a) <= m)%nat) -> (2 * fst (cbind (O, v) k) <= m)%nat.
Proof.
  intros H. destruct v as [a| | |]; cbn [cbind]; [|cbn; lia..]. specialize (H a eq_refl).
  destruct (k a). exact H.
Qed.

Lemma fst_cbind_ok {E A B} n (a : A) (k : A -> nat * res E B) : fst (cbind (n, Ok a) k) = (n + fst (k a))%nat.
Proof. unfold cbind. destruct (k a). reflexivity. Qed.

Lemma fst_cbind_pure {E A B} (x : nat * res E A) (k : A -> nat * res E B) :
  (forall a, fst (k a) = O) -> fst (cbind x k) = fst x.
Proof.
  intros H. destruct x as [n [a| | |]]; cbn [cbind]; try reflexivity. specialize (H a). destruct (k a).
  cbn in *. lia.
Qed.

Lemma fits_content_as L i t l c d : (2 * fst (t_content_as L i t l c d) <= (d + 1) * length i + 2)%nat.
Proof.
  unfold t_content_as. cbv zeta.
  assert (H : forall h, (2 * fst (cbind (t_get_content i h d) (fun rd => let (r, data) := rd in
        cbind (cmap_err nerr_of_err (t_berobject_from_any L d (mkAny h data))) (fun o =>
        (O, @Ok (nerr berror) (bytes * content) (r, o_content o))))) <= (d + 1) * length i + 2)%nat).
  { intros h. pose proof (fits_get_content i h d) as Hg. pose proof (same_get_content i h d) as Es.
    destruct (t_get_content i h d) as [n2 v2]. unfold fits in Hg. cbn [fst snd] in *. subst v2.
    destruct (ber_get_object_content i h d) as [[r data]| | |] eqn:E; cbn [cbind fst snd] in *; try nia.
    apply get_content_inv in E as (b & -> & -> & _ & _).
    pose proof (fits_conv L d (mkAny h (content_octets h b))) as Hc. unfold conv_fits in Hc.
    cbn [a_data] in Hc.
    assert (Hl : (length (content_octets h b) <= length b)%nat)
      by (unfold content_octets; destruct (h_length h); rewrite ?firstn_length; lia).
    rewrite app_length in *.
    destruct (t_berobject_from_any L d (mkAny h (content_octets h b))) as [n3 v3]. cbn [fst snd] in Hc.
    destruct v3 as [o| | |]; cbn [cmap_err map_err cbind fst snd] in *; nia. }
  destruct l as [n|]; [|apply H]. destruct (MAX_OBJECT_SIZE <? n); [cbn [fst]; lia|].
  destruct (nlen i <? n); [cbn [fst]; lia|]. apply H.
Qed.

Lemma fits_der_content_as L i t l c d :
  (2 * fst (t_der_content_as L i t l c d) <= (d + 1) * length i + 2)%nat.
Proof.
  unfold t_der_content_as. apply fst_cbind0. intros n _.
  pose proof (fits_content_as L i t l c d) as H.
  destruct (nlen i <? n); [cbn [fst]; lia|]. cbv zeta.
  destruct (utag_of t); try exact H;
    repeat first [exact H | cbn [fst]; lia
                 | match goal with |- context[match ?x with _ => _ end] => destruct x end].
Qed.

Lemma get_content_definite i h d n : h_length h = Definite n -> fst (t_get_content i h d) = O.
Proof.
  intros Hl. unfold t_get_content. rewrite fst_cbind_pure by reflexivity.
  destruct d; cbn [t_skip]; [reflexivity|]. rewrite Hl. destruct ((n =? 0) && _); reflexivity.
Qed.

Lemma fits_der_content_recursive L i h d :
  (2 * fst (t_der_content_recursive L i h d) <= (d + 1) * length i + 2)%nat.
Proof.
  unfold t_der_content_recursive. cbv zeta.
  set (u := cbind (t_get_content i h d) _).
  assert (Hu : fst u = fst (t_get_content i h d)) by (apply fst_cbind_pure; intros []; reflexivity).
  assert (Hu1 : (2 * fst u <= (d + 1) * length i + 2)%nat).
  { rewrite Hu. pose proof (fits_get_content i h d) as H. unfold fits in H.
    destruct (t_get_content i h d) as [? [?| | |]]; cbn [fst snd] in *; nia. }
  destruct (h_class h); try exact Hu1.
  pose proof (fits_der_content_as L i (h_tag h) (h_length h) (h_constructed h) d) as H.
  destruct (h_length h) as [n|] eqn:El.
  - rewrite (get_content_definite i h d n El) in Hu. clearbody u.
    destruct (t_der_content_as _ _ _ _ _ _) as [k v]. cbn [fst] in H.
    destruct v as [[r c]|e| |]; try exact H. destruct e as [x|e|e]; try exact H. destruct e; try exact H.
    destruct u as [m w]. cbn [fst] in *. lia.
  - clearbody u. unfold t_der_content_as. cbn. lia.
Qed.

(** The same for the readers of one tag and for the DER readers. *)
Theorem C79_others : forall L i d t,
  (2 * fst (t_parse_ber_with_tag L i t) <= 51 * length i + 2)%nat
  /\ (2 * fst (t_parse_der_recursive L i d) <= (d + 1) * length i + 2)%nat
  /\ (2 * fst (t_parse_der_with_tag L i t) <= 51 * length i + 2)%nat.
Proof.
  intros L i d t.
  assert (Hd : fits (length i) (fun rh => length (fst rh)) (t_header_der i)).
  { unfold fits, t_header_der. cbn [fst snd]. destruct (header_from_der i) as [[r h]| | |] eqn:E; cbn [fst]; try lia.
    apply header_from_der_ber in E as [E _].
    apply header_from_ber_split in E as (raw & lb & -> & _ & H1 & H2). rewrite !app_length. lia. }
  split; [|split].
  - unfold t_parse_ber_with_tag.
    pose proof (fits_header i) as Hh. destruct (t_header i) as [n1 v1]. unfold fits in Hh. cbn [fst snd] in Hh.
    destruct v1 as [[i1 h]| | |]; [|cbn; lia..]. rewrite fst_cbind_ok. cbn [fst] in Hh.
    match goal with |- (2 * (n1 + ?x) <= _)%nat => enough (Hk : (2 * x <= 51 * length i1 + 2)%nat) by lia end.
    apply fst_cbind0. intros _ _. rewrite fst_cbind_pure by (intros []; reflexivity).
    apply (fits_content_as _ _ _ _ _ MAX_RECURSION).
  - unfold t_parse_der_recursive.
    destruct (t_header_der i) as [n1 v1]. unfold fits in Hd. cbn [fst snd] in Hd.
    destruct v1 as [[i1 h]| | |]; [|cbn; lia..]. rewrite fst_cbind_ok. cbn [fst] in Hd. pose proof (fits_der_content_recursive L i1 h d) as Hr.
    destruct (h_length h) as [n|]; [destruct (MAX_OBJECT_SIZE <? n); [cbn [fst]; nia|]|]; nia.
  - unfold t_parse_der_with_tag.
    destruct (t_header_der i) as [n1 v1]. unfold fits in Hd. cbn [fst snd] in Hd.
    destruct v1 as [[i1 h]| | |]; [|cbn; lia..]. rewrite fst_cbind_ok. cbn [fst] in Hd.
    match goal with |- (2 * (n1 + ?x) <= _)%nat => enough (Hk : (2 * x <= 51 * length i1 + 2)%nat) by lia end.
    apply fst_cbind0. intros _ _. rewrite fst_cbind_pure by (intros []; reflexivity).
    apply (fits_der_content_as _ _ _ _ _ MAX_RECURSION).
Qed.
Print Assumptions C79_others.

(** Three nested indefinite lengths: 6 headers, read 12 times, since the end of each
    element is looked for before its contents are decoded; the same tree with
    definite lengths: 3 headers read 3 times; and an input that breaks off. *)
Example C79_ex :
  let all_read (x : iresult berror obj) := match x with Ok ([], _) => true | _ => false end in
  let a := hx "30 80 30 80 30 80 00 00 00 00 00 00" in
  let b := hx "30 04 30 02 30 00" in
  let c := hx "30 80 30 80 30" in
  fst (t_parse_ber_recursive SL a 5) = 12%nat /\ all_read (parse_ber_recursive SL a 5) = true
  /\ fst (t_parse_ber_recursive SL b 5) = 3%nat /\ all_read (parse_ber_recursive SL b 5) = true
  /\ fst (t_parse_der_recursive SL b 5) = 3%nat /\ all_read (parse_der_recursive SL b 5) = true
  /\ t_parse_ber_recursive SL c 5 = (3%nat, Err (Incomplete (Some 1)))
  /\ fst (t_parse_ber_with_tag SL a 16) = 12%nat
  /\ fst (t_parse_der_with_tag SL b 16) = 3%nat.
Proof. vm_compute. repeat split. Qed.
