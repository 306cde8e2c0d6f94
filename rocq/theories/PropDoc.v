(** * C117: the parsers shown in the documentation *)

From Coq Require Import String.
From Verif Require Import Base Asn1rs Ber Der Combinators Typed Programs DocPrograms X501 Conformance Spec SpecValue SpecComb SpecTyped SpecOid SpecAbstract SpecSchema SpecError.
From Verif Require Import LemBase LemHeader LemSkip LemParse LemDer LemComb LemTree LemNode.
From Verif Require Import PropTotal PropInt PropComb PropTyped PropContent PropSchema PropError PropErrorComb.
From Verif Require Import SpecAccept PropAccept PropChoice PropPrograms.
Local Open Scope string_scope. Local Open Scope N_scope. Local Open Scope list_scope.

(** ** What is at the front of the contents *)

(** An OCTET STRING: an element with tag number 4 and the contents [k], reported as [o]
    and followed by [r].  It may be constructed, in DER too. *)
Definition octet_string_at (der : bool) (i r : bytes) (o : obj) (k : bytes) : Prop :=
  exists bs h, i = bs ++ r /\ an_element der h k bs /\ h_tag h = 4
    /\ (if der then N.of_nat (length k) <= 4294967295
        else forall n, h_length h = Definite n -> n <= 4294967295)
    /\ o = Obj h (COctetString k).

(** A primitive INTEGER of definite length with the value [v], from 0 to 2^32-1. *)
Definition number_at (der : bool) (i r : bytes) (v : N) : Prop :=
  exists c, integer_element i r c /\ (der = true -> minimal_integer c)
    /\ twos_complement c = Z.of_N v /\ v < 4294967296.

(** An element with tag number [t] is at the front of [i], and [P] holds of its contents. *)
Definition inside (der : bool) (t : tag) (i r : bytes) (P : bytes -> Prop) : Prop :=
  exists bs h c, i = bs ++ r /\ an_element der h c bs /\ h_tag h = t /\ P c.

(** ** The parts *)

Lemma value_octets L h c k : value L 50 (taken_as 4 h) c k <-> k = COctetString c.
Proof.
  split.
  - intros H. pose proof (value_variant L 50 (taken_as 4 h) c k eq_refl H) as (s & ->).
    inversion H; subst; reflexivity.
  - intros ->. now apply v_octet_string.
Qed.

Lemma octets_exact L der i r o : bytes_ok i ->
  (doc_octetstring L der i = Ok (r, o) <-> exists k, octet_string_at der i r o k).
Proof.
  intros Hok. assert (Hr : doc_octetstring L der i = reader (kit_of L der) (TValue 4) i) by now destruct der.
  rewrite Hr, value_exact by exact Hok. cbn [accepted]. unfold octet_string_at, contents_as. split.
  - intros (bs & h & c & k & -> & He & Ht & (Hc & Hv) & ->). apply value_octets in Hv as ->.
    exists c, bs, h. repeat split; auto. destruct der; [|exact Hc].
    destruct Hc as (Hn & _). now apply Hn.
  - intros (k & bs & h & -> & He & Ht & Hc & ->). exists bs, h, k, (COctetString k). repeat split; auto; [|now apply value_octets].
    destruct der; [|exact Hc]. split; [auto|]. split; [|discriminate].
    split; [discriminate|]. split; [discriminate|]. split; [cbn; intuition discriminate|intros [|]; discriminate].
Qed.

Lemma number_exact der i r v : bytes_ok i -> (doc_u32 der i = Ok (r, v) <-> number_at der i r v).
Proof.
  intros Hok. unfold doc_u32, number_at. change 4294967296 with (2 ^ 32). destruct der.
  - rewrite (proj1 C20_u32 i r v Hok). split; intros (c & H & H'); exists c; tauto.
  - rewrite (proj1 (C19_u32 i r Hok) v). split; intros (c & H & H'); exists c; intuition discriminate.
Qed.

Lemma doc_integer_exact L der i r o : bytes_ok i ->
  (doc_integer L der i = Ok (r, o) <-> exists k, integer_at der i r o k).
Proof. intros Hok. rewrite <- (integer_exact L der i r o Hok). now destruct der. Qed.

Lemma number_rest der i r v : number_at der i r v -> bytes_ok i -> bytes_ok r.
Proof. intros (c & (h & bs & -> & _) & _) Hok. now apply bytes_ok_app in Hok. Qed.

Lemma octets_slice der i r o k : octet_string_at der i r o k -> obj_as_slice o = Ok k.
Proof. intros (bs & h & _ & _ & _ & _ & ->). reflexivity. Qed.

Lemma doc_object_exact L der i r v k : bytes_ok i ->
  (doc_object L der i = Ok (r, (v, k)) <-> exists m o, number_at der i m v /\ octet_string_at der m r o k).
Proof.
  intros Hok. unfold doc_object. split.
  - intros H. bind_inv H. destruct a as [m v']. bind_inv H. destruct a as [r' o].
    apply number_exact in E; [|exact Hok]. pose proof (number_rest _ _ _ _ E Hok) as Hm.
    apply octets_exact in E0 as (k' & Ho); [|exact Hm]. rewrite (octets_slice _ _ _ _ _ Ho) in H. cbn in H. inv H. eauto.
  - intros (m & o & Hn & Ho). pose proof (number_rest _ _ _ _ Hn Hok) as Hm.
    apply number_exact in Hn; [|exact Hok]. rewrite Hn. cbn [bind].
    rewrite (proj2 (octets_exact L der m r o Hm)) by eauto. cbn [bind]. now rewrite (octets_slice _ _ _ _ _ Ho).
Qed.

Lemma doc_object_total L der i : bytes_ok i -> total (doc_object L der i).
Proof.
  intros Hok. unfold doc_object. apply total_bind.
  - destruct der; [apply uint_from_der_total|apply uint_from_ber_total].
  - intros [m v] E. apply number_exact in E; [|exact Hok]. pose proof (number_rest _ _ _ _ E Hok) as Hm.
    apply total_bind; [destruct der; [apply der_with_tag_total|apply with_tag_total]|].
    intros [r o] Eo. apply octets_exact in Eo as (k & Ho); [|exact Hm]. rewrite (octets_slice _ _ _ _ _ Ho). cbn. auto with total.
Qed.

(** The six containers at once. *)
Lemma container_exact {A} (der : bool) (f : bytes -> header -> iresult berror A) i r v : bytes_ok i ->
  ((if der then parse_der_container ber_ops f i else parse_ber_container ber_ops f i) = Ok (r, v)
   <-> exists bs h c u, i = bs ++ r /\ an_element der h c bs /\ f c h = Ok (u, v)).
Proof.
  intros Hok. destruct der; [rewrite der_container_iff by exact Hok|rewrite ber_container_iff by exact Hok];
    split; intros (x & y & z & u & H); [exists z, x, y, u|exists y, z, x, u|exists z, x, y, u|exists y, z, x, u]; exact H.
Qed.

Lemma tagged_exact {A} (der : bool) t (f : bytes -> header -> iresult berror A) i r v : bytes_ok i ->
  ((if der then parse_der_container ber_ops (fun c hdr => let* _ := map_err (err_into ber_ops) (assert_tag hdr t) in f c hdr) i
    else parse_ber_container ber_ops (fun c hdr => let* _ := map_err (err_into ber_ops) (assert_tag hdr t) in f c hdr) i) = Ok (r, v)
   <-> exists bs h c u, i = bs ++ r /\ an_element der h c bs /\ h_tag h = t /\ f c h = Ok (u, v)).
Proof.
  intros Hok. rewrite container_exact by exact Hok. split.
  - intros (bs & h & c & u & Ei & He & H). bind_inv H. apply assert_tag_ok in E. exists bs, h, c, u. auto.
  - intros (bs & h & c & u & Ei & He & Ht & H). exists bs, h, c, u. split; [exact Ei|]. split; [exact He|].
    now rewrite (proj2 (assert_tag_ok _ h t tt) Ht).
Qed.

Lemma an_content_ok der h c bs r : an_element der h c bs -> bytes_ok (bs ++ r) -> bytes_ok c.
Proof. intros He Hok. now apply (an_element_ok _ _ _ _ _ He) in Hok. Qed.

(** ** A structure of two components *)

(** The three parsers accept the same; tag number 17 for the set.  What follows the two
    components is not looked at. *)
Theorem C117_objects : forall L der i r v k, bytes_ok i ->
  let fields c := exists m o rest, number_at der c m v /\ octet_string_at der m rest o k in
  (doc_object_seq L der i = Ok (r, (v, k)) <-> inside der 16 i r fields)
  /\ (doc_object_set L der i = Ok (r, (v, k)) <-> inside der 17 i r fields)
  /\ (doc_object_container L der i = Ok (r, (v, k)) <-> inside der 16 i r fields).
Proof.
  intros L der i r v k Hok fields. unfold fields, inside.
  assert (Hd : forall t,
    (exists bs h c u, i = bs ++ r /\ an_element der h c bs /\ h_tag h = t /\ doc_object L der c = Ok (u, (v, k)))
    <-> exists bs h c, i = bs ++ r /\ an_element der h c bs /\ h_tag h = t
        /\ exists m o rest, number_at der c m v /\ octet_string_at der m rest o k).
  { intros t. split.
    - intros (bs & h & c & u & -> & He & Ht & H). apply doc_object_exact in H as (m & o & H); [|eapply an_content_ok; eauto].
      exists bs, h, c. eauto 9.
    - intros (bs & h & c & -> & He & Ht & m & o & rest & H). exists bs, h, c, rest. do 3 (split; [auto|]).
      apply doc_object_exact; [eapply an_content_ok; eauto|eauto]. }
  split; [|split].
  - rewrite <- Hd. exact (tagged_exact der 16 (fun i _ => doc_object L der i) i r (v, k) Hok).
  - rewrite <- Hd. exact (tagged_exact der 17 (fun i _ => doc_object L der i) i r (v, k) Hok).
  - rewrite <- Hd. unfold doc_object_container. rewrite container_exact by exact Hok.
    change T_Sequence with 16. split; intros (bs & h & c & u & -> & He & H); exists bs, h, c, u.
    + destruct (h_tag h =? 16) eqn:Et; cbn [negb] in H; [|discriminate]. repeat split; auto; lia.
    + destruct H as [Ht H]. rewrite Ht. auto.
Qed.
Print Assumptions C117_objects.

(** An element of another type is refused: the parser with the container by the error it
    gives itself, the others by naming both tags. *)
Theorem C117_other_tag : forall L der h c bs r, an_element der h c bs ->
  (h_tag h <> 16 -> doc_object_container L der (bs ++ r) = Err (Error BerTypeError)
     /\ doc_object_seq L der (bs ++ r) = Err (Error (UnexpectedTag (Some 16) (h_tag h))))
  /\ (h_tag h <> 17 -> doc_object_set L der (bs ++ r) = Err (Error (UnexpectedTag (Some 17) (h_tag h)))).
Proof.
  intros L der h c bs r He.
  assert (K : forall A (f : bytes -> header -> iresult berror A),
    (if der then parse_der_container ber_ops f (bs ++ r) else parse_ber_container ber_ops f (bs ++ r))
    = let* (_, v) := f c h in Ok (r, v)).
  { intros A f. destruct der; [now apply der_container_complete|now apply ber_container_complete]. }
  assert (Ka : forall t, h_tag h <> t -> map_err (err_into ber_ops) (assert_tag h t)
    = @Err (nerr berror) unit (Error (UnexpectedTag (Some t) (h_tag h)))).
  { intros t Ht. unfold assert_tag. replace (h_tag h =? t) with false by lia. reflexivity. }
  split; [intros Ht; split|intros Ht].
  - unfold doc_object_container. rewrite K. change T_Sequence with 16. replace (h_tag h =? 16) with false by lia. reflexivity.
  - specialize (K _ (fun c h => let* _ := map_err (err_into ber_ops) (assert_tag h 16) in doc_object L der c)).
    cbv beta in K. rewrite Ka in K by assumption. destruct der; exact K.
  - specialize (K _ (fun c h => let* _ := map_err (err_into ber_ops) (assert_tag h 17) in doc_object L der c)).
    cbv beta in K. rewrite Ka in K by assumption. destruct der; exact K.
Qed.
Print Assumptions C117_other_tag.

(** The [unwrap] does not panic. *)
Theorem C117_unwrap : forall L der i, bytes_ok i ->
  returns (doc_object_seq L der i) /\ returns (doc_object_set L der i) /\ returns (doc_object_container L der i).
Proof.
  intros L der i Hok.
  assert (Hg : forall f : bytes -> header -> iresult berror (N * bytes), (forall c h, bytes_ok c -> total (f c h)) ->
    total (if der then parse_der_container ber_ops f i else parse_ber_container ber_ops f i)).
  { intros f Hf. destruct der.
    - destruct (der_container_sound ber_ops f i Hok) as [(h & c & bs & r & -> & He)|(e & He)]; [|rewrite He; auto with total].
      rewrite (der_container_complete ber_ops f _ _ _ r He). apply total_bind; [|intros []; auto with total].
      apply Hf. eapply definite_content_ok; eauto.
    - destruct (ber_container_sound ber_ops f i Hok) as [(h & c & bs & r & -> & He)|(e & He)]; [|rewrite He; auto with total].
      rewrite (ber_container_complete ber_ops f _ _ _ r He). apply total_bind; [|intros []; auto with total].
      apply Hf. eapply (an_content_ok false); eauto. }
  assert (Ha : forall t c h, bytes_ok c -> total (let* _ := map_err (err_into ber_ops) (assert_tag h t) in doc_object L der c)).
  { intros t c h Hc. apply total_bind; [|intros; now apply doc_object_total].
    unfold assert_tag. destruct (_ =? _); cbn; auto with total. }
  split; [|split]; apply returns_total.
  - exact (Hg _ (Ha 16)).
  - exact (Hg _ (Ha 17)).
  - apply Hg. intros c h Hc. destruct (negb _); auto with total. now apply doc_object_total.
Qed.
Print Assumptions C117_unwrap.

(** This says something: on an object without octets to give, the same [unwrap] panics. *)
Theorem C117_unwrap_panics : forall h b l,
  unwrap (obj_as_slice (Obj h (CBoolean b))) = @Panic (nerr berror) bytes
  /\ unwrap (obj_as_slice (Obj h CNull)) = @Panic (nerr berror) bytes
  /\ unwrap (obj_as_slice (Obj h (CSequence l))) = @Panic (nerr berror) bytes
  /\ unwrap (obj_as_slice (Obj h (CSet l))) = @Panic (nerr berror) bytes.
Proof. intros h b l. repeat split; reflexivity. Qed.
Print Assumptions C117_unwrap_panics.

(** ** Two components as objects *)

Definition object_of (t : tag) (l : list obj) : obj :=
  Obj (universal_header t) (if t =? 16 then CSequence l else CSet l).

Lemma doc_pair_exact L der i r l : bytes_ok i ->
  (doc_pair L der i = Ok (r, l)
   <-> exists m a ka b kb, integer_at der i m a ka /\ octet_string_at der m r b kb /\ l = [a; b]).
Proof.
  intros Hok. unfold doc_pair. split.
  - intros H. bind_inv H. destruct a as [m a]. bind_inv H. destruct a0 as [r' b]. inv H.
    apply doc_integer_exact in E as (ka & Ha); [|exact Hok]. destruct (integer_at_ok _ _ _ _ _ Ha Hok) as [_ Hm].
    apply octets_exact in E0 as (kb & Hb); [|exact Hm]. exists m, a, ka, b, kb. auto.
  - intros (m & a & ka & b & kb & Ha & Hb & ->). destruct (integer_at_ok _ _ _ _ _ Ha Hok) as [_ Hm].
    rewrite (proj2 (doc_integer_exact L der i m a Hok)) by eauto. cbn [bind].
    now rewrite (proj2 (octets_exact L der m r b Hm)) by eauto.
Qed.

Lemma defined_exact (der : bool) (f : bytes -> iresult berror (list obj)) i r o : bytes_ok i ->
  ((if der then parse_der_sequence_defined f i else parse_ber_sequence_defined f i) = Ok (r, o)
   <-> inside der 16 i r (fun c => exists rest l, f c = Ok (rest, l) /\ o = object_of 16 l))
  /\ ((if der then parse_der_set_defined f i else parse_ber_set_defined f i) = Ok (r, o)
   <-> inside der 17 i r (fun c => exists rest l, f c = Ok (rest, l) /\ o = object_of 17 l)).
Proof.
  intros Hok.
  assert (Hg : forall t (l : list obj), (exists bs h c u, i = bs ++ r /\ an_element der h c bs /\ h_tag h = t /\ f c = Ok (u, l)) <->
    inside der t i r (fun c => exists rest, f c = Ok (rest, l))).
  { intros t l. unfold inside. split.
    - intros (bs & h & c & u & H1 & H2 & H3 & H4). exists bs, h, c. eauto 6.
    - intros (bs & h & c & H1 & H2 & H3 & u & H4). exists bs, h, c, u. auto. }
  assert (Hm : forall t, (exists l, inside der t i r (fun c => exists rest, f c = Ok (rest, l)) /\ o = object_of t l)
    <-> inside der t i r (fun c => exists rest l, f c = Ok (rest, l) /\ o = object_of t l)).
  { intros t. unfold inside. split.
    - intros (l & (bs & h & c & H1 & H2 & H3 & u & H4) & H5). exists bs, h, c. eauto 9.
    - intros (bs & h & c & H1 & H2 & H3 & u & l & H4 & H5). exists l. split; [|exact H5]. exists bs, h, c. eauto 6. }
  split.
  - rewrite <- Hm.
    assert (Hd : (if der then parse_der_sequence_defined f i else parse_ber_sequence_defined f i)
      = nom_map from_seq (fun i => if der then parse_der_sequence_defined_g ber_ops (fun c _ => f c) i
                                   else parse_ber_sequence_defined_g ber_ops (fun c _ => f c) i) i) by now destruct der.
    rewrite Hd, nom_map_ok. split; intros (l & H & Ho); exists l; (split; [|exact Ho]).
    + apply Hg. exact (proj1 (tagged_exact der 16 (fun c _ => f c) i r l Hok) H).
    + apply Hg in H. exact (proj2 (tagged_exact der 16 (fun c _ => f c) i r l Hok) H).
  - rewrite <- Hm.
    assert (Hd : (if der then parse_der_set_defined f i else parse_ber_set_defined f i)
      = nom_map from_set (fun i => if der then parse_der_set_defined_g ber_ops (fun c _ => f c) i
                                   else parse_ber_set_defined_g ber_ops (fun c _ => f c) i) i) by now destruct der.
    rewrite Hd, nom_map_ok. split; intros (l & H & Ho); exists l; (split; [|exact Ho]).
    + apply Hg. exact (proj1 (tagged_exact der 17 (fun c _ => f c) i r l Hok) H).
    + apply Hg in H. exact (proj2 (tagged_exact der 17 (fun c _ => f c) i r l Hok) H).
Qed.

Lemma inside_iff der t i r (P Q : bytes -> Prop) : bytes_ok i -> (forall c, bytes_ok c -> (P c <-> Q c)) ->
  (inside der t i r P <-> inside der t i r Q).
Proof.
  intros Hok H. unfold inside. split; intros (bs & h & c & -> & He & Ht & Hc); exists bs, h, c;
    repeat split; auto; apply H; auto; eapply an_content_ok; eauto.
Qed.

Theorem C117_pairs : forall L der i r o, bytes_ok i ->
  let pair t c := exists m a ka rest b kb,
    integer_at der c m a ka /\ octet_string_at der m rest b kb /\ o = object_of t [a; b] in
  let integers c := exists m a ka rest b kb,
    integer_at false c m a ka /\ integer_at false m rest b kb /\ o = object_of 16 [a; b] in
  (doc_pair_seq L der i = Ok (r, o) <-> inside der 16 i r (pair 16))
  /\ (doc_pair_set L der i = Ok (r, o) <-> inside der 17 i r (pair 17))
  /\ (doc_two_seq L i = Ok (r, o) <-> inside false 16 i r integers).
Proof.
  intros L der i r o Hok pair integers. unfold pair, integers.
  assert (Hp : forall t c, bytes_ok c ->
    ((exists rest l, doc_pair L der c = Ok (rest, l) /\ o = object_of t l)
     <-> exists m a ka rest b kb, integer_at der c m a ka /\ octet_string_at der m rest b kb /\ o = object_of t [a; b])).
  { intros t c Hc. split.
    - intros (rest & l & H & ->). apply doc_pair_exact in H as (m & a & ka & b & kb & Ha & Hb & ->); [|exact Hc].
      exists m, a, ka, rest, b, kb. auto.
    - intros (m & a & ka & rest & b & kb & Ha & Hb & ->). exists rest, [a; b]. split; [|reflexivity].
      apply doc_pair_exact; [exact Hc|]. exists m, a, ka, b, kb. auto. }
  split; [|split].
  - rewrite <- (inside_iff der 16 i r _ _ Hok (Hp 16)). exact (proj1 (defined_exact der (doc_pair L der) i r o Hok)).
  - rewrite <- (inside_iff der 17 i r _ _ Hok (Hp 17)). exact (proj2 (defined_exact der (doc_pair L der) i r o Hok)).
  - eapply iff_trans; [exact (proj1 (defined_exact false _ i r o Hok))|]. apply inside_iff; [exact Hok|].
    intros c Hc. assert (Ht : forall rest l,
      (let* (rem, a) := parse_ber_integer L c in let* (rem, b) := parse_ber_integer L rem in Ok (rem, [a; b])) = Ok (rest, l)
      <-> exists a b, two_integers L c = Ok (rest, (a, b)) /\ l = [a; b]).
    { intros rest l. unfold two_integers. destruct (parse_ber_integer L c) as [[m a]| | |]; cbn [bind];
        try (split; [discriminate|intros (? & ? & ? & _); discriminate]).
      destruct (parse_ber_integer L m) as [[m' b]| | |]; cbn [bind];
        try (split; [discriminate|intros (? & ? & ? & _); discriminate]).
      split; [intros H; inv H; eauto|intros (a' & b' & H & ->); inv H; reflexivity]. }
    split.
    + intros (rest & l & H & ->). apply Ht in H as (a & b & H & ->).
      apply two_integers_exact in H as (m & ka & kb & Ha & Hb); [|exact Hc]. exists m, a, ka, rest, b, kb. auto.
    + intros (m & a & ka & rest & b & kb & Ha & Hb & ->). exists rest, [a; b]. split; [|reflexivity].
      apply Ht. exists a, b. split; [|reflexivity]. apply two_integers_exact; [exact Hc|eauto].
Qed.
Print Assumptions C117_pairs.

(** ** Many integers *)

Definition an_integer (der : bool) (c m : bytes) (o : obj) : Prop := exists k, integer_at der c m o k.

Lemma an_integer_shorter der c m x : an_integer der c m x -> (length m < length c)%nat /\ exists p, p <> [] /\ c = p ++ m.
Proof.
  intros (k & bs & h & -> & He & _).
  assert (Hb : bs <> []).
  { intros ->. destruct der; destruct He as (hb & He).
    - destruct He as (E & Hh & _). apply header_octets_len in Hh. symmetry in E. apply app_eq_nil in E as [-> _]. cbn in Hh. lia.
    - destruct He as (b & E & Hh & _). apply header_octets_len in Hh. symmetry in E. apply app_eq_nil in E as [-> _]. cbn in Hh. lia. }
  split; [|eauto]. rewrite app_length. destruct bs; [congruence|]. cbn. lia.
Qed.

Lemma doc_integer_nom L der : nom_parser (doc_integer L der).
Proof.
  intros i r o H. assert (Hr : reader (kit_of L der) (TValue 2) i = Ok (r, o)) by (destruct der; exact H).
  exact (proj1 (reader_suffix L der) _ _ _ _ Hr).
Qed.

(** Every outcome of one attempt. *)
Lemma doc_integer_step L der c : bytes_ok c ->
  (exists m x, nom_complete ber_ops (doc_integer L der) c = Ok (m, x) /\ an_integer der c m x)
  \/ (exists e, nom_complete ber_ops (doc_integer L der) c = Err (Error e)) /\ (forall m x, ~ an_integer der c m x).
Proof.
  intros Hok. unfold nom_complete.
  assert (Ht : total (doc_integer L der c)) by (destruct der; [apply der_with_tag_total|apply with_tag_total]).
  assert (Hs : soft (doc_integer L der c)) by (destruct der; eapply (C109_readers L c 0 2 Indefinite true); exact Hok).
  destruct Ht as [Hp Hd]. destruct (doc_integer L der c) as [[m x]|e| |] eqn:E; try congruence; cbn [map_err].
  - left. exists m, x. split; [reflexivity|]. now apply doc_integer_exact in E.
  - right. split.
    + destruct e as [n|e|e]; [eauto|eauto|now destruct (Hs e)].
    + intros m x Hx. apply (doc_integer_exact L der c m x Hok) in Hx. congruence.
Qed.

Lemma many1_loop_leading L der : forall fuel acc c, bytes_ok c -> (length c < fuel)%nat ->
  exists l rest, nom_many1_loop ber_ops (nom_complete ber_ops (doc_integer L der)) fuel acc c = Ok (rest, rev acc ++ l)
    /\ leading (an_integer der) c l rest.
Proof.
  induction fuel as [|fuel IH]; intros acc c Hok Hf; [lia|]. cbn [nom_many1_loop].
  destruct (doc_integer_step L der c Hok) as [(m & x & -> & Hx)|((e & ->) & Hno)].
  - destruct (an_integer_shorter _ _ _ _ Hx) as [Hl (p & _ & Ec)].
    replace (length m =? length c)%nat with false by (symmetry; apply Nat.eqb_neq; lia).
    assert (Hm : bytes_ok m) by (subst c; now apply bytes_ok_app in Hok).
    destruct (IH (x :: acc) m Hm ltac:(lia)) as (l & rest & Hr & Hlead). exists (x :: l), rest.
    split; [|econstructor; eassumption]. rewrite Hr. cbn [rev]. now rewrite <- app_assoc.
  - exists [], c. rewrite app_nil_r. split; [reflexivity|now constructor].
Qed.

Lemma leading_det der c l rest : bytes_ok c -> leading (an_integer der) c l rest ->
  forall l' rest', leading (an_integer der) c l' rest' -> l' = l /\ rest' = rest.
Proof.
  intros Hok H. induction H as [c Hno|c m x l rest Hx _ IH]; intros l' rest' H'.
  - inversion H' as [|? m' x' ? ? Hx' _]; subst; [auto|]. now apply Hno in Hx'.
  - inversion H' as [? Hno|? m' x' l'' ? Hx' Hl']; subst; [now apply Hno in Hx|].
    assert (Hm : bytes_ok m) by (destruct (an_integer_shorter _ _ _ _ Hx) as [_ (p & _ & ->)]; now apply bytes_ok_app in Hok).
    apply (doc_integer_exact SL der c m x Hok) in Hx. apply (doc_integer_exact SL der c m' x' Hok) in Hx'. rewrite Hx in Hx'. inv Hx'.
    destruct (IH Hm _ _ Hl') as [-> ->]. auto.
Qed.

Lemma many1_exact L der c rest l : bytes_ok c ->
  (nom_many1 ber_ops (nom_complete ber_ops (doc_integer L der)) c = Ok (rest, l)
   <-> leading (an_integer der) c l rest /\ l <> []).
Proof.
  intros Hok. unfold nom_many1. destruct (doc_integer_step L der c Hok) as [(m & x & -> & Hx)|((e & ->) & Hno)].
  - assert (Hm : bytes_ok m) by (destruct (an_integer_shorter _ _ _ _ Hx) as [_ (p & _ & ->)]; now apply bytes_ok_app in Hok).
    destruct (many1_loop_leading L der (S (length m)) [x] m Hm ltac:(lia)) as (l' & rest' & -> & Hl). cbn [rev app].
    assert (Hxl : leading (an_integer der) c (x :: l') rest') by (econstructor; eassumption). split.
    + intros H. inv H. split; [exact Hxl|discriminate].
    + intros [H _]. now destruct (leading_det der c _ _ Hok Hxl _ _ H) as [-> ->].
  - split; [discriminate|]. intros [H Hn]. inversion H; subst; [congruence|]. exfalso. eapply Hno; eauto.
Qed.

(** The INTEGERs up to the first thing that is not one, at least one.  What comes after
    that is dropped without an error. *)
Theorem C117_series : forall L der i r o, bytes_ok i ->
  let series t c := exists l rest, leading (an_integer der) c l rest /\ l <> [] /\ o = object_of t l in
  (doc_integers_seq L der i = Ok (r, o) <-> inside der 16 i r (series 16))
  /\ (doc_integers_set L der i = Ok (r, o) <-> inside der 17 i r (series 17)).
Proof.
  intros L der i r o Hok series. unfold series.
  assert (Hp : forall t c, bytes_ok c ->
    ((exists rest l, nom_many1 ber_ops (nom_complete ber_ops (doc_integer L der)) c = Ok (rest, l) /\ o = object_of t l)
     <-> exists l rest, leading (an_integer der) c l rest /\ l <> [] /\ o = object_of t l)).
  { intros t c Hc. split.
    - intros (rest & l & H & Ho). apply many1_exact in H as [H Hn]; [|exact Hc]. eauto 6.
    - intros (l & rest & H & Hn & Ho). exists rest, l. split; [|exact Ho]. now apply many1_exact. }
  split.
  - rewrite <- (inside_iff der 16 i r _ _ Hok (Hp 16)).
    exact (proj1 (defined_exact der (nom_many1 ber_ops (nom_complete ber_ops (doc_integer L der))) i r o Hok)).
  - rewrite <- (inside_iff der 17 i r _ _ Hok (Hp 17)).
    exact (proj2 (defined_exact der (nom_many1 ber_ops (nom_complete ber_ops (doc_integer L der))) i r o Hok)).
Qed.
Print Assumptions C117_series.

(** ** "Same as parse_ber_sequence_of" (/repo/src/ber/multi.rs:94) *)

Definition of_integers (L : leaves) (der set : bool) : bytes -> iresult berror obj :=
  match der, set with
  | false, false => parse_ber_sequence_of (doc_integer L der)
  | false, true => parse_ber_set_of (doc_integer L der)
  | true, false => parse_der_sequence_of (doc_integer L der)
  | true, true => parse_der_set_of (doc_integer L der)
  end.

Lemma splits_leading L der c l : bytes_ok c ->
  (splits (doc_integer L der) c l <-> leading (an_integer der) c l []).
Proof.
  intros Hok. split.
  - intros H. revert Hok. induction H as [|piece rest v vs Hp Hf _ IH]; intros Hok.
    + constructor. intros m x Hx. apply an_integer_shorter in Hx as [Hl _]. cbn in Hl. lia.
    + econstructor; [apply (doc_integer_exact L der _ _ _ Hok) in Hf; exact Hf|]. apply IH. now apply bytes_ok_app in Hok.
  - intros H. remember [] as e eqn:Ee in H. revert Hok. induction H as [c Hno|c m x l rest Hx _ IH]; intros Hok; subst.
    + constructor.
    + pose proof Hx as Hi. apply (doc_integer_exact L der c m x Hok) in Hi.
      destruct (an_integer_shorter _ _ _ _ Hx) as [_ (p & Hp & ->)]. econstructor; [exact Hp|exact Hi|].
      apply IH; [reflexivity|]. now apply bytes_ok_app in Hok.
Qed.

(** The documented one accepts exactly if nothing but INTEGERs is inside. *)
Theorem C117_same_partial : forall L der i r l, bytes_ok i ->
  let all c := leading (an_integer der) c l [] in
  (of_integers L der false i = Ok (r, object_of 16 l) <-> inside der 16 i r all)
  /\ (of_integers L der true i = Ok (r, object_of 17 l) <-> inside der 17 i r all).
Proof.
  intros L der i r l Hok all. unfold all.
  assert (Hinc : exists n, doc_integer L der [] = Err (Incomplete n)) by (destruct der; eexists; reflexivity).
  assert (Hg : forall t, (exists h c bs, i = bs ++ r /\ an_element der h c bs /\ h_tag h = t /\ splits (doc_integer L der) c l)
    <-> inside der t i r (fun c => leading (an_integer der) c l [])).
  { intros t. unfold inside. split.
    - intros (h & c & bs & -> & He & Ht & Hs). exists bs, h, c. repeat split; auto.
      apply (splits_leading L der); [eapply an_content_ok; eauto|exact Hs].
    - intros (bs & h & c & -> & He & Ht & Hs). exists h, c, bs. repeat split; auto.
      apply splits_leading; [eapply an_content_ok; eauto|exact Hs]. }
  rewrite <- !Hg.
  assert (Hi16 : forall l', object_of 16 l = Obj (universal_header 16) (CSequence l') <-> l = l') by (intros l'; cbn; split; [intros Ho; now injection Ho|now intros ->]).
  assert (Hi17 : forall l', object_of 17 l = Obj (universal_header 17) (CSet l') <-> l = l') by (intros l'; cbn; split; [intros Ho; now injection Ho|now intros ->]).
  destruct (C32_objects_partial (doc_integer L der) i r (object_of 16 l) Hok (doc_integer_nom L der)) as (H1 & _ & H3 & _).
  destruct (C32_objects_partial (doc_integer L der) i r (object_of 17 l) Hok (doc_integer_nom L der)) as (_ & H2 & _ & H4).
  unfold of_integers. destruct der; [rewrite H3, H4|rewrite H1, H2]; (split; split).
  all: try (intros (_ & h & c & bs & l' & ? & ? & ? & ? & Ho); first [apply Hi16 in Ho|apply Hi17 in Ho]; subst l'; exists h, c, bs; auto).
  all: intros (h & c & bs & ? & ? & ? & ?); split; [exact Hinc|]; exists h, c, bs, l; auto.
Qed.
Print Assumptions C117_same_partial.

(** So whatever it accepts, except the empty sequence, the example accepts with the same
    result; and where both accept they agree. *)
Theorem C117_includes_partial : forall L der i r o, bytes_ok i ->
  (of_integers L der false i = Ok (r, o) -> o <> object_of 16 [] -> doc_integers_seq L der i = Ok (r, o))
  /\ (of_integers L der true i = Ok (r, o) -> o <> object_of 17 [] -> doc_integers_set L der i = Ok (r, o)).
Proof.
  intros L der i r o Hok.
  assert (Hl : (of_integers L der false i = Ok (r, o) -> exists l, o = object_of 16 l)
    /\ (of_integers L der true i = Ok (r, o) -> exists l, o = object_of 17 l)).
  { destruct (C32_objects_partial (doc_integer L der) i r o Hok (doc_integer_nom L der)) as (H1 & H2 & H3 & H4).
    unfold of_integers. destruct der; split; intros H;
      [apply H3 in H|apply H4 in H|apply H1 in H|apply H2 in H]; destruct H as (_ & h & c & bs & l & _ & _ & _ & _ & ->); now exists l. }
  destruct (C117_series L der i r o Hok) as [Hs Ht]. rewrite Hs, Ht.
  split; intros H Hn; pose proof H as H0; apply Hl in H0 as (l & ->);
    apply (C117_same_partial L der i r l Hok) in H; destruct H as (bs & h & c & -> & He & Hh & H); exists bs, h, c; repeat split; auto;
    exists l, []; repeat split; auto; intros ->; now apply Hn.
Qed.
Print Assumptions C117_includes_partial.

(** In general it is not: octets that are no INTEGER are dropped by the one and refused by
    the other, and the empty sequence is refused by the first. *)
Theorem C117_same_refuted : forall L der,
  (exists o e, doc_integers_seq L der (hx "30 05 02 01 05 05 00") = Ok ([], o)
     /\ of_integers L der false (hx "30 05 02 01 05 05 00") = Err e)
  /\ doc_integers_seq L der (hx "30 00") = Err (Error (ENomError EkMany1))
  /\ of_integers L der false (hx "30 00") = Ok ([], object_of 16 []).
Proof. intros L []; (split; [|split]); [do 2 eexists; split|..|do 2 eexists; split| |]; vm_compute; reflexivity. Qed.
Print Assumptions C117_same_refuted.

Example C117_ex :
  doc_object_seq SL false (hx "30 0a 02 03 01 00 01 04 03 01 00 00") = Ok ([], (65537, [1; 0; 0]))
  /\ doc_object_set SL true (hx "31 0a 02 03 01 00 01 04 03 01 00 00 07") = Ok ([7], (65537, [1; 0; 0]))
  /\ doc_object_container SL false (hx "30 80 02 03 01 00 01 04 03 01 00 00 00 00") = Ok ([], (65537, [1; 0; 0]))
  /\ doc_object_container SL true (hx "31 0a 02 03 01 00 01 04 03 01 00 00") = Err (Error BerTypeError)
  /\ doc_object_seq SL true (hx "30 07 02 02 00 01 04 01 01") = Err (Error (DerConstraintFailed DcIntegerLeadingZeroes))
  /\ (exists h1 h2, doc_pair_seq SL true (hx "30 0a 02 03 01 00 01 04 03 01 00 00")
        = Ok ([], object_of 16 [Obj h1 (CInteger [1; 0; 1]); Obj h2 (COctetString [1; 0; 0])]))
  /\ (exists h1 h2, doc_two_seq SL (hx "30 0a 02 03 01 00 01 02 03 01 00 00")
        = Ok ([], object_of 16 [Obj h1 (CInteger [1; 0; 1]); Obj h2 (CInteger [1; 0; 0])]))
  /\ (exists h1 h2, doc_integers_set SL false (hx "31 0a 02 03 01 00 01 02 03 01 00 00")
        = Ok ([], object_of 17 [Obj h1 (CInteger [1; 0; 1]); Obj h2 (CInteger [1; 0; 0])])
      /\ of_integers SL false true (hx "31 0a 02 03 01 00 01 02 03 01 00 00")
        = doc_integers_set SL false (hx "31 0a 02 03 01 00 01 02 03 01 00 00")).
Proof. vm_compute. repeat split; repeat eexists. Qed.
