(** * C106, C107, C108, C109: the parsers of the test programs *)

From Coq Require Import String.
From Verif Require Import Base Asn1rs Ber Der Combinators Typed Programs X501 Conformance Spec SpecValue SpecComb SpecTyped SpecOid SpecAbstract SpecSchema SpecError.
From Verif Require Import LemBase LemHeader LemSkip LemParse LemDer LemComb LemTree LemNode.
From Verif Require Import PropTotal PropInt PropComb PropTyped PropContent PropSchema PropError PropErrorComb.
From Verif Require Import SpecAccept PropAccept PropChoice.
Local Open Scope string_scope. Local Open Scope N_scope. Local Open Scope list_scope.

(** ** C109: the readers report no [Failure] *)

Definition recoverable_or_incomplete {E} (e : nerr E) : Prop := forall x, e <> Failure x.

Lemma header_fault_soft der i e : header_fault der i e -> recoverable_or_incomplete e.
Proof. intros H x ->. inversion H as [? ? Hi|? ? ? ? ? ? _ Hl]; subst; [inversion Hi|inversion Hl]. Qed.

Scheme body_fault_mind := Induction for body_fault Sort Prop with until_fault_mind := Induction for until_fault Sort Prop.
Combined Scheme body_until_ind from body_fault_mind, until_fault_mind.
Scheme value_fault_mind := Induction for value_fault Sort Prop with series_fault_mind := Induction for series_fault Sort Prop.
Combined Scheme value_series_ind from value_fault_mind, series_fault_mind.

Lemma body_fault_soft :
  (forall d h i e, body_fault d h i e -> recoverable_or_incomplete e)
  /\ (forall d i e, until_fault d i e -> recoverable_or_incomplete e).
Proof. apply body_until_ind; intros; try assumption; try (intros x; discriminate). eapply header_fault_soft; eassumption. Qed.

Lemma element_fault_soft i e : element_fault i e -> recoverable_or_incomplete e.
Proof. intros H. inversion H; subst; [eapply header_fault_soft|eapply (proj1 body_fault_soft)]; eassumption. Qed.

Lemma reported_soft e : recoverable_or_incomplete (reported e).
Proof. intros x. destruct e; discriminate. Qed.

Lemma content_fault_soft L h c e : content_fault L h c e -> recoverable_or_incomplete e.
Proof. intros H. inversion H; subst; try apply reported_soft; intros x; discriminate. Qed.

Lemma value_fault_soft L :
  (forall d h c e, value_fault L d h c e -> recoverable_or_incomplete e)
  /\ (forall d i e, series_fault L d i e -> recoverable_or_incomplete e).
Proof.
  apply value_series_ind; intros; try assumption; try (intros x; discriminate);
    [eapply content_fault_soft|eapply element_fault_soft]; eassumption.
Qed.

Lemma ber_content_fault_soft L t l pc d i e : ber_content_fault L t l pc d i e -> recoverable_or_incomplete e.
Proof.
  intros H. inversion H; subst; try (intros x; discriminate); [eapply (proj1 body_fault_soft)|eapply (proj1 (value_fault_soft L))]; eassumption.
Qed.

Lemma der_content_fault_soft L t l pc d i e : der_content_fault L t l pc d i e -> recoverable_or_incomplete e.
Proof.
  intros H. inversion H as [| |n c r e' _ _ Hk| |]; subst; try (intros x; discriminate); [|eapply (proj1 (value_fault_soft L)); eassumption].
  inversion Hk; subst; intros x; discriminate.
Qed.

(** [soft x]: the result [x] is not a [Failure]. *)
Definition soft {E A} (x : iresult E A) : Prop := forall e, x <> Err (Failure e).

Lemma soft_err {E A} (x : iresult E A) : (forall e, x = Err e -> recoverable_or_incomplete e) -> soft x.
Proof. intros H e He. now apply (H _ He e). Qed.

Lemma soft_bind {E A B} (x : iresult E A) (k : bytes * A -> iresult E B) :
  soft x -> (forall p, x = Ok p -> soft (k p)) -> soft (bind x k).
Proof. intros Hx Hk. destruct x as [p|e| |]; [now apply Hk| |discriminate|discriminate]. intros x Hy. apply (Hx x). cbn [bind] in Hy. congruence. Qed.

Lemma soft_berr {A B} (x : res berror A) (k : A -> iresult berror B) :
  (forall a, soft (k a)) -> soft (bind (map_err nerr_of_err x) k).
Proof. intros Hk. destruct x as [a|e| |]; [apply Hk| |discriminate|discriminate]. intros x. destruct e; discriminate. Qed.

(** nom's [alt], [opt] and [many0] go on after an [Error] and give up after a [Failure]:
    the readers never return one. *)
Theorem C109_readers : forall L i d t l pc, bytes_ok i ->
  soft (parse_ber_any i)
  /\ soft (ber_read_element_header i) /\ soft (der_read_element_header i)
  /\ soft (parse_ber_recursive L i d) /\ soft (parse_der_recursive L i d)
  /\ soft (parse_ber_with_tag L i t) /\ soft (parse_der_with_tag L i t)
  /\ soft (ber_read_element_content_as L i t l pc d) /\ soft (der_read_element_content_as L i t l pc d)
  /\ soft (parse_ber_i32 i) /\ soft (parse_ber_i64 i) /\ soft (parse_ber_u32 i) /\ soft (parse_ber_u64 i)
  /\ soft (parse_der_i32 i) /\ soft (parse_der_i64 i) /\ soft (parse_der_u32 i) /\ soft (parse_der_u64 i).
Proof.
  intros L i d t l pc Hok.
  assert (Hany : soft (parse_ber_any i)).
  { apply soft_err. intros e H. apply C102_element in H; [|exact Hok]. now apply element_fault_soft in H. }
  assert (Hhdr : soft (ber_read_element_header i)).
  { apply soft_err. intros e H. apply C102_header in H; [|exact Hok]. now apply header_fault_soft in H. }
  assert (Hdhdr : soft (der_read_element_header i)).
  { apply soft_err. intros e H. apply C103_header in H; [|exact Hok]. now apply header_fault_soft in H. }
  assert (Hget : forall i h d, bytes_ok i -> soft (ber_get_object_content i h d)).
  { intros i' h d' Hok'. apply soft_err. intros e H. apply content_err in H; [|exact Hok']. eapply (proj1 body_fault_soft), H. }
  assert (Hdc : forall i t l pc d, bytes_ok i -> soft (der_read_element_content_as L i t l pc d)).
  { intros i' t' l' pc' d' Hok'. apply soft_err. intros e H. apply C103_content in H; [|exact Hok']. now apply der_content_fault_soft in H. }
  assert (Hdany : soft (any_from_der i)).
  { apply soft_bind; [exact Hdhdr|]. intros [i1 h] _. apply soft_berr. intros n. apply soft_bind.
    - unfold take_streaming. destruct (nlen i1 <? n); intros x; discriminate.
    - intros [i2 data] _ x. discriminate. }
  repeat split; auto.
  - apply soft_err. intros e H. apply C102_parse_ber in H; [|exact Hok]. inversion H; subst.
    + intros x. discriminate.
    + eapply element_fault_soft; eassumption.
    + eapply (proj1 (value_fault_soft L)); eassumption.
  - unfold parse_der_recursive. apply soft_bind; [exact Hdhdr|]. intros [i1 h] E.
    assert (Hok1 : bytes_ok i1).
    { apply header_from_der_ber in E as [E _]. apply header_from_ber_consumes in E as (hb & -> & _). now apply bytes_ok_app in Hok. }
    assert (Hc : soft (der_read_element_content_recursive L i1 h d)).
    { unfold der_read_element_content_recursive.
      assert (Hu : soft (let* (r, data) := ber_get_object_content i1 h d in Ok (r, Obj h (CUnknown (mkAny h data))))).
      { apply soft_bind; [now apply Hget|]. intros [r data] _ x. discriminate. }
      destruct (h_class h); try exact Hu.
      specialize (Hdc i1 (h_tag h) (h_length h) (h_constructed h) d Hok1).
      destruct (der_read_element_content_as _ _ _ _ _ _) as [[r c]|e| |]; try (intros x; discriminate).
      destruct e as [n|e|e]; try (intros x; discriminate); [|now destruct (Hdc e)].
      destruct e; try exact Hu; intros x; discriminate. }
    destruct (h_length h); [|exact Hc]. destruct (MAX_OBJECT_SIZE <? n); [intros x; discriminate|exact Hc].
  - apply soft_err. intros e H. apply C102_with_tag in H; [|exact Hok]. inversion H; subst.
    + eapply header_fault_soft; eassumption.
    + intros x. discriminate.
    + eapply ber_content_fault_soft; eassumption.
  - apply soft_err. intros e H. apply C103_with_tag in H; [|exact Hok]. inversion H; subst.
    + eapply header_fault_soft; eassumption.
    + intros x. discriminate.
    + eapply der_content_fault_soft; eassumption.
  - apply soft_err. intros e H. apply C102_content in H; [|exact Hok]. eapply ber_content_fault_soft; eassumption.
  - apply soft_bind; [exact Hany|]. intros [r a] _. apply soft_berr. intros v x. discriminate.
  - apply soft_bind; [exact Hany|]. intros [r a] _. apply soft_berr. intros v x. discriminate.
  - apply soft_bind; [exact Hany|]. intros [r a] _. apply soft_berr. intros v x. discriminate.
  - apply soft_bind; [exact Hany|]. intros [r a] _. apply soft_berr. intros v x. discriminate.
  - apply soft_bind; [exact Hdany|]. intros [r a] _. apply soft_berr. intros v x. discriminate.
  - apply soft_bind; [exact Hdany|]. intros [r a] _. apply soft_berr. intros v x. discriminate.
  - apply soft_bind; [exact Hdany|]. intros [r a] _. apply soft_berr. intros v x. discriminate.
  - apply soft_bind; [exact Hdany|]. intros [r a] _. apply soft_berr. intros v x. discriminate.
Qed.
Print Assumptions C109_readers.

(** The combinators return one only if a callback does; SEQUENCE OF and SET OF also turn
    an [Error] of an element into one. *)
Theorem C109_combinators : forall {E A} (ops : err_ops E) i x t, bytes_ok i ->
  (forall f : bytes -> header -> iresult E A,
     parse_ber_container ops f i = Err (Failure x) \/ parse_der_container ops f i = Err (Failure x)
     \/ parse_ber_sequence_defined_g ops f i = Err (Failure x) \/ parse_der_sequence_defined_g ops f i = Err (Failure x)
     \/ parse_ber_set_defined_g ops f i = Err (Failure x) \/ parse_der_set_defined_g ops f i = Err (Failure x)
     \/ parse_ber_tagged_explicit_g ops t f i = Err (Failure x) \/ parse_der_tagged_explicit_g ops t f i = Err (Failure x) ->
     exists h c bs r, i = bs ++ r /\ element 50 h c bs /\ f c h = Err (Failure x))
  /\ (forall f : bytes -> header -> nat -> iresult E A,
     parse_ber_tagged_implicit_g ops t f i = Err (Failure x) \/ parse_der_tagged_implicit_g ops t f i = Err (Failure x) ->
     exists h c bs r, i = bs ++ r /\ element 50 h c bs /\ f c h 50%nat = Err (Failure x))
  /\ (forall f : bytes -> iresult E A, nom_parser f ->
     parse_ber_sequence_of_v ops f i = Err (Failure x) \/ parse_der_sequence_of_v ops f i = Err (Failure x)
     \/ parse_ber_set_of_v ops f i = Err (Failure x) \/ parse_der_set_of_v ops f i = Err (Failure x) ->
     exists h c bs r c', i = bs ++ r /\ element 50 h c bs /\ reaches f c c'
       /\ (f c' = Err (Error x) \/ f c' = Err (Failure x))).
Proof.
  intros E A ops i x t Hok.
  assert (Hp : forall e, recoverable_or_incomplete e -> recoverable_or_incomplete (passed (from_ber_error ops) e)).
  { intros e He y. destruct e as [n|e|e]; try discriminate. now destruct (He e). }
  assert (Hx : forall der wants (fails : bytes -> header -> nerr E -> Prop),
    combinator_fault (from_ber_error ops) (from_error_kind ops) der wants fails i (Failure x) ->
    exists h c bs r, i = bs ++ r /\ element 50 h c bs /\ fails c h (Failure x)).
  { intros der wants fails H. inversion H as [? ? Hc|? ? ? ? ? _ _ E1 E2|h c bs r ? Hf _ Hb E1 E2]; subst.
    - exfalso. inversion Hc as [? e Hh E1 E2|? ? ? ? ? ? ? E1 E2|? ? ? e _ _ _ Hb E1 E2]; subst.
      + eapply (Hp e); [eapply header_fault_soft, Hh|exact E2].
      + eapply (Hp e); [eapply (proj1 body_fault_soft), Hb|exact E2].
    - exists h, c, bs, r. repeat split; auto. destruct der; [now apply definite_is_element|exact Hf]. }
  split; [|split].
  - intros f H. destruct (C104_container ops f i (Failure x) Hok) as [A1 A2].
    destruct (C104_defined ops f i (Failure x) Hok) as (A3 & A4 & A5 & A6).
    destruct (C104_explicit ops f t i (Failure x) Hok) as [A7 A8].
    destruct H as [H|[H|[H|[H|[H|[H|[H|H]]]]]]];
      [apply A1 in H|apply A2 in H|apply A3 in H|apply A5 in H|apply A4 in H|apply A6 in H|apply A7 in H|apply A8 in H];
      exact (Hx _ _ _ H).
  - intros f H. destruct (C104_implicit ops f t i (Failure x) Hok) as [A1 A2].
    destruct H as [H|H]; [apply A1 in H|apply A2 in H]; exact (Hx _ _ _ H).
  - intros f Hn H. destruct (C104_of ops f i (Failure x) Hok Hn) as (A1 & A2 & A3 & A4).
    assert (Hex : exists h c bs r, i = bs ++ r /\ element 50 h c bs /\ elements_fault (from_error_kind ops) f c (Failure x)).
    { destruct H as [H|[H|[H|H]]]; [apply A1 in H|apply A3 in H|apply A2 in H|apply A4 in H]; exact (Hx _ _ _ H). }
    destruct Hex as (h & c & bs & r & Ei & He & Hf). exists h, c, bs, r.
    inversion Hf as [c' ? Hr Hc' E1|c' ? Hr Hc' E1| |]; subst; exists c'; auto.
Qed.
Print Assumptions C109_combinators.

(** ** C106: structures and tagged integers *)

(** DER as the readers check it: some contents, no superfluous zero octet in front. *)
Definition no_leading_zero (k : bytes) : Prop :=
  match k with [] => False | [_] => True | b0 :: b1 :: _ => ~ (b0 = 0 /\ b1 < 128) end.

Definition integer_octets (der : bool) (h : header) (k : bytes) : Prop :=
  if der then N.of_nat (length k) <= 4294967295 /\ no_leading_zero k
  else forall n, h_length h = Definite n -> n <= 4294967295.

(** At the front of [i] is an element with tag number 2, its contents are [k]; it is
    reported as [o] and followed by [r]. *)
Definition integer_at (der : bool) (i r : bytes) (o : obj) (k : bytes) : Prop :=
  exists bs h, i = bs ++ r /\ an_element der h k bs /\ h_tag h = 2 /\ integer_octets der h k
    /\ o = Obj h (CInteger k).

Lemma value_integer L h c k : value L 50 (taken_as 2 h) c k <-> k = CInteger c.
Proof.
  split.
  - intros H. pose proof (value_variant L 50 (taken_as 2 h) c k eq_refl H) as (s & ->).
    inversion H; subst; reflexivity.
  - intros ->. now apply v_integer.
Qed.

Lemma contents_integer L der h c k : contents_as L der 2 h c k <-> integer_octets der h c /\ k = CInteger c.
Proof.
  unfold contents_as. rewrite value_integer. unfold integer_octets, der_checked, no_leading_zero.
  destruct der; [|tauto]. split.
  - intros ((Hn & (_ & Hc & _) & _) & ->). split; [|reflexivity]. split; [apply Hn; discriminate|now apply Hc].
  - intros ((Hn & Hc) & ->). split; [|reflexivity]. split; [auto|]. split; [|discriminate].
    split; [discriminate|]. split; [auto|]. split; [|intros [|]; discriminate].
    intros H. cbn in H. repeat destruct H as [H|H]; try discriminate. contradiction.
Qed.

Lemma integer_exact L der i r o : bytes_ok i ->
  (reader (kit_of L der) (TValue 2) i = Ok (r, o) <-> exists k, integer_at der i r o k).
Proof.
  intros Hok. rewrite value_exact by exact Hok. cbn [accepted]. unfold integer_at. split.
  - intros (bs & h & c & k & -> & He & Ht & Hc & ->). apply contents_integer in Hc as [Hc ->].
    exists c, bs, h. auto.
  - intros (k & bs & h & -> & He & Ht & Hc & ->). exists bs, h, k, (CInteger k).
    rewrite contents_integer. auto 6.
Qed.

Lemma integer_reads L i r o : bytes_ok i ->
  (parse_ber_integer L i = Ok (r, o) <-> exists k, integer_at false i r o k).
Proof. intros Hok. exact (integer_exact L false i r o Hok). Qed.

Lemma integer_at_ok der i r o k : integer_at der i r o k -> bytes_ok i -> bytes_ok k /\ bytes_ok r.
Proof.
  intros (bs & h & -> & He & _) Hok. split; [now apply (an_element_ok _ _ _ _ _ He) in Hok|now apply bytes_ok_app in Hok].
Qed.

Lemma two_integers_exact L c rest a b : bytes_ok c ->
  (two_integers L c = Ok (rest, (a, b)) <-> exists m ka kb, integer_at false c m a ka /\ integer_at false m rest b kb).
Proof.
  intros Hok. unfold two_integers. split.
  - intros H. bind_inv H. destruct a0 as [m a']. bind_inv H. destruct a0 as [rest' b']. inv H.
    apply integer_reads in E as (ka & Ha); [|exact Hok]. destruct (integer_at_ok _ _ _ _ _ Ha Hok) as [_ Hm].
    apply integer_reads in E0 as (kb & Hb); [|exact Hm]. exists m, ka, kb. auto.
  - intros (m & ka & kb & Ha & Hb). destruct (integer_at_ok _ _ _ _ _ Ha Hok) as [_ Hm].
    rewrite (proj2 (integer_reads L c m a Hok)) by eauto. cbn [bind].
    now rewrite (proj2 (integer_reads L m rest b Hm)) by eauto.
Qed.

(** What the three parsers accept: an element with definite length that contains two
    INTEGERs.  What follows the second one counts for the last two only. *)
Definition two_inside (i r : bytes) (a b : obj) (P : header -> bytes -> Prop) : Prop :=
  exists bs h c m rest ka kb, i = bs ++ r /\ definite_element h c bs
    /\ integer_at false c m a ka /\ integer_at false m rest b kb /\ P h rest.

Lemma definite_content_ok h c bs r : definite_element h c bs -> bytes_ok (bs ++ r) -> bytes_ok c.
Proof. intros (hb & -> & _) Hok. rewrite !bytes_ok_app in Hok. tauto. Qed.

Lemma complete_exact L c rest s : bytes_ok c ->
  ((let* (i, s) := two_integers L c in let* (_, _) := nom_eof ber_ops i in Ok (i, s)) = Ok (rest, s)
   <-> two_integers L c = Ok ([], s) /\ rest = []).
Proof.
  intros Hok. destruct (two_integers L c) as [[m s']| | |]; cbn [bind]; try (split; [discriminate|intros [H _]; discriminate]).
  destruct m as [|x m]; cbn [nom_eof bind]; split; intros H; try discriminate.
  - inv H. auto.
  - destruct H as [H ->]. now inv H.
  - destruct H as [H _]. inv H.
Qed.

Theorem C106_structs : forall L i r a b t, bytes_ok i ->
  (parse_struct01 L i = Ok (r, (a, b)) <-> two_inside i r a b (fun h _ => h_tag h = 16))
  /\ (parse_struct01_complete L i = Ok (r, (a, b)) <-> two_inside i r a b (fun h rest => h_tag h = 16 /\ rest = []))
  /\ (parse_struct04 L i t = Ok (r, (a, b)) <-> two_inside i r a b (fun h rest => h_tag h = t /\ rest = [])).
Proof.
  intros L i r a b t Hok. unfold two_inside.
  assert (Htag : forall h (x : iresult berror (obj * obj)) y, (let* _ := map_err (err_into ber_ops) (assert_tag h T_Sequence) in x) = Ok y <-> h_tag h = 16 /\ x = Ok y).
  { intros h x y. unfold assert_tag. change T_Sequence with 16. destruct (h_tag h =? 16) eqn:Et; cbn [map_err bind]; split; intros H;
      [split; [lia|exact H]|tauto|discriminate|lia]. }
  unfold parse_struct01, parse_struct01_complete, parse_struct04, parse_der_sequence_defined_g.
  rewrite !der_container_iff by exact Hok. split; [|split]; split.
  - intros (h & c & bs & u & -> & He & H). apply Htag in H as [Ht H].
    apply two_integers_exact in H as (m & ka & kb & Ha & Hb); [|eapply definite_content_ok; eauto].
    exists bs, h, c, m, u, ka, kb. auto 6.
  - intros (bs & h & c & m & rest & ka & kb & -> & He & Ha & Hb & Ht). exists h, c, bs, rest. split; [reflexivity|]. split; [exact He|].
    apply Htag. split; [exact Ht|]. apply two_integers_exact; [eapply definite_content_ok; eauto|eauto].
  - intros (h & c & bs & u & -> & He & H). apply Htag in H as [Ht H].
    assert (Hc : bytes_ok c) by (eapply definite_content_ok; eauto).
    apply complete_exact in H as [H ->]; [|exact Hc].
    apply two_integers_exact in H as (m & ka & kb & Ha & Hb); [|exact Hc]. exists bs, h, c, m, [], ka, kb. auto 7.
  - intros (bs & h & c & m & rest & ka & kb & -> & He & Ha & Hb & Ht & ->). exists h, c, bs, []. split; [reflexivity|]. split; [exact He|].
    assert (Hc : bytes_ok c) by (eapply definite_content_ok; eauto).
    apply Htag. split; [exact Ht|]. apply complete_exact; [exact Hc|]. split; [|reflexivity]. apply two_integers_exact; eauto.
  - intros (h & c & bs & u & -> & He & H). destruct (h_tag h =? t) eqn:Et; cbn [negb] in H; [|discriminate].
    assert (Hc : bytes_ok c) by (eapply definite_content_ok; eauto).
    apply complete_exact in H as [H ->]; [|exact Hc].
    apply two_integers_exact in H as (m & ka & kb & Ha & Hb); [|exact Hc]. exists bs, h, c, m, [], ka, kb. repeat split; auto; lia.
  - intros (bs & h & c & m & rest & ka & kb & -> & He & Ha & Hb & Ht & ->). exists h, c, bs, []. split; [reflexivity|]. split; [exact He|].
    assert (Hc : bytes_ok c) by (eapply definite_content_ok; eauto).
    rewrite Ht, N.eqb_refl. cbn [negb]. apply complete_exact; [exact Hc|]. split; [|reflexivity]. apply two_integers_exact; eauto.
Qed.
Print Assumptions C106_structs.

(** What is left over in the SEQUENCE is the only thing the first two parsers judge
    differently; the third one refuses every other tag number first. *)
Theorem C106_left_over : forall L i r s, bytes_ok i ->
  parse_struct01 L i = Ok (r, s) ->
  (parse_struct01_complete L i = Ok (r, s) /\ parse_struct04 L i 16 = Ok (r, s))
  \/ (parse_struct01_complete L i = Err (Error (ENomError EkEof)) /\ parse_struct04 L i 16 = Err (Error (ENomError EkEof))).
Proof.
  intros L i r s Hok H. unfold parse_struct01, parse_der_sequence_defined_g in H.
  apply der_container_iff in H as (h & c & bs & u & -> & He & H); [|exact Hok]. bind_inv H.
  unfold parse_struct01_complete, parse_struct04, parse_der_sequence_defined_g.
  rewrite !(der_container_complete ber_ops _ _ _ _ r He). rewrite E. cbn [bind]. rewrite H. cbn [bind].
  assert (Ht : h_tag h = 16).
  { apply map_err_ok in E. unfold assert_tag in E. change T_Sequence with 16 in E. destruct (h_tag h =? 16) eqn:Et; [lia|discriminate]. }
  rewrite Ht. cbn. destruct u; cbn; auto.
Qed.
Print Assumptions C106_left_over.

Theorem C106_wrong_tag : forall L h c bs r t, definite_element h c bs -> h_tag h <> t ->
  parse_struct04 L (bs ++ r) t = Err (Error InvalidTag)
  /\ (t = 16 -> parse_struct01 L (bs ++ r) = Err (Error (UnexpectedTag (Some 16) (h_tag h)))
                /\ parse_struct01_complete L (bs ++ r) = Err (Error (UnexpectedTag (Some 16) (h_tag h)))).
Proof.
  intros L h c bs r t He Ht. unfold parse_struct01, parse_struct01_complete, parse_struct04, parse_der_sequence_defined_g.
  rewrite !(der_container_complete ber_ops _ _ _ _ r He).
  assert (Ef : (h_tag h =? t) = false) by lia. rewrite Ef. split; [reflexivity|]. intros ->.
  unfold assert_tag. change T_Sequence with 16. rewrite Ef. auto.
Qed.
Print Assumptions C106_wrong_tag.

(** The octets [k] are those of the integer in [i], after the tags: [explicit_integer]
    inside an element of any class but universal with tag number 2, [implicit_integer]
    as the contents of an element with tag number 2 (of any class, but of
    definite length), [application_integer] inside an element of class
    application. *)
Definition explicit_integer (der : bool) (i r k : bytes) : Prop :=
  exists bs h c m o, i = bs ++ r /\ an_element der h c bs /\ h_class h <> Universal /\ h_tag h = 2
    /\ h_constructed h = true /\ integer_at der c m o k.

Definition implicit_integer (der : bool) (i r k : bytes) : Prop :=
  exists bs h c, i = bs ++ r /\ an_element der h c bs /\ h_tag h = 2
    /\ h_length h <> Indefinite /\ integer_octets der h c /\ k = c.

Definition application_integer (i r k : bytes) : Prop :=
  exists bs h c m o, i = bs ++ r /\ definite_element h c bs /\ h_class h = Application /\ h_tag h = 2
    /\ integer_at false c m o k.

(** Each parser is the conversion of [k], with its error passed on or replaced. *)
Definition passes_on (r : bytes) (x : res berror N) : iresult berror N :=
  let* v := map_err nerr_of_err x in Ok (r, v).
Definition replaces (r : bytes) (x : res berror N) : iresult berror N :=
  match x with
  | Ok v => Ok (r, v)
  | Err _ => Err (Error (ENomError EkMapRes))
  | Panic => Panic
  | Diverge => Diverge
  end.

Lemma implicit_integer_contents L der h c bs k : bytes_ok c -> an_element der h c bs ->
  (implicit_contents L der 2 h c k
   <-> exists s, k = CInteger s /\ h_length h <> Indefinite /\ integer_octets der h c /\ s = c).
Proof.
  intros Hok He. unfold implicit_contents. rewrite contents_integer.
  split; [intros (Hn & H & ->); exists c; auto|intros (s & -> & Hn & H & ->); auto].
Qed.

Lemma tagged_runs L i r k : bytes_ok i ->
  (explicit_integer false i r k -> int_explicit_ber L i = passes_on r (as_u32 (CInteger k)))
  /\ (implicit_integer false i r k -> int_implicit_ber L i = passes_on r (as_u32 (CInteger k)))
  /\ (explicit_integer true i r k -> int_explicit_der L i = replaces r (as_u32 (CInteger k)))
  /\ (implicit_integer true i r k -> int_implicit_der L i = replaces r (as_u32 (CInteger k)))
  /\ (application_integer i r k -> parse_app01 L i = replaces r (as_u32 (CInteger k))).
Proof.
  intros Hok. repeat split.
  - intros (bs & h & c & m & o & -> & He & Hcl & Ht & Hcs & Hi).
    unfold int_explicit_ber, parse_ber_tagged_explicit_g. rewrite (ber_container_complete ber_ops _ _ _ _ r He).
    assert (Hc : bytes_ok c) by now apply (an_element_ok false _ _ _ _ He) in Hok.
    assert (E : class_eqb (h_class h) Universal = false) by (destruct (h_class h); cbn; congruence). rewrite E.
    unfold assert_tag, assert_constructed. rewrite Ht, Hcs. cbn [N.eqb map_err bind].
    rewrite (proj2 (integer_reads L c m o Hc)) by eauto. destruct Hi as (? & ? & _ & _ & _ & _ & ->).
    cbn [bind]. unfold obj_as_u32, passes_on. cbn [o_content]. destruct (as_u32 (CInteger k)); reflexivity.
  - intros (bs & h & c & -> & He & Ht & Hi).
    unfold int_implicit_ber, parse_ber_tagged_implicit_g. rewrite (ber_container_complete ber_ops _ _ _ _ r He).
    assert (Hc : bytes_ok c) by now apply (an_element_ok false _ _ _ _ He) in Hok.
    unfold assert_tag. rewrite Ht. cbn [N.eqb map_err bind].
    assert (Hx : exists x, parse_ber_content L T_Integer c h MAX_RECURSION = Ok (x, CInteger k)).
    { apply (contents_exact L false 2 h c bs (CInteger k) Hc He).
      apply (implicit_integer_contents L false h c bs _ Hc He). eauto. }
    destruct Hx as (x & ->). cbn [bind]. unfold passes_on. destruct (as_u32 (CInteger k)); reflexivity.
  - intros (bs & h & c & m & o & -> & He & Hcl & Ht & Hcs & Hi).
    unfold int_explicit_der, nom_map_res, parse_der_tagged_explicit, parse_der_tagged_explicit_g.
    rewrite (der_container_complete ber_ops _ _ _ _ r He).
    assert (Hc : bytes_ok c) by now apply (an_element_ok true _ _ _ _ He) in Hok.
    assert (E : class_eqb (h_class h) Universal = false) by (destruct (h_class h); cbn; congruence). rewrite E.
    unfold assert_tag. rewrite Ht, Hcs. cbn [N.eqb map_err bind negb]. unfold tagged_explicit_cb.
    assert (Hr : parse_der_integer L c = Ok (m, o)) by (apply (integer_exact L true c m o Hc); eauto).
    rewrite Hr. destruct Hi as (? & ? & _ & _ & _ & _ & ->). cbn. reflexivity.
  - intros (bs & h & c & -> & He & Ht & Hi).
    unfold int_implicit_der, nom_map_res, parse_der_tagged_implicit, parse_der_tagged_implicit_g.
    rewrite (der_container_complete ber_ops _ _ _ _ r He).
    assert (Hc : bytes_ok c) by now apply (an_element_ok true _ _ _ _ He) in Hok.
    unfold assert_tag. rewrite Ht. cbn [N.eqb map_err bind]. unfold tagged_implicit_cb.
    assert (Hx : exists x, parse_der_content L T_Integer c h MAX_RECURSION = Ok (x, CInteger k)).
    { apply (contents_exact L true 2 h c bs (CInteger k) Hc He).
      apply (implicit_integer_contents L true h c bs _ Hc He). eauto. }
    destruct Hx as (x & ->). reflexivity.
  - intros (bs & h & c & m & o & -> & He & Hcl & Ht & Hi).
    unfold parse_app01. rewrite (der_container_complete ber_ops _ _ _ _ r He).
    assert (Hc : bytes_ok c) by (eapply definite_content_ok; eauto).
    rewrite Hcl, Ht. cbn [class_eqb N.eqb negb]. unfold nom_map_res.
    rewrite (proj2 (integer_reads L c m o Hc)) by eauto. destruct Hi as (? & ? & _ & _ & _ & _ & ->).
    cbn [bind]. unfold obj_as_u32, replaces. cbn [o_content]. destruct (as_u32 (CInteger k)); reflexivity.
Qed.

Lemma tagged_reached L i r v : bytes_ok i ->
  (int_explicit_ber L i = Ok (r, v) -> exists k, explicit_integer false i r k)
  /\ (int_implicit_ber L i = Ok (r, v) -> exists k, implicit_integer false i r k)
  /\ (int_explicit_der L i = Ok (r, v) -> exists k, explicit_integer true i r k)
  /\ (int_implicit_der L i = Ok (r, v) -> exists k, implicit_integer true i r k)
  /\ (parse_app01 L i = Ok (r, v) -> exists k, application_integer i r k).
Proof.
  intros Hok.
  assert (Hm : forall A B (f : bytes -> iresult berror A) (g : A -> res berror B) c x y,
    nom_map_res f g c = Ok (x, y) -> exists z, f c = Ok (x, z)).
  { intros A B f g c x y H. unfold nom_map_res in H. bind_inv H. destruct a as [x' z]. exists z.
    destruct (g z); try discriminate. now inv H. }
  repeat split; intros H.
  - apply C30_ber_iff in H as (h & c & bs & u & -> & He & Hcl & Ht & Hcs & Hf); [|exact Hok].
    assert (Hc : bytes_ok c) by now apply (an_element_ok false _ _ _ _ He) in Hok.
    bind_inv Hf. destruct a as [m o]. apply integer_reads in E as (k & Hk); [|exact Hc].
    exists k, bs, h, c, m, o. auto 7.
  - apply C31_ber_iff in H as (h & c & bs & u & -> & He & Ht & Hf); [|exact Hok].
    assert (Hc : bytes_ok c) by now apply (an_element_ok false _ _ _ _ He) in Hok.
    bind_inv Hf. destruct a as [m x].
    assert (Hx : implicit_contents L false 2 h c x) by (apply (contents_exact L false 2 h c bs x Hc He); exists m; exact E).
    apply (implicit_integer_contents L false h c bs x Hc He) in Hx as (k & _ & Hk). exists k, bs, h, c. auto.
  - apply Hm in H as (z & H). apply C30_der_iff in H as (h & c & bs & u & -> & He & Hcl & Ht & Hcs & Hf); [|exact Hok].
    assert (Hc : bytes_ok c) by now apply (an_element_ok true _ _ _ _ He) in Hok.
    unfold tagged_explicit_cb in Hf. bind_inv Hf. destruct a as [m o].
    apply (integer_exact L true c m o Hc) in E as (k & Hk). exists k, bs, h, c, m, o. auto 7.
  - apply Hm in H as (z & H). apply C31_der_iff in H as (h & c & bs & u & -> & He & Ht & Hf); [|exact Hok].
    assert (Hc : bytes_ok c) by now apply (an_element_ok true _ _ _ _ He) in Hok.
    unfold tagged_implicit_cb in Hf. bind_inv Hf. destruct a as [m x].
    assert (Hx : implicit_contents L true 2 h c x) by (apply (contents_exact L true 2 h c bs x Hc He); exists m; exact E).
    apply (implicit_integer_contents L true h c bs x Hc He) in Hx as (k & _ & Hk). exists k, bs, h, c. auto.
  - unfold parse_app01 in H. apply der_container_iff in H as (h & c & bs & u & -> & He & Hf); [|exact Hok].
    assert (Hc : bytes_ok c) by (eapply definite_content_ok; eauto).
    destruct (class_eqb (h_class h) Application) eqn:Ecl; cbn [negb] in Hf; [|discriminate].
    destruct (h_tag h =? 2) eqn:Et; cbn [negb] in Hf; [|discriminate].
    apply Hm in Hf as (o & Ho). apply integer_reads in Ho as (k & Hk); [|exact Hc].
    exists k, bs, h, c, u, o. repeat split; auto; [destruct (h_class h); cbn in Ecl; congruence|lia].
Qed.

Lemma tagged_ok der i r k : bytes_ok i ->
  explicit_integer der i r k \/ implicit_integer der i r k \/ application_integer i r k -> bytes_ok k.
Proof.
  intros Hok [H|[H|H]].
  - destruct H as (bs & h & c & m & o & -> & He & _ & _ & _ & Hi). destruct (an_element_ok _ _ _ _ _ He Hok) as [Hc _].
    now apply (integer_at_ok _ _ _ _ _ Hi).
  - destruct H as (bs & h & c & -> & He & _ & Hi). destruct (an_element_ok _ _ _ _ _ He Hok) as [Hc _].
    destruct Hi as (_ & _ & ->). exact Hc.
  - destruct H as (bs & h & c & m & o & -> & He & _ & _ & Hi). apply (definite_content_ok _ _ _ _ He) in Hok.
    now apply (integer_at_ok _ _ _ _ _ Hi).
Qed.

Definition u32_value (k : bytes) (v : N) : Prop := twos_complement k = Z.of_N v /\ v < 2 ^ 32.

(** What is accepted, with what value. *)
Theorem C106_tagged : forall L i r v, bytes_ok i ->
  (int_explicit_ber L i = Ok (r, v) <-> exists k, explicit_integer false i r k /\ u32_value k v)
  /\ (int_explicit_der L i = Ok (r, v) <-> exists k, explicit_integer true i r k /\ u32_value k v)
  /\ (int_implicit_ber L i = Ok (r, v) <-> exists k, implicit_integer false i r k /\ u32_value k v)
  /\ (int_implicit_der L i = Ok (r, v) <-> exists k, implicit_integer true i r k /\ u32_value k v)
  /\ (parse_app01 L i = Ok (r, v) <-> exists k, application_integer i r k /\ u32_value k v).
Proof.
  intros L i r v Hok. destruct (tagged_reached L i r v Hok) as (R1 & R2 & R3 & R4 & R5).
  assert (Hp : forall k, bytes_ok k -> passes_on r (as_u32 (CInteger k)) = Ok (r, v) <-> u32_value k v).
  { intros k Hk. destruct (C14_u32 k Hk) as [H _]. rewrite <- (H v). unfold passes_on.
    destruct (as_u32 (CInteger k)); cbn [map_err bind]; split; intros E; congruence. }
  assert (Hr : forall k, bytes_ok k -> replaces r (as_u32 (CInteger k)) = Ok (r, v) <-> u32_value k v).
  { intros k Hk. destruct (C14_u32 k Hk) as [H _]. rewrite <- (H v). unfold replaces.
    destruct (as_u32 (CInteger k)); split; intros E; congruence. }
  pose proof (fun der k => tagged_ok der i r k Hok) as Hk.
  pose proof (fun k => tagged_runs L i r k Hok) as Ht. repeat split.
  1: intros H; destruct (R1 H) as (k & Hx); exists k; split; [exact Hx|]; apply Hp; [eauto|]; destruct (Ht k) as (T & _); now rewrite <- T.
  2: intros H; destruct (R3 H) as (k & Hx); exists k; split; [exact Hx|]; apply Hr; [eauto|]; destruct (Ht k) as (_ & _ & T & _); now rewrite <- T.
  3: intros H; destruct (R2 H) as (k & Hx); exists k; split; [exact Hx|]; apply Hp; [eauto|]; destruct (Ht k) as (_ & T & _); now rewrite <- T.
  4: intros H; destruct (R4 H) as (k & Hx); exists k; split; [exact Hx|]; apply Hr; [eauto|]; destruct (Ht k) as (_ & _ & _ & T & _); now rewrite <- T.
  5: intros H; destruct (R5 H) as (k & Hx); exists k; split; [exact Hx|]; apply Hr; [eauto|]; destruct (Ht k) as (_ & _ & _ & _ & T); now rewrite <- T.
  all: intros (k & Hx & Hv); destruct (Ht k) as (T1 & T2 & T3 & T4 & T5).
  - rewrite (T1 Hx). apply Hp; eauto.
  - rewrite (T3 Hx). apply Hr; eauto.
  - rewrite (T2 Hx). apply Hp; eauto.
  - rewrite (T4 Hx). apply Hr; eauto.
  - rewrite (T5 Hx). apply Hr; eauto.
  Unshelve. all: exact true.
Qed.
Print Assumptions C106_tagged.

(** An integer outside the range of 32 bits: the error says what is wrong if the
    conversion is in the callback, and is lost with [map_res]. *)
Theorem C106_range : forall L i r k, bytes_ok i -> ~ (0 <= twos_complement k < 2 ^ 32)%Z ->
  let reason := if (twos_complement k <? 0)%Z then IntegerNegative else IntegerTooLarge in
  (explicit_integer false i r k -> int_explicit_ber L i = Err (Error reason))
  /\ (implicit_integer false i r k -> int_implicit_ber L i = Err (Error reason))
  /\ (explicit_integer true i r k -> int_explicit_der L i = Err (Error (ENomError EkMapRes)))
  /\ (implicit_integer true i r k -> int_implicit_der L i = Err (Error (ENomError EkMapRes)))
  /\ (application_integer i r k -> parse_app01 L i = Err (Error (ENomError EkMapRes))).
Proof.
  intros L i r k Hok Hn reason. destruct (tagged_runs L i r k Hok) as (T1 & T2 & T3 & T4 & T5).
  pose proof (fun der => tagged_ok der i r k Hok) as Hk.
  assert (He : bytes_ok k -> as_u32 (CInteger k) = Err reason).
  { intros Hk'. destruct (C14_u32 k Hk') as (_ & H1 & H2). unfold reason.
    destruct (twos_complement k <? 0)%Z eqn:E; [apply H1; lia|apply H2]. change (Z.of_N 32) with 32%Z. lia. }
  assert (Hx : nerr_of_err reason = Error reason) by (unfold reason; destruct (_ <? _)%Z; reflexivity).
  repeat split; intros H.
  - rewrite (T1 H). unfold passes_on. rewrite He by eauto. cbn. now rewrite Hx.
  - rewrite (T2 H). unfold passes_on. rewrite He by eauto. cbn. now rewrite Hx.
  - rewrite (T3 H). unfold replaces. now rewrite He by eauto.
  - rewrite (T4 H). unfold replaces. now rewrite He by eauto.
  - rewrite (T5 H). unfold replaces. now rewrite He by eauto.
  Unshelve. all: exact true.
Qed.
Print Assumptions C106_range.

(** An element that is not of the application class, or has another number, is
    refused with a recoverable error that says which. *)
Theorem C106_app_refusals : forall L bs h c r, definite_element h c bs ->
  (h_class h <> Application -> parse_app01 L (bs ++ r) = Err (Error (UnexpectedClass None (h_class h))))
  /\ (h_class h = Application -> h_tag h <> 2 -> parse_app01 L (bs ++ r) = Err (Error InvalidTag)).
Proof.
  intros L bs h c r He. unfold parse_app01. rewrite (der_container_complete ber_ops _ _ _ _ r He). split.
  - intros Hc. destruct (h_class h); try reflexivity. congruence.
  - intros -> Ht. apply N.eqb_neq in Ht. now rewrite Ht.
Qed.
Print Assumptions C106_app_refusals.

Example C106_app_refusals_ex : parse_app01 SL (hx "30 03 02 01 01 ff") = Err (Error (UnexpectedClass None Universal))
  /\ parse_app01 SL (hx "a2 03 02 01 01") = Err (Error (UnexpectedClass None ContextSpecific))
  /\ parse_app01 SL (hx "63 03 02 01 01") = Err (Error InvalidTag).
Proof. vm_compute. auto. Qed.

(** The inputs of the test programs, and ones they do not try. *)
Example C106_ex : let two := hx "30 0a 02 03 01 00 01 02 03 01 00 00" in
  (exists h1 h2, parse_struct01 SL two = Ok ([], (Obj h1 (CInteger [1; 0; 1]), Obj h2 (CInteger [1; 0; 0]))))
  /\ parse_struct01_complete SL two = parse_struct01 SL two /\ parse_struct04 SL two 16 = parse_struct01 SL two
  /\ parse_struct04 SL two 17 = Err (Error InvalidTag)
  /\ (exists x, parse_struct01 SL (hx "30 0c 02 03 01 00 01 02 03 01 00 00 ff ff") = Ok ([], x))
  /\ parse_struct01_complete SL (hx "30 0c 02 03 01 00 01 02 03 01 00 00 ff ff") = Err (Error (ENomError EkEof))
  /\ int_explicit_ber SL (hx "a2 80 02 03 01 00 01 00 00") = Ok ([], 65537)
  /\ int_explicit_der SL (hx "a2 05 02 03 01 00 01") = Ok ([], 65537)
  /\ int_implicit_ber SL (hx "82 03 01 00 01") = Ok ([], 65537)
  /\ int_implicit_der SL (hx "82 03 01 00 01") = Ok ([], 65537)
  /\ parse_app01 SL (hx "62 05 02 03 01 00 01") = Ok ([], 65537)
  /\ int_explicit_ber SL (hx "a2 03 02 01 80") = Err (Error IntegerNegative)
  /\ int_implicit_ber SL (hx "82 05 01 00 00 00 00") = Err (Error IntegerTooLarge)
  /\ int_explicit_der SL (hx "a2 03 02 01 80") = Err (Error (ENomError EkMapRes))
  /\ parse_app01 SL (hx "62 03 02 01 80") = Err (Error (ENomError EkMapRes)).
Proof. vm_compute. repeat split; repeat eexists. Qed.

(** ** C107: the Name parser of constructed.rs *)

(** At the front of [i] is an attribute: in an element with tag number 16 an object
    identifier and a string of one of three types; then a relative distinguished name,
    in an element with tag number 17 an attribute.  What follows in the element is
    not looked at. *)
Definition attribute_at (L : leaves) (i r : bytes) (x : oid * obj) : Prop :=
  exists bs h c m rest ho, i = bs ++ r /\ definite_element h c bs /\ h_tag h = 16
    /\ accepted L false (TValue 6) c m (Obj ho (COID (fst x))) /\ accepted L false directory_string m rest (snd x).
Definition rdn_at (L : leaves) (i r : bytes) (x : oid * obj) : Prop :=
  exists bs h c rest, i = bs ++ r /\ definite_element h c bs /\ h_tag h = 17 /\ attribute_at L c rest x.

(** The longest series at the front of [c] gives [l] and leaves [rest]. *)
Inductive leading {A} (P : bytes -> bytes -> A -> Prop) : bytes -> list A -> bytes -> Prop :=
| lead_stop c : (forall r x, ~ P c r x) -> leading P c [] c
| lead_more c m x l rest : P c m x -> leading P m l rest -> leading P c (x :: l) rest.

Lemma assert_tag_ok {E} (f : berror -> E) h t u : map_err f (assert_tag h t) = Ok u <-> h_tag h = t.
Proof.
  unfold assert_tag. destruct u. destruct (h_tag h =? t) eqn:Et; cbn [map_err]; split; intros H;
    [lia|reflexivity|discriminate|lia].
Qed.

Lemma der_sequence_exact {A} (f : bytes -> iresult berror A) i r v : bytes_ok i ->
  (parse_der_sequence_defined_g ber_ops (fun c _ => f c) i = Ok (r, v)
   <-> exists bs h c rest, i = bs ++ r /\ definite_element h c bs /\ h_tag h = 16 /\ f c = Ok (rest, v)).
Proof.
  intros Hok. unfold parse_der_sequence_defined_g. rewrite der_container_iff by exact Hok. split.
  - intros (h & c & bs & u & -> & He & H). bind_inv H. apply assert_tag_ok in E. exists bs, h, c, u. auto.
  - intros (bs & h & c & rest & -> & He & Ht' & Hf). exists h, c, bs, rest. split; [reflexivity|]. split; [exact He|].
    rewrite (proj2 (assert_tag_ok _ h T_Sequence tt) Ht'). exact Hf.
Qed.

Lemma der_set_exact {A} (f : bytes -> iresult berror A) i r v : bytes_ok i ->
  (parse_der_set_defined_g ber_ops (fun c _ => f c) i = Ok (r, v)
   <-> exists bs h c rest, i = bs ++ r /\ definite_element h c bs /\ h_tag h = 17 /\ f c = Ok (rest, v)).
Proof.
  intros Hok. unfold parse_der_set_defined_g. rewrite der_container_iff by exact Hok. split.
  - intros (h & c & bs & u & -> & He & H). bind_inv H. apply assert_tag_ok in E. exists bs, h, c, u. auto.
  - intros (bs & h & c & rest & -> & He & Ht' & Hf). exists h, c, bs, rest. split; [reflexivity|]. split; [exact He|].
    rewrite (proj2 (assert_tag_ok _ h T_Set tt) Ht'). exact Hf.
Qed.

Lemma directory_string02_exact L i r o : bytes_ok i ->
  (directory_string02 L i = Ok (r, o) <-> accepted L false directory_string i r o).
Proof.
  intros Hok.
  assert (Hd : directory_string02 L i = reader (ber_kit L) directory_string i).
  { unfold directory_string02, directory_string. cbn [reader].
    change (parse_ber_utf8string L) with (fun i => parse_ber_with_tag L i 12).
    change (parse_ber_printablestring L) with (fun i => parse_ber_with_tag L i 19).
    change (parse_ber_ia5string L) with (fun i => parse_ber_with_tag L i 22).
    cbn [nom_alt ber_kit k_value]. destruct (parse_ber_with_tag L i 12) as [|[]| |]; try reflexivity.
    destruct (parse_ber_with_tag L i 19) as [|[]| |]; try reflexivity.
    destruct (parse_ber_with_tag L i 22) as [|[]| |]; reflexivity. }
  rewrite Hd. assert (Hdi : distinct directory_string) by (cbn; unfold apart; cbn; intuition congruence).
  exact (proj1 (reader_exact L false) directory_string i r o Hdi Hok).
Qed.

Lemma oid02_exact L i r x : bytes_ok i ->
  (nom_map_res (parse_ber_oid L) obj_as_oid i = Ok (r, x) <-> exists ho, accepted L false (TValue 6) i r (Obj ho (COID x))).
Proof.
  intros Hok.
  assert (Hr : forall i o, bytes_ok i -> (parse_ber_oid L i = Ok (r, o) <-> accepted L false (TValue 6) i r o))
    by (intros i' o Hok'; exact (value_exact L false 6 i' r o Hok')).
  unfold nom_map_res. split.
  - intros H. bind_inv H. destruct a as [r' o].
    assert (r' = r) by (destruct (obj_as_oid o); inv H; reflexivity). subst r'. apply (Hr i o Hok) in E.
    pose proof E as (bs & h & c & k & _ & _ & _ & (_ & Hv) & ->).
    apply value_variant in Hv as (s & ->); [|reflexivity]. cbn in H. inv H. eauto.
  - intros (ho & Ha). apply (Hr i _ Hok) in Ha. now rewrite Ha.
Qed.

Lemma attr02_exact L i r x : bytes_ok i -> (attr02 L i = Ok (r, x) <-> attribute_at L i r x).
Proof.
  intros Hok. unfold attr02. rewrite (der_sequence_exact (fun i =>
    let* (i, o) := nom_map_res (parse_ber_oid L) obj_as_oid i in
    let* (i, s) := directory_string02 L i in Ok (i, (o, s))) i r x Hok).
  unfold attribute_at. split.
  - intros (bs & h & c & rest & -> & He & Ht & H). assert (Hc : bytes_ok c) by (eapply definite_content_ok; eauto).
    bind_inv H. destruct a as [m o]. bind_inv H. destruct a as [rest' s]. inv H.
    apply oid02_exact in E as (ho & Ho); [|exact Hc].
    assert (Hm : bytes_ok m) by (apply accepted_suffix in Ho as (p & ->); now apply bytes_ok_app in Hc).
    apply directory_string02_exact in E0; [|exact Hm]. exists bs, h, c, m, rest, ho. auto 7.
  - intros (bs & h & c & m & rest & ho & -> & He & Ht & Ho & Hs). exists bs, h, c, rest. do 3 (split; [auto|]).
    assert (Hc : bytes_ok c) by (eapply definite_content_ok; eauto).
    assert (Hm : bytes_ok m) by (pose proof Ho as Ho'; apply accepted_suffix in Ho' as (p & ->); now apply bytes_ok_app in Hc).
    rewrite (proj2 (oid02_exact L c m (fst x) Hc)) by eauto. cbn [bind].
    rewrite (proj2 (directory_string02_exact L m rest (snd x) Hm) Hs). cbn [bind]. now destruct x.
Qed.

Lemma rdn02_exact L i r x : bytes_ok i -> (rdn02 L i = Ok (r, x) <-> rdn_at L i r x).
Proof.
  intros Hok. unfold rdn02. rewrite (der_set_exact (attr02 L) i r x Hok). unfold rdn_at.
  split; intros (bs & h & c & rest & -> & He & Ht & H); exists bs, h, c, rest;
    (apply attr02_exact in H; [auto|eapply definite_content_ok; eauto]).
Qed.

(** No step of it returns a [Failure] or does not return. *)
Lemma directory_string02_soft L i : bytes_ok i -> soft (directory_string02 L i).
Proof.
  intros Hok. unfold directory_string02. cbn [nom_alt].
  assert (Hs : forall t, soft (parse_ber_with_tag L i t)) by (intros t; eapply (C109_readers L i 0 t Indefinite true); exact Hok).
  pose proof (Hs 12) as H1. pose proof (Hs 19) as H2. pose proof (Hs 22) as H3.
  change (parse_ber_utf8string L i) with (parse_ber_with_tag L i 12).
  change (parse_ber_printablestring L i) with (parse_ber_with_tag L i 19).
  change (parse_ber_ia5string L i) with (parse_ber_with_tag L i 22).
  destruct (parse_ber_with_tag L i 12) as [|[]| |]; try exact H1; try (intros x; discriminate).
  destruct (parse_ber_with_tag L i 19) as [|[]| |]; try exact H2; try (intros x; discriminate).
  destruct (parse_ber_with_tag L i 22) as [|[]| |]; try exact H3; intros x; discriminate.
Qed.

Lemma attr02_soft L i : bytes_ok i -> soft (attr02 L i).
Proof.
  intros Hok x H.
  destruct (proj1 (C109_combinators ber_ops i x 0 Hok) _ (or_intror (or_intror (or_intror (or_introl H)))))
    as (h & c & bs & r & -> & He & Hc).
  assert (Hok' : bytes_ok c) by (now apply (an_element_ok false _ _ _ _ He) in Hok).
  revert Hc. apply soft_bind.
  - intros y Hy. unfold nom_map_res in Hy.
    assert (Ho : soft (parse_ber_oid L c)) by (eapply (C109_readers L c 0 6 Indefinite true); exact Hok').
    revert Hy. apply soft_bind; [exact Ho|]. intros [m o] _. destruct (obj_as_oid o); intros z; discriminate.
  - intros [m o] E. apply soft_bind; [|intros [m' s] _ z; discriminate].
    apply directory_string02_soft. apply oid02_exact in E as (ho & Ha); [|exact Hok'].
    apply accepted_suffix in Ha as (p & ->). now apply bytes_ok_app in Hok'.
Qed.

Lemma rdn02_soft L i : bytes_ok i -> soft (rdn02 L i).
Proof.
  intros Hok x H.
  destruct (proj1 (C109_combinators ber_ops i x 0 Hok) _ (or_intror (or_intror (or_intror (or_intror (or_intror (or_introl H)))))))
    as (h & c & bs & r & -> & He & Hc).
  apply (attr02_soft L c) in Hc; [exact Hc|]. now apply (an_element_ok false _ _ _ _ He) in Hok.
Qed.

Lemma rdn02_total L i : total (rdn02 L i).
Proof.
  assert (Ht : forall t c, total (parse_ber_with_tag L c t)) by (intros; apply with_tag_total).
  assert (Hs : forall c, total (directory_string02 L c)).
  { intros c. unfold directory_string02. cbn [nom_alt]. pose proof (Ht 12 c) as H1. pose proof (Ht 19 c) as H2. pose proof (Ht 22 c) as H3.
    change (parse_ber_utf8string L c) with (parse_ber_with_tag L c 12).
    change (parse_ber_printablestring L c) with (parse_ber_with_tag L c 19).
    change (parse_ber_ia5string L c) with (parse_ber_with_tag L c 22).
    destruct (parse_ber_with_tag L c 12) as [|[]| |]; auto with total.
    destruct (parse_ber_with_tag L c 19) as [|[]| |]; auto with total.
    destruct (parse_ber_with_tag L c 22) as [|[]| |]; auto with total. }
  apply der_container_total. intros c h. unfold assert_tag. destruct (_ =? _); cbn [map_err bind]; auto with total.
  apply der_container_total. intros c' h'. unfold assert_tag. destruct (h_tag h' =? T_Sequence); cbn [map_err bind]; auto with total.
  apply total_bind.
  - unfold nom_map_res. apply total_bind; [apply Ht|]. intros [m o] _. unfold obj_as_oid, as_oid.
    destruct (o_content o); auto with total.
  - intros [m o] _. apply total_bind; [apply Hs|]. intros [m' s] _. auto with total.
Qed.

Lemma rdn_at_shorter L i r x : rdn_at L i r x -> (length r < length i)%nat /\ exists p, i = p ++ r.
Proof.
  intros (bs & h & c & rest & -> & (hb & -> & Hh & _) & _). split; [|eauto].
  pose proof (header_octets_len _ _ Hh). rewrite !app_length. lia.
Qed.

Lemma many0_leading L : forall fuel acc c, bytes_ok c -> (length c < fuel)%nat ->
  exists l rest, nom_many0_loop ber_ops (nom_complete ber_ops (rdn02 L)) fuel acc c = Ok (rest, rev acc ++ l)
    /\ leading (rdn_at L) c l rest.
Proof.
  induction fuel as [|fuel IH]; intros acc c Hok Hf; [lia|]. cbn [nom_many0_loop]. unfold nom_complete at 1.
  pose proof (rdn02_total L c) as [Hp Hd]. pose proof (rdn02_soft L c Hok) as Hs.
  destruct (rdn02 L c) as [[m x]|e| |] eqn:E; try congruence; cbn [map_err].
  - apply rdn02_exact in E; [|exact Hok]. destruct (rdn_at_shorter _ _ _ _ E) as [Hl (p & Ec)].
    replace (length m =? length c)%nat with false by (symmetry; apply Nat.eqb_neq; lia).
    assert (Hm : bytes_ok m) by (subst c; now apply bytes_ok_app in Hok).
    destruct (IH (x :: acc) m Hm ltac:(lia)) as (l & rest & Hr & Hlead). exists (x :: l), rest.
    split; [|econstructor; eassumption]. rewrite Hr. cbn [rev]. now rewrite <- app_assoc.
  - assert (Hno : forall r x, ~ rdn_at L c r x).
    { intros r x Hx. apply rdn02_exact in Hx; [congruence|exact Hok]. }
    exists [], c. rewrite app_nil_r. destruct e as [n|e|e]; [| |now destruct (Hs e)]; (split; [reflexivity|now constructor]).
Qed.

Lemma leading_unique L c l rest : bytes_ok c -> leading (rdn_at L) c l rest ->
  forall l' rest', leading (rdn_at L) c l' rest' -> l' = l /\ rest' = rest.
Proof.
  intros Hok H. induction H as [c Hno|c m x l rest Hx _ IH]; intros l' rest' H'.
  - inversion H' as [|? m' x' ? ? Hx' _]; subst; [auto|]. now apply Hno in Hx'.
  - inversion H' as [? Hno|? m' x' l'' ? Hx' Hl']; subst; [now apply Hno in Hx|].
    assert (Hm : bytes_ok m) by (destruct (rdn_at_shorter _ _ _ _ Hx) as [_ (p & ->)]; now apply bytes_ok_app in Hok).
    apply rdn02_exact in Hx; [|exact Hok]. apply rdn02_exact in Hx'; [|exact Hok]. rewrite Hx in Hx'. inv Hx'.
    destruct (IH Hm _ _ Hl') as [-> ->]. auto.
Qed.

Lemma name02_runs L h c bs r : bytes_ok (bs ++ r) -> definite_element h c bs -> h_tag h = 16 ->
  exists l rest, name02 L (bs ++ r) = Ok (r, l) /\ leading (rdn_at L) c l rest.
Proof.
  intros Hok He Ht. assert (Hc : bytes_ok c) by (eapply definite_content_ok; eauto).
  destruct (many0_leading L (S (length c)) [] c Hc ltac:(lia)) as (l & rest & Hm & Hl). exists l, rest. split; [|exact Hl].
  apply (der_sequence_exact (fun c => nom_many0 ber_ops (nom_complete ber_ops (rdn02 L)) c) (bs ++ r) r l Hok).
  exists bs, h, c, rest. auto.
Qed.

(** What is returned: the relative distinguished names up to the first thing that is
    not one.  What comes after that is dropped without an error. *)
Theorem C107_exact : forall L i r l, bytes_ok i ->
  (name02 L i = Ok (r, l)
   <-> exists bs h c rest, i = bs ++ r /\ definite_element h c bs /\ h_tag h = 16 /\ leading (rdn_at L) c l rest).
Proof.
  intros L i r l Hok. split.
  - intros H. pose proof H as H0.
    apply (der_sequence_exact (fun c => nom_many0 ber_ops (nom_complete ber_ops (rdn02 L)) c) i r l Hok) in H0
      as (bs & h & c & u & -> & He & Ht & _).
    destruct (name02_runs L h c bs r Hok He Ht) as (l' & rest & Hn & Hl). rewrite Hn in H. inv H.
    exists bs, h, c, rest. auto.
  - intros (bs & h & c & rest & -> & He & Ht & Hl).
    destruct (name02_runs L h c bs r Hok He Ht) as (l' & rest' & Hn & Hl').
    assert (Hc : bytes_ok c) by (eapply definite_content_ok; eauto).
    destruct (leading_unique L c l' rest' Hc Hl' l rest Hl) as [-> _]. exact Hn.
Qed.
Print Assumptions C107_exact.

(** No element with tag number 16 is refused, whatever is in it. *)
Theorem C107_never_refuses : forall L h c bs r, bytes_ok (bs ++ r) -> definite_element h c bs -> h_tag h = 16 ->
  exists l, name02 L (bs ++ r) = Ok (r, l).
Proof. intros L h c bs r Hok He Ht. destruct (name02_runs L h c bs r Hok He Ht) as (l & rest & H & _). eauto. Qed.
Print Assumptions C107_never_refuses.

(** Where the parser of der_parser.rs (C101) accepts a Name without empty relative
    distinguished names, this one returns the first attribute of each. *)
Theorem C107_agrees : forall L i r h sets, bytes_ok i -> N.of_nat (length i) <= 4294967295 ->
  parse_name L i = Ok (r, Obj h (CSequence sets)) -> Forall (fun s => o_content s <> CSet []) sets ->
  exists l, name02 L i = Ok (r, l)
    /\ Forall2 (fun s x => exists hs ha ho more,
         s = Obj hs (CSet (Obj ha (CSequence [Obj ho (COID (fst x)); snd x]) :: more))) sets l.
Proof.
  intros L i r h sets Hok Hs H Hne.
  apply (C101_exact L i r _ Hok) in H as (bs & h0 & c & os & -> & He & Ht & Hp & E). injection E as -> ->.
  assert (Hlead : exists l, leading (rdn_at L) c l [] /\ Forall2 (fun s x => exists hs ha ho more,
         s = Obj hs (CSet (Obj ha (CSequence [Obj ho (COID (fst x)); snd x]) :: more))) os l).
  { apply short_content with (2 := Hs) in He as [Hsc _]. clear - Hp Hne Hsc.
    induction Hp as [|c rest o os (bs & h & c' & xs & -> & He & Ht & Hx & ->) Hl _ IH].
    - exists []. split; [|constructor]. constructor. intros r x Hx. apply rdn_at_shorter in Hx as [Hx _]. cbn in Hx. lia.
    - apply Forall_cons_iff in Hne as [Hn Hne]. pose proof (short_app _ _ Hsc) as [_ Hsr].
      destruct (IH Hsr Hne) as (l & Hlead & Hall).
      destruct Hx as [|c' rest' x xs Hx _ _]; [now destruct Hn|].
      destruct Hx as (bs' & h' & c'' & rest'' & fs & -> & He' & Ht' & Hf & ->).
      cbn [accepted_fields] in Hf. destruct Hf as (m & o1 & os' & Ho & (m' & o2 & os'' & Hd & (-> & ->) & ->) & ->).
      destruct (short_content _ _ _ _ He Hsc) as [Hs' _]. destruct (short_content _ _ _ _ He' Hs') as [Hs'' _].
      pose proof Ho as (b1 & h1 & c1 & k1 & E1 & _ & _ & (_ & Hv) & ->).
      apply value_variant in Hv as (s & ->); [|reflexivity].
      assert (Hsm : short m) by (rewrite E1 in Hs''; now apply short_app in Hs'').
      exists ((mkOid false s, o2) :: l). split.
      + refine (lead_more _ _ rest _ _ _ _ Hlead). exists bs, h, (bs' ++ rest'), rest'. do 3 (split; [auto|]).
        exists bs', h', c'', m, m', h1. cbn [fst snd]. do 3 (split; [auto|]).
        split; (apply accepted_der_ber; [cbn; auto|assumption|assumption]).
      + constructor; [|exact Hall]. cbn [fst snd]. repeat eexists. }
  destruct Hlead as (l & Hlead & Hall). exists l. split; [|exact Hall]. apply C107_exact; [exact Hok|].
  exists bs, h0, c, []. auto.
Qed.
Print Assumptions C107_agrees.

(** "All attributes of the Name are returned, or an error" is not true of it: further
    attributes of a relative distinguished name are dropped, and so is everything from the
    first one on that cannot be read; the parser of der_parser.rs returns all and an
    error, respectively. *)
Theorem C107_refuted : exists i i' h s o v a b x e rest,
  parse_name SL i = Ok ([], Obj h (CSequence [Obj s (CSet [Obj h (CSequence [o; v]); Obj h (CSequence [a; b])])]))
  /\ name02 SL i = Ok ([], [x]) /\ v = snd x /\ b <> v
  /\ i' = hx "30 1f" ++ hx "31 0b 30 09 06 03 55 04 06 13 02 46 52" ++ rest
  /\ length rest = 18%nat /\ parse_name SL i' = Err e /\ name02 SL i' = Ok ([], [x]).
Proof.
  set (o6 := mkHeader Universal false 6 (Definite 3) (Some [6])). set (o19 := mkHeader Universal false 19 (Definite 2) (Some [19])).
  set (fr := Obj o19 (CStr KPrintable [70; 82])). set (oid := mkOid false [85; 4; 6]).
  exists (hx "30 18 31 16 30 09 06 03 55 04 06 13 02 46 52 30 09 06 03 55 04 0a 13 02 46 53"),
    (hx "30 1f 31 0b 30 09 06 03 55 04 06 13 02 46 52 31 03 02 01 05 31 0b 30 09 06 03 55 04 0a 13 02 46 53"),
    (made_header 16), (made_header 17), (Obj o6 (COID oid)), fr, (Obj o6 (COID (mkOid false [85; 4; 10]))),
    (Obj o19 (CStr KPrintable [70; 83])), (oid, fr), (Failure (UnexpectedTag (Some 16) 2)),
    (hx "31 03 02 01 05 31 0b 30 09 06 03 55 04 0a 13 02 46 53").
  split; [vm_compute; reflexivity|]. split; [vm_compute; reflexivity|]. split; [reflexivity|]. split; [discriminate|].
  vm_compute. auto.
Qed.
Print Assumptions C107_refuted.

(** The Name of constructed.rs:200-206. *)
Example C107_ex :
  let i := hx "30 45 31 0b 30 09 06 03 55 04 06 13 02 46 52 31 13 30 11 06 03 55 04 08 0c 0a 53 6f 6d 65 2d 53 74 61 74 65 31 21 30 1f 06 03 55 04 0a 16 18 49 6e 74 65 72 6e 65 74 20 57 69 64 67 69 74 73 20 50 74 79 20 4c 74 64" in
  bytes_ok i
  /\ match name02 SL i with
     | Ok ([], l) => map (fun x => (oid_bytes (fst x), o_content (snd x))) l
         = [([85; 4; 6], CStr KPrintable [70; 82]); ([85; 4; 8], CStr KUTF8 [83; 111; 109; 101; 45; 83; 116; 97; 116; 101]);
            ([85; 4; 10], CStr KIA5 [73; 110; 116; 101; 114; 110; 101; 116; 32; 87; 105; 100; 103; 105; 116; 115; 32; 80; 116; 121; 32; 76; 116; 100])]
     | _ => False
     end
  /\ match parse_name SL i with
     | Ok ([], Obj _ (CSequence sets)) => length sets = 3%nat /\ forallb (fun s => match o_content s with CSet [] => false | _ => true end) sets = true
     | _ => False
     end
  /\ name02 SL (hx "30 03 ff ff ff aa") = Ok ([170], []).
Proof. split; [bok|]. vm_compute. auto. Qed.

(** ** C108: the program's own error type *)

Definition u32_at (i r : bytes) (v : N) : Prop := exists c, integer_element i r c /\ u32_value c v.

(** [series_of P c l c']: elements of the kind [P] at the front of [c] give [l] and leave [c']. *)
Inductive series_of {A} (P : bytes -> bytes -> A -> Prop) : bytes -> list A -> bytes -> Prop :=
| so_none c : series_of P c [] c
| so_more c m x l c' : P c m x -> series_of P m l c' -> series_of P c (x :: l) c'.

Lemma my_element_exact i r v : bytes_ok i -> (my_element i = Ok (r, v) <-> u32_at i r v).
Proof.
  intros Hok. unfold u32_at, u32_value. rewrite <- (proj1 (C19_u32 i r Hok) v). unfold my_element.
  destruct (parse_ber_u32 i) as [|[]| |]; split; intros H; try discriminate; congruence.
Qed.

Lemma u32_at_shorter i r v : u32_at i r v -> exists p, p <> [] /\ i = p ++ r.
Proof.
  intros (c & (h & bs & -> & (hb & -> & Hh & _) & _) & _). exists (hb ++ c). split; [|reflexivity].
  pose proof (header_octets_len _ _ Hh). destruct hb; [cbn in *; lia|discriminate].
Qed.

Lemma parse_ber_u32_nom : nom_parser parse_ber_u32.
Proof.
  intros i r v H. unfold parse_ber_u32, uint_from_ber in H. bind_inv H. destruct a as [r' a]. bind_inv H. inv H.
  apply any_from_ber_sub in E as (p & -> & _). eauto.
Qed.

Lemma my_element_nom : nom_parser my_element.
Proof.
  intros i r v H. unfold my_element in H. destruct (parse_ber_u32 i) as [x|[]| |] eqn:E; try discriminate. inv H.
  eapply parse_ber_u32_nom, E.
Qed.

Lemma my_splits c vs : bytes_ok c -> (splits my_element c vs <-> series_of u32_at c vs []).
Proof.
  intros Hok. split; intros H.
  - induction H as [|p rest v vs Hp Hf _ IH]; [constructor|]. apply my_element_exact in Hf; [|exact Hok].
    econstructor; [exact Hf|]. apply IH. now apply bytes_ok_app in Hok.
  - remember [] as e eqn:Ee in H. induction H as [c|c m x l c' Hx _ IH]; subst; [constructor|].
    destruct (u32_at_shorter _ _ _ Hx) as (p & Hp & ->). apply my_element_exact in Hx; [|exact Hok].
    constructor; [exact Hp|exact Hx|]. apply IH; [now apply bytes_ok_app in Hok|reflexivity].
Qed.

Theorem C108_exact : forall i r vs, bytes_ok i ->
  (my_sequence_of i = Ok (r, vs)
   <-> exists bs h c, i = bs ++ r /\ element 50 h c bs /\ h_tag h = 16 /\ series_of u32_at c vs []).
Proof.
  intros i r vs Hok. unfold my_sequence_of. rewrite (proj1 (C32_ber_partial my_ops my_element i r vs Hok my_element_nom)). split.
  - intros (_ & h & c & bs & -> & He & Ht & Hs). exists bs, h, c. do 3 (split; [auto|]).
    apply my_splits; [|exact Hs]. now apply (an_element_ok false _ _ _ _ He) in Hok.
  - intros (bs & h & c & -> & He & Ht & Hs). split; [eexists; reflexivity|]. exists h, c, bs. do 3 (split; [auto|]).
    apply my_splits; [|exact Hs]. now apply (an_element_ok false _ _ _ _ He) in Hok.
Qed.
Print Assumptions C108_exact.

Lemma u32_incomplete i n : bytes_ok i -> (parse_ber_u32 i = Err (Incomplete n) <-> element_fault i (Incomplete n)).
Proof.
  intros Hok. rewrite <- C102_element by exact Hok. unfold parse_ber_u32, uint_from_ber, parse_ber_any.
  destruct (any_from_ber i) as [[r a]| | |]; cbn [bind]; try (split; congruence).
  split; [|discriminate]. unfold assert_tag, assert_primitive, asn1_decode_uint.
  destruct (_ =? _); [|discriminate]. cbn [bind]. destruct (h_constructed _); [discriminate|]. cbn [bind].
  destruct (asn1_highest_bit_set _); [discriminate|]. destruct (_ <? _)%nat; discriminate.
Qed.

(** After the elements [l] comes [c'], which is not an integer of 32 bits: if it is the
    beginning of an element the combinator reports left over octets, otherwise the
    program's error, as a [Failure]; an element with another tag number is reported by
    the combinator itself. *)
Theorem C108_errors : forall h c bs r l c', bytes_ok (bs ++ r) -> element 50 h c bs ->
  (h_tag h <> 16 -> my_sequence_of (bs ++ r) = Err (Error (MyBerError (UnexpectedTag (Some 16) (h_tag h)))))
  /\ (h_tag h = 16 -> series_of u32_at c l c' -> c' <> [] -> (forall m v, ~ u32_at c' m v) ->
      (forall n, element_fault c' (Incomplete n) -> my_sequence_of (bs ++ r) = Err (Error (MyNomError c' EkEof)))
      /\ ((forall n, ~ element_fault c' (Incomplete n)) -> my_sequence_of (bs ++ r) = Err (Failure Variant1))).
Proof.
  intros h c bs r l c' Hok He. unfold my_sequence_of.
  assert (Hc : bytes_ok c) by (now apply (an_element_ok false _ _ _ _ He) in Hok). split.
  - intros Ht. unfold parse_ber_sequence_of_v. rewrite (proj1 (proj1 (C33_defined my_ops _ h c bs r) He)).
    now replace (h_tag h =? 16) with false by lia.
  - intros Ht Hs Hne Hno.
    assert (Hr : reaches my_element c c' /\ bytes_ok c').
    { clear - Hs Hc. induction Hs as [c|c m x l c' Hx _ IH]; [split; [constructor|exact Hc]|].
      destruct (u32_at_shorter _ _ _ Hx) as (p & Hp & ->). apply my_element_exact in Hx; [|exact Hc].
      destruct IH as [IH Hc']; [now apply bytes_ok_app in Hc|]. split; [|exact Hc']. econstructor; eassumption. }
    destruct Hr as [Hr Hc'].
    destruct (proj1 (C34_element_errors my_ops my_element h c bs r c' Hr) He) as [Ha _].
    destruct (Ha Ht) as (Herr & _ & Hinc). split.
    + intros n Hn. apply (Hinc n); [|exact Hne]. unfold my_element. now rewrite (proj2 (u32_incomplete c' n Hc') Hn).
    + intros Hn. apply Herr. unfold my_element.
      destruct (parse_ber_u32 c') as [[m v]|[n|x|x]| |] eqn:E; try reflexivity.
      * exfalso. apply (Hno m v). apply my_element_exact; [exact Hc'|]. unfold my_element. now rewrite E.
      * exfalso. apply (Hn n). now apply u32_incomplete.
      * exfalso. destruct (uint_from_ber_total 4 c') as [Hp _]. now apply Hp.
      * exfalso. destruct (uint_from_ber_total 4 c') as [_ Hd]. now apply Hd.
Qed.
Print Assumptions C108_errors.

(** "Incomplete must not be mapped, or parse_ber_sequence_of_v cannot detect end of
    sequence" (custom_error.rs:36): with an element parser that reports the end of its
    input in another way, no SEQUENCE OF or SET OF is accepted, not even an empty one. *)
Theorem C108_mapped : forall {E A} (ops : err_ops E) (f : bytes -> iresult E A) i r vs, bytes_ok i -> nom_parser f ->
  (forall n, f [] <> Err (Incomplete n)) ->
  parse_ber_sequence_of_v ops f i <> Ok (r, vs) /\ parse_der_sequence_of_v ops f i <> Ok (r, vs)
  /\ parse_ber_set_of_v ops f i <> Ok (r, vs) /\ parse_der_set_of_v ops f i <> Ok (r, vs).
Proof.
  intros E A ops f i r vs Hok Hn Hf.
  destruct (C32_ber_partial ops f i r vs Hok Hn) as [H1 H2]. destruct (C32_der_partial ops f i r vs Hok Hn) as [H3 H4].
  repeat split; intros H; [apply H1 in H|apply H3 in H|apply H2 in H|apply H4 in H]; destruct H as ((n & H) & _); now apply (Hf n).
Qed.
Print Assumptions C108_mapped.

Example C108_ex : my_sequence_of (hx "30 0a 02 03 01 00 01 02 03 01 00 00") = Ok ([], [65537; 65536])
  /\ my_sequence_of (hx "30 80 02 03 01 00 01 00 00 ff") = Ok ([255], [65537])
  /\ my_sequence_of (hx "30 07 02 03 01 00 01 02 03 ff") = Err (Error (MyNomError [2; 3] EkEof))
  /\ my_sequence_of (hx "30 08 02 03 01 00 01 02 01 ff") = Err (Failure Variant1)
  /\ my_sequence_of (hx "31 00") = Err (Error (MyBerError (UnexpectedTag (Some 16) 17)))
  /\ parse_ber_sequence_of_v my_ops (fun i => match my_element i with Err _ => Err (Error Variant1) | x => x end)
       (hx "30 05 02 03 01 00 01") = Err (Failure Variant1).
Proof. vm_compute. auto 8. Qed.

(** An [Error] for an unreadable second element becomes a [Failure]. *)
Example C109_ex : parse_ber SL (hx "30 03 02 03 01") = Err (Incomplete (Some 2))
  /\ parse_ber SL (hx "1f ff ff ff ff ff ff") = Err (Error InvalidTag)
  /\ parse_der_sequence_of (parse_der_integer SL) (hx "30 06 02 01 05 04 01 07") = Err (Failure (UnexpectedTag (Some 2) 4)).
Proof. vm_compute. auto. Qed.
