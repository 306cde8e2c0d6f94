(** * Property C01: the parsers always return. *)

From Coq Require Import String.
From Verif Require Import Base Asn1rs Ber Der Combinators Spec SpecComb
  LemBase LemHeader LemSkip LemParse LemDer LemComb Conformance.
Local Open Scope string_scope.
Local Open Scope N_scope.
Local Open Scope list_scope.

(** ** The generic parsers *)

Theorem C01_parse_ber_recursive : forall L i d, returns (parse_ber_recursive L i d).
Proof. intros. apply returns_total, parse_ber_total. Qed.
Print Assumptions C01_parse_ber_recursive.

Theorem C01_parse_der_recursive : forall L i d, returns (parse_der_recursive L i d).
Proof. intros. apply returns_total, parse_der_total. Qed.
Print Assumptions C01_parse_der_recursive.

(** [parse_ber], [parse_der] and, at every tag, [parse_*_with_tag]: the typed
    wrappers [parse_ber_bool], [parse_der_integer], ... are the latter at a
    given tag. *)
Theorem C01_entry_points : forall L i t,
  returns (parse_ber L i) /\ returns (parse_der L i)
  /\ returns (parse_ber_with_tag L i t) /\ returns (parse_der_with_tag L i t).
Proof.
  intros. repeat split; apply returns_total;
    [apply parse_ber_total|apply parse_der_total|apply with_tag_total|apply der_with_tag_total].
Qed.
Print Assumptions C01_entry_points.

(** The header and content readers. *)
Theorem C01_readers : forall L i t l pc d h,
  returns (ber_read_element_header i) /\ returns (der_read_element_header i)
  /\ returns (ber_read_element_content_as L i t l pc d)
  /\ returns (der_read_element_content_as L i t l pc d)
  /\ returns (der_read_element_content_recursive L i h d)
  /\ returns (ber_skip_object_content d i h) /\ returns (ber_get_object_content i h d)
  /\ returns (parse_ber_content L t i h d) /\ returns (parse_der_content L t i h d).
Proof.
  intros. unfold parse_ber_content, parse_der_content, ber_read_element_header, der_read_element_header.
  repeat split; apply returns_total;
    auto using header_from_ber_total, header_from_der_total, content_as_total, der_content_as_total,
      der_recursive_total, skip_total, get_content_total.
Qed.
Print Assumptions C01_readers.

(** [parse_ber_any], [parse_ber_any_r], [parse_ber_any_with_tag_r]. *)
Lemma any_with_tag_total L i t d : total (parse_ber_any_with_tag_r L i t d).
Proof.
  unfold parse_ber_any_with_tag_r. destruct (d =? 0)%nat; [auto with total|].
  apply total_bind; [apply any_from_ber_total|]. intros [r a] Ha.
  apply total_bind.
  - apply total_map_err. unfold assert_tag. destruct (_ =? _); auto with total.
  - intros _ _. apply total_bind; [|intros; auto with total].
    apply total_map_err, conv_total. eapply any_from_ber_ok; eauto.
Qed.

Theorem C01_any : forall L i t d,
  returns (parse_ber_any i) /\ returns (parse_ber_any_r L i d)
  /\ returns (parse_ber_any_with_tag_r L i t d).
Proof.
  intros. repeat split; apply returns_total;
    [apply any_from_ber_total|apply parse_ber_total|apply any_with_tag_total].
Qed.
Print Assumptions C01_any.

(** ** Integer and slice parsers *)

Lemma decode_uint_total n s : total (asn1_decode_uint n s).
Proof.
  unfold asn1_decode_uint. destruct (asn1_highest_bit_set s); [auto with total|].
  destruct (_ <? _)%nat; auto with total.
Qed.

Lemma decode_int_total n s : total (asn1_decode_int n s).
Proof.
  unfold asn1_decode_int. destruct (asn1_highest_bit_set s).
  - destruct (_ <? _)%nat; auto with total.
  - apply total_bind; [apply decode_uint_total|]. intros v _. destruct (_ <=? _); auto with total.
Qed.

Lemma assert_tag_total h t : total (assert_tag h t).
Proof. unfold assert_tag. destruct (_ =? _); auto with total. Qed.
Lemma assert_primitive_total h : total (assert_primitive h).
Proof. unfold assert_primitive. destruct (h_constructed h); auto with total. Qed.

Lemma int_constraints_total a : total (check_der_int_constraints a).
Proof.
  unfold check_der_int_constraints. apply total_bind; [apply assert_primitive_total|]. intros _ _.
  apply total_bind; [unfold length_definite; destruct (h_length (a_header a)); auto with total|]. intros _ _.
  destruct (a_data a) as [|b [|c r]]; auto with total.
  destruct (_ && _); auto with total. destruct (_ && _); auto with total.
Qed.

Lemma uint_from_ber_total n i : total (uint_from_ber n i).
Proof.
  unfold uint_from_ber. apply total_bind; [apply any_from_ber_total|]. intros [r a] _.
  apply total_bind; [|auto with total]. apply total_map_err.
  apply total_bind; [apply assert_tag_total|]. intros _ _.
  apply total_bind; [apply assert_primitive_total|]. intros _ _. apply decode_uint_total.
Qed.
Lemma int_from_ber_total n i : total (int_from_ber n i).
Proof.
  unfold int_from_ber. apply total_bind; [apply any_from_ber_total|]. intros [r a] _.
  apply total_bind; [|auto with total]. apply total_map_err.
  apply total_bind; [apply assert_tag_total|]. intros _ _.
  apply total_bind; [apply assert_primitive_total|]. intros _ _. apply decode_int_total.
Qed.
Lemma uint_from_der_total n i : total (uint_from_der n i).
Proof.
  unfold uint_from_der. apply total_bind; [apply any_from_der_total|]. intros [r a] _.
  apply total_bind; [|auto with total]. apply total_map_err.
  apply total_bind; [apply assert_tag_total|]. intros _ _.
  apply total_bind; [apply int_constraints_total|]. intros _ _. apply decode_uint_total.
Qed.
Lemma int_from_der_total n i : total (int_from_der n i).
Proof.
  unfold int_from_der. apply total_bind; [apply any_from_der_total|]. intros [r a] _.
  apply total_bind; [|auto with total]. apply total_map_err.
  apply total_bind; [apply assert_tag_total|]. intros _ _.
  apply total_bind; [apply int_constraints_total|]. intros _ _. apply decode_int_total.
Qed.

Theorem C01_integers : forall i,
  returns (parse_ber_i32 i) /\ returns (parse_ber_i64 i)
  /\ returns (parse_ber_u32 i) /\ returns (parse_ber_u64 i)
  /\ returns (parse_der_i32 i) /\ returns (parse_der_i64 i)
  /\ returns (parse_der_u32 i) /\ returns (parse_der_u64 i).
Proof.
  intros. repeat split; apply returns_total;
    first [apply uint_from_ber_total|apply int_from_ber_total|apply uint_from_der_total|apply int_from_der_total].
Qed.
Print Assumptions C01_integers.

(** ** Combinators: they return when the callback does *)

Section Combinators.
Context {E A : Type} (ops : err_ops E).

Theorem C01_containers : forall (f : bytes -> header -> iresult E A) i t,
  (forall c h, returns (f c h)) ->
  returns (parse_ber_container ops f i) /\ returns (parse_der_container ops f i)
  /\ returns (parse_ber_sequence_defined_g ops f i) /\ returns (parse_der_sequence_defined_g ops f i)
  /\ returns (parse_ber_set_defined_g ops f i) /\ returns (parse_der_set_defined_g ops f i)
  /\ returns (parse_ber_tagged_explicit_g ops t f i) /\ returns (parse_der_tagged_explicit_g ops t f i).
Proof.
  intros f i t Hf. assert (Hf' : forall c h, total (f c h)) by (intros; apply returns_total, Hf).
  repeat split; apply returns_total;
    first [apply ber_container_total|apply der_container_total]; auto; intros c h;
    try (apply total_bind; [apply total_map_err, assert_tag_total|]; auto; fail).
  - destruct (class_eqb _ _); [auto with total|].
    apply total_bind; [apply total_map_err, assert_tag_total|]. intros _ _.
    apply total_bind; [|auto]. apply total_map_err. unfold assert_constructed.
    destruct (h_constructed h); auto with total.
  - destruct (class_eqb _ _); [auto with total|].
    apply total_bind; [apply total_map_err, assert_tag_total|]. intros _ _.
    destruct (h_constructed h); cbn [negb]; auto with total.
Qed.

Theorem C01_implicit : forall (f : bytes -> header -> nat -> iresult E A) i t,
  (forall c h d, returns (f c h d)) ->
  returns (parse_ber_tagged_implicit_g ops t f i) /\ returns (parse_der_tagged_implicit_g ops t f i).
Proof.
  intros f i t Hf. split; apply returns_total;
    first [apply ber_container_total|apply der_container_total]; intros c h;
    (apply total_bind; [apply total_map_err, assert_tag_total|]; intros _ _; apply returns_total, Hf).
Qed.

(** The element parser of SEQUENCE OF / SET OF must also return a suffix of its
    input, as every nom parser does: one that returned a longer slice could
    make the loop run forever. *)
Theorem C01_sequence_of : forall (f : bytes -> iresult E A) i,
  (forall c, returns (f c)) -> nom_parser f ->
  returns (parse_ber_sequence_of_v ops f i) /\ returns (parse_der_sequence_of_v ops f i)
  /\ returns (parse_ber_set_of_v ops f i) /\ returns (parse_der_set_of_v ops f i).
Proof.
  intros f i Hf Hn. assert (Hf' : forall c, total (f c)) by (intros; apply returns_total, Hf).
  repeat split; apply returns_total;
    first [apply ber_container_total|apply der_container_total]; intros c h;
    (apply total_bind; [apply total_map_err, assert_tag_total|]; intros _ _;
     now apply of_subparser_total).
Qed.
End Combinators.
Print Assumptions C01_containers.
Print Assumptions C01_implicit.
Print Assumptions C01_sequence_of.

Lemma nom_map_total {E A B} (g : A -> B) (f : bytes -> iresult E A) i :
  total (f i) -> total (nom_map g f i).
Proof. intros H. unfold nom_map. apply total_bind; auto. intros [] _. auto with total. Qed.

(** The variants that build a [BerObject], the slice parsers, optional values. *)
Theorem C01_objects : forall (f : bytes -> iresult berror obj) (g : bytes -> iresult berror (list obj))
    (k : bytes -> header -> nat -> iresult berror content) i t,
  (forall c, returns (f c)) -> nom_parser f -> (forall c, returns (g c)) ->
  (forall c h d, returns (k c h d)) ->
  returns (parse_ber_sequence_of f i) /\ returns (parse_der_sequence_of f i)
  /\ returns (parse_ber_set_of f i) /\ returns (parse_der_set_of f i)
  /\ returns (parse_ber_sequence_defined g i) /\ returns (parse_der_sequence_defined g i)
  /\ returns (parse_ber_set_defined g i) /\ returns (parse_der_set_defined g i)
  /\ returns (parse_ber_tagged_explicit t f i) /\ returns (parse_der_tagged_explicit t f i)
  /\ returns (parse_ber_tagged_implicit t k i) /\ returns (parse_der_tagged_implicit t k i)
  /\ returns (parse_ber_implicit i t k) /\ returns (parse_der_implicit i t k)
  /\ returns (parse_ber_slice t i) /\ returns (parse_der_slice t i)
  /\ returns (parse_ber_optional f i)
  /\ returns (parse_ber_explicit_optional i t f) /\ returns (parse_der_explicit_optional i t f).
Proof.
  intros f g k i t Hf Hn Hg Hk.
  destruct (C01_sequence_of ber_ops f i Hf Hn) as (S1 & S2 & S3 & S4).
  destruct (C01_containers ber_ops (fun c _ => g c) i t (fun c _ => Hg c)) as (_ & _ & D1 & D2 & D3 & D4 & _).
  assert (Hcb : forall c h, returns (tagged_explicit_cb t f c h)).
  { intros c h. apply returns_total. unfold tagged_explicit_cb.
    apply total_bind; [apply returns_total, Hf|]. intros [] _. auto with total. }
  destruct (C01_containers ber_ops _ i t Hcb) as (_ & _ & _ & _ & _ & _ & T1 & T2).
  assert (Hcb' : forall c h d, returns (tagged_implicit_cb k c h d)).
  { intros c h d. apply returns_total. unfold tagged_implicit_cb.
    apply total_bind; [apply returns_total, Hk|]. intros [] _. auto with total. }
  destruct (C01_implicit ber_ops _ i t Hcb') as (I1 & I2).
  assert (Hsl : forall c h, returns (let* _ := map_err nerr_of_err (assert_tag h t) in Ok ([] : bytes, c : bytes))).
  { intros c h. apply returns_total. apply total_bind; [apply total_map_err, assert_tag_total|].
    auto with total. }
  destruct (C01_containers ber_ops _ i t Hsl) as (L1 & L2 & _).
  assert (Hopt : forall f', returns (f' i) -> returns (parse_ber_optional f' i)).
  { intros f' Hf'. apply returns_total. apply returns_total in Hf'. destruct Hf' as [Hp Hd].
    unfold parse_ber_optional. destruct (f' i) as [[]|e| |]; try congruence; auto with total. }
  assert (Hcb2 : forall c h, returns (let* (r, o) := f c in Ok (r, Obj h (CTagged (h_class h) (h_tag h) o)))).
  { intros c h. apply returns_total. apply total_bind; [apply returns_total, Hf|]. intros [] _. auto with total. }
  destruct (C01_containers ber_ops _ i t Hcb2) as (_ & _ & _ & _ & _ & _ & O1 & _).
  repeat split; auto; try (apply returns_total, nom_map_total, returns_total; assumption);
    try (apply Hopt; auto; exact O1).
Qed.
Print Assumptions C01_objects.

(** ** Inputs that exercise the loops and the index computations *)

(** Fifty nested indefinite-length sequences, never closed. *)
Example C01_ex_open :
  parse_ber SL (concat (repeat [48; 128] 50)) = Err (Incomplete (Some 1)).
Proof. vm_compute. reflexivity. Qed.
(** One hundred of them: the depth limit. *)
Example C01_ex_deep :
  parse_ber SL (concat (repeat [48; 128] 100)) = Err (Error BerMaxDepth).
Proof. vm_compute. reflexivity. Qed.
(** Announced length 2^64 - 1. *)
Example C01_ex_huge :
  parse_der SL (hx "04 88 ff ff ff ff ff ff ff ff 00") = Err (Error InvalidLength).
Proof. vm_compute. reflexivity. Qed.
(** A parser that satisfies the hypotheses of the combinator theorems. *)
Example C01_ex_callback : (forall c, returns (parse_ber SL c)) /\ nom_parser (parse_ber SL)
  /\ parse_ber_sequence_of (parse_ber SL) (hx "30 06 02 01 01 02 01 02")
     = Ok ([], from_seq [Obj (mkHeader Universal false 2 (Definite 1) (Some [2])) (CInteger [1]);
                         Obj (mkHeader Universal false 2 (Definite 1) (Some [2])) (CInteger [2])]).
Proof.
  split; [intros; apply C01_parse_ber_recursive|]. split; [|vm_compute; reflexivity].
  intros i r v H. apply parse_ber_inv in H as (a & Ha & _).
  apply any_from_ber_split in Ha as (hb & b & -> & _). exists (hb ++ b). now rewrite app_assoc.
Qed.
