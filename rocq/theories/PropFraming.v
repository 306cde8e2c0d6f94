(** * Properties C02 to C07 and C55: framing, extension, recursion limit,
    zero-copy, exact values. *)

From Coq Require Import String.
From Verif Require Import Base Asn1rs Ber Der Combinators Spec SpecValue SpecComb
  LemBase LemHeader LemSkip LemParse LemDer LemText LemTree LemNode LemComb LemFrame Conformance.
Local Open Scope string_scope.
Local Open Scope N_scope.
Local Open Scope list_scope.

(** A nested sample used by the examples: SEQUENCE { indefinite-length SEQUENCE
    { INTEGER 258, [1] { 0x05 } }, UTF8String "é", OCTET STRING }, followed by
    two stray octets. *)
Definition sample : bytes :=
  hx "30 14 30 80 02 02 01 02 81 01 05 00 00 0c 02 c3 a9 04 03 61 62 63 ff 00".

(** ** C02 *)

Theorem C02_parse_ber : forall L i d r o, bytes_ok i ->
  parse_ber_recursive L i d = Ok (r, o) ->
  exists bs c, i = bs ++ r /\ element 50 (o_header o) c bs /\ (2 <= length bs)%nat.
Proof.
  intros L i d r o Hok H. apply parse_ber_iff in H as (bs & c & E & He & _); [|assumption].
  exists bs, c. split; [exact E|]. eauto using element_len.
Qed.
Print Assumptions C02_parse_ber.

Theorem C02_parse_der : forall L i d r o, bytes_ok i ->
  parse_der_recursive L i d = Ok (r, o) ->
  exists bs c, i = bs ++ r /\ definite_element (o_header o) c bs /\ (2 <= length bs)%nat.
Proof.
  intros L i d r o Hok H. apply parse_der_definite in H as (bs & c & E & He & _); [|assumption].
  exists bs, c. split; [exact E|]. eauto using definite_element_len.
Qed.
Print Assumptions C02_parse_der.

Theorem C02_with_tag : forall L i t r o, bytes_ok i ->
  (parse_ber_with_tag L i t = Ok (r, o) ->
   exists bs c, i = bs ++ r /\ element 50 (o_header o) c bs /\ (2 <= length bs)%nat)
  /\ (parse_der_with_tag L i t = Ok (r, o) ->
      exists bs c, i = bs ++ r /\ definite_element (o_header o) c bs /\ (2 <= length bs)%nat).
Proof.
  intros L i t r o Hok. split; intros H.
  - apply with_tag_element in H as (bs & c & E & He & _); [|assumption]. exists bs, c. split; [exact E|]. eauto using element_len.
  - apply der_with_tag_element in H as (bs & c & E & He & _); [|assumption].
    exists bs, c. split; [exact E|]. eauto using definite_element_len.
Qed.
Print Assumptions C02_with_tag.

(** A header and the octets denote at most one element at the start of an input:
    "the consumed prefix" is well defined. *)
Theorem C02_element_unique : forall h c bs h' c' bs' rest rest',
  element 50 h c bs -> element 50 h' c' bs' -> bs ++ rest = bs' ++ rest' ->
  h = h' /\ c = c' /\ bs = bs' /\ rest = rest'.
Proof. exact element_first. Qed.
Print Assumptions C02_element_unique.

Example C02_ex : bytes_ok sample
  /\ match parse_ber SL sample with
     | Ok (r, o) => r = hx "ff 00" /\ h_length (o_header o) = Definite 20 /\ nesting o = 2%nat
     | _ => False
     end.
Proof. split; [bok|vm_compute; auto]. Qed.
Example C02_ex_der : match parse_der SL sample with
     | Ok (r, o) => r = hx "ff 00" /\ h_length (o_header o) = Definite 20
     | _ => False
     end
  /\ match parse_ber_with_tag SL sample 16 with Ok (r, _) => r = hx "ff 00" | _ => False end.
Proof. vm_compute; auto. Qed.

(** ** C03 *)

Theorem C03_parse_ber : forall L i x d r o,
  parse_ber_recursive L i d = Ok (r, o) -> parse_ber_recursive L (i ++ x) d = Ok (r ++ x, o).
Proof. intros. now apply parse_ber_app_mono with (d := d). Qed.
Print Assumptions C03_parse_ber.

Theorem C03_parse_der : forall L i x d r o,
  parse_der_recursive L i d = Ok (r, o) -> parse_der_recursive L (i ++ x) d = Ok (r ++ x, o).
Proof. intros. now apply parse_der_app_mono with (d := d). Qed.
Print Assumptions C03_parse_der.

Theorem C03_with_tag : forall L i x t r o,
  (parse_ber_with_tag L i t = Ok (r, o) -> parse_ber_with_tag L (i ++ x) t = Ok (r ++ x, o))
  /\ (parse_der_with_tag L i t = Ok (r, o) -> parse_der_with_tag L (i ++ x) t = Ok (r ++ x, o)).
Proof. intros. split; [apply with_tag_app|apply der_with_tag_app]. Qed.
Print Assumptions C03_with_tag.

Theorem C03_integers : forall i x r,
  (forall v, parse_ber_u32 i = Ok (r, v) -> parse_ber_u32 (i ++ x) = Ok (r ++ x, v))
  /\ (forall v, parse_ber_u64 i = Ok (r, v) -> parse_ber_u64 (i ++ x) = Ok (r ++ x, v))
  /\ (forall v, parse_ber_i32 i = Ok (r, v) -> parse_ber_i32 (i ++ x) = Ok (r ++ x, v))
  /\ (forall v, parse_ber_i64 i = Ok (r, v) -> parse_ber_i64 (i ++ x) = Ok (r ++ x, v))
  /\ (forall v, parse_der_u32 i = Ok (r, v) -> parse_der_u32 (i ++ x) = Ok (r ++ x, v))
  /\ (forall v, parse_der_u64 i = Ok (r, v) -> parse_der_u64 (i ++ x) = Ok (r ++ x, v))
  /\ (forall v, parse_der_i32 i = Ok (r, v) -> parse_der_i32 (i ++ x) = Ok (r ++ x, v))
  /\ (forall v, parse_der_i64 i = Ok (r, v) -> parse_der_i64 (i ++ x) = Ok (r ++ x, v)).
Proof.
  intros. repeat split; intros v;
    first [apply uint_from_ber_app|apply int_from_ber_app|apply uint_from_der_app|apply int_from_der_app].
Qed.
Print Assumptions C03_integers.

(** Containers, whatever the callback: hence also SEQUENCE/SET (OF), tagged
    values and slices, which are containers with a particular callback. *)
Theorem C03_containers : forall E A (ops : err_ops E) (f : bytes -> header -> iresult E A) i x r v,
  (parse_ber_container ops f i = Ok (r, v) -> parse_ber_container ops f (i ++ x) = Ok (r ++ x, v))
  /\ (parse_der_container ops f i = Ok (r, v) -> parse_der_container ops f (i ++ x) = Ok (r ++ x, v)).
Proof. intros. split; [apply ber_container_app|apply der_container_app]. Qed.
Print Assumptions C03_containers.

(** Following octets do not change the result of [p]. *)
Definition extends {E A} (p : bytes -> iresult E A) : Prop :=
  forall i x r v, p i = Ok (r, v) -> p (i ++ x) = Ok (r ++ x, v).

Lemma extends_ber_container {E A} (ops : err_ops E) (f : bytes -> header -> iresult E A) : extends (parse_ber_container ops f).
Proof. intros i x r v. apply ber_container_app. Qed.
Lemma extends_der_container {E A} (ops : err_ops E) (f : bytes -> header -> iresult E A) : extends (parse_der_container ops f).
Proof. intros i x r v. apply der_container_app. Qed.
Lemma extends_map {E A B} (g : A -> B) (p : bytes -> iresult E A) : extends p -> extends (nom_map g p).
Proof.
  intros H i x r v. unfold nom_map. intros Hp. bind_inv Hp. destruct a as [r' a]. rewrite (H _ x _ _ E0).
  cbn [bind]. now inv Hp.
Qed.

(** All the other entry points, whatever the callback. *)
Theorem C03_entry_points : forall L t d, let R {E A} (p : bytes -> iresult E A) := extends p in
  R (fun i => ber_read_element_header i) /\ R (fun i => der_read_element_header i)
  /\ R parse_ber_any /\ R (fun i => parse_ber_any_r L i d) /\ R (fun i => parse_ber_any_with_tag_r L i t d)
  /\ R (parse_ber_slice t) /\ R (parse_der_slice t)
  /\ (forall f, R (parse_ber_sequence_of f) /\ R (parse_ber_set_of f) /\ R (parse_der_sequence_of f) /\ R (parse_der_set_of f)
        /\ R (parse_ber_tagged_explicit t f) /\ R (parse_der_tagged_explicit t f))
  /\ (forall f, R (parse_ber_sequence_defined f) /\ R (parse_ber_set_defined f)
        /\ R (parse_der_sequence_defined f) /\ R (parse_der_set_defined f))
  /\ (forall f, R (parse_ber_tagged_implicit t f) /\ R (parse_der_tagged_implicit t f)
        /\ R (fun i => parse_ber_implicit i t f) /\ R (fun i => parse_der_implicit i t f))
  /\ (forall E A (ops : err_ops E) (f : bytes -> iresult E A),
        R (parse_ber_sequence_of_v ops f) /\ R (parse_ber_set_of_v ops f)
        /\ R (parse_der_sequence_of_v ops f) /\ R (parse_der_set_of_v ops f))
  /\ (forall E A (ops : err_ops E) (f : bytes -> header -> iresult E A),
        R (parse_ber_sequence_defined_g ops f) /\ R (parse_ber_set_defined_g ops f)
        /\ R (parse_der_sequence_defined_g ops f) /\ R (parse_der_set_defined_g ops f)
        /\ R (parse_ber_tagged_explicit_g ops t f) /\ R (parse_der_tagged_explicit_g ops t f))
  /\ (forall E A (ops : err_ops E) (f : bytes -> header -> nat -> iresult E A),
        R (parse_ber_tagged_implicit_g ops t f) /\ R (parse_der_tagged_implicit_g ops t f)).
Proof.
  intros L t d R. unfold R.
  split; [intros i x r v; apply header_from_ber_app|].
  split; [intros i x r v; apply header_from_der_app|].
  split; [intros i x r v; apply any_from_ber_app|].
  split.
  { intros i x r v. unfold parse_ber_any_r. destruct (d =? 0)%nat; [discriminate|]. intros H. bind_inv H. destruct a as [r' a].
    rewrite (any_from_ber_app _ x _ _ E). cbn [bind]. bind_inv H. now inv H. }
  split.
  { intros i x r v. unfold parse_ber_any_with_tag_r. destruct (d =? 0)%nat; [discriminate|]. intros H. bind_inv H. destruct a as [r' a].
    rewrite (any_from_ber_app _ x _ _ E). cbn [bind]. bind_inv H. cbn [bind]. bind_inv H. now inv H. }
  repeat split; intros.
  all: first [apply extends_ber_container|apply extends_der_container
             |apply extends_map; first [apply extends_ber_container|apply extends_der_container]].
Qed.
Print Assumptions C03_entry_points.

Example C03_ex : exists o, parse_ber SL (firstn 22 sample) = Ok ([], o)
  /\ parse_ber SL sample = Ok (hx "ff 00", o) /\ parse_der SL sample = Ok (hx "ff 00", o).
Proof. eexists. vm_compute. auto. Qed.

Example C03_entry_ex : exists o, parse_ber_sequence_of (parse_ber SL) (firstn 22 sample) = Ok ([], o)
  /\ parse_ber_sequence_of (parse_ber SL) sample = Ok (hx "ff 00", o)
  /\ parse_ber_slice 16 sample = Ok (hx "ff 00", skipn 2 (firstn 22 sample)).
Proof. eexists. vm_compute. auto. Qed.

(** ** C04 *)

Theorem C04_parse_ber : forall L d p x o, parse_ber_recursive L (p ++ x) d = Ok ([], o) ->
  x <> [] -> forall r o', parse_ber_recursive L p d <> Ok (r, o').
Proof.
  intros L d p x o. apply (prefix_free (fun i => parse_ber_recursive L i d)).
  intros i y r v. apply C03_parse_ber.
Qed.
Print Assumptions C04_parse_ber.

Theorem C04_parse_der : forall L d p x o, parse_der_recursive L (p ++ x) d = Ok ([], o) ->
  x <> [] -> forall r o', parse_der_recursive L p d <> Ok (r, o').
Proof.
  intros L d p x o. apply (prefix_free (fun i => parse_der_recursive L i d)).
  intros i y r v. apply C03_parse_der.
Qed.
Print Assumptions C04_parse_der.

Theorem C04_with_tag : forall L t p x o,
  (parse_ber_with_tag L (p ++ x) t = Ok ([], o) ->
   x <> [] -> forall r o', parse_ber_with_tag L p t <> Ok (r, o'))
  /\ (parse_der_with_tag L (p ++ x) t = Ok ([], o) ->
   x <> [] -> forall r o', parse_der_with_tag L p t <> Ok (r, o')).
Proof.
  intros L t p x o. split.
  - apply (prefix_free (fun i => parse_ber_with_tag L i t)). intros i y r v. apply C03_with_tag.
  - apply (prefix_free (fun i => parse_der_with_tag L i t)). intros i y r v. apply C03_with_tag.
Qed.
Print Assumptions C04_with_tag.

Theorem C04_containers : forall E A (ops : err_ops E) (f : bytes -> header -> iresult E A) p x v,
  (parse_ber_container ops f (p ++ x) = Ok ([], v) ->
   x <> [] -> forall r w, parse_ber_container ops f p <> Ok (r, w))
  /\ (parse_der_container ops f (p ++ x) = Ok ([], v) ->
   x <> [] -> forall r w, parse_der_container ops f p <> Ok (r, w)).
Proof.
  intros E A ops f p x v. split.
  - apply prefix_free. intros i y r w. apply C03_containers.
  - apply prefix_free. intros i y r w. apply C03_containers.
Qed.
Print Assumptions C04_containers.

(** [p] accepts no proper prefix of what it accepts as a whole. *)
Definition notices_cuts {E A} (p : bytes -> iresult E A) : Prop :=
  forall i x v, p (i ++ x) = Ok ([], v) -> x <> [] -> forall r w, p i <> Ok (r, w).

Lemma extends_notices {E A} (p : bytes -> iresult E A) : extends p -> notices_cuts p.
Proof. intros H i x v. apply prefix_free. exact H. Qed.

Theorem C04_integers : notices_cuts parse_ber_u32 /\ notices_cuts parse_ber_u64 /\ notices_cuts parse_ber_i32
  /\ notices_cuts parse_ber_i64 /\ notices_cuts parse_der_u32 /\ notices_cuts parse_der_u64
  /\ notices_cuts parse_der_i32 /\ notices_cuts parse_der_i64.
Proof. repeat split; apply extends_notices; intros i x r v; apply C03_integers. Qed.
Print Assumptions C04_integers.

Theorem C04_entry_points : forall L t d, let R {E A} (p : bytes -> iresult E A) := notices_cuts p in
  R (fun i => ber_read_element_header i) /\ R (fun i => der_read_element_header i)
  /\ R parse_ber_any /\ R (fun i => parse_ber_any_r L i d) /\ R (fun i => parse_ber_any_with_tag_r L i t d)
  /\ R (parse_ber_slice t) /\ R (parse_der_slice t)
  /\ (forall f, R (parse_ber_sequence_of f) /\ R (parse_ber_set_of f) /\ R (parse_der_sequence_of f) /\ R (parse_der_set_of f)
        /\ R (parse_ber_tagged_explicit t f) /\ R (parse_der_tagged_explicit t f))
  /\ (forall f, R (parse_ber_sequence_defined f) /\ R (parse_ber_set_defined f)
        /\ R (parse_der_sequence_defined f) /\ R (parse_der_set_defined f))
  /\ (forall f, R (parse_ber_tagged_implicit t f) /\ R (parse_der_tagged_implicit t f)
        /\ R (fun i => parse_ber_implicit i t f) /\ R (fun i => parse_der_implicit i t f))
  /\ (forall E A (ops : err_ops E) (f : bytes -> iresult E A),
        R (parse_ber_sequence_of_v ops f) /\ R (parse_ber_set_of_v ops f)
        /\ R (parse_der_sequence_of_v ops f) /\ R (parse_der_set_of_v ops f))
  /\ (forall E A (ops : err_ops E) (f : bytes -> header -> iresult E A),
        R (parse_ber_sequence_defined_g ops f) /\ R (parse_ber_set_defined_g ops f)
        /\ R (parse_der_sequence_defined_g ops f) /\ R (parse_der_set_defined_g ops f)
        /\ R (parse_ber_tagged_explicit_g ops t f) /\ R (parse_der_tagged_explicit_g ops t f))
  /\ (forall E A (ops : err_ops E) (f : bytes -> header -> nat -> iresult E A),
        R (parse_ber_tagged_implicit_g ops t f) /\ R (parse_der_tagged_implicit_g ops t f)).
Proof.
  intros L t d R. unfold R. destruct (C03_entry_points L t d) as (H1 & H2 & H3 & H4 & H5 & H6 & H7 & H8 & H9 & H10 & H11 & H12 & H13).
  do 7 (split; [now apply extends_notices|]).
  repeat split; intros; apply extends_notices;
    first [apply H8|apply H9|apply H10|apply H11|apply H12|apply H13].
Qed.
Print Assumptions C04_entry_points.

(** The sample cut at every position. *)
Example C04_ex : (exists o, parse_ber SL (firstn 22 sample) = Ok ([], o))
  /\ forallb (fun n => match parse_ber SL (firstn n sample) with Ok _ => false | _ => true end)
             (seq 0 22) = true.
Proof. split; [eexists|]; vm_compute; reflexivity. Qed.

Example C04_entry_ex : forallb (fun n => match parse_ber_sequence_of (parse_ber SL) (firstn n sample), parse_der_u32 (firstn n (hx "02 02 01 02")) with
     Err _, Err _ => true | _, _ => false end) [0; 1; 2; 3]%nat = true
  /\ parse_der_u32 (hx "02 02 01 02") = Ok ([], 258).
Proof. vm_compute. auto. Qed.

(** ** C05 *)

Theorem C05_nesting : forall L i d r o, bytes_ok i ->
  (parse_ber_recursive L i d = Ok (r, o) -> (nesting o <= d)%nat)
  /\ (parse_der_recursive L i d = Ok (r, o) -> (nesting o <= d)%nat).
Proof.
  intros L i d r o Hok. split; intros H; [eapply parse_ber_nesting|eapply parse_der_nesting]; eauto.
Qed.
Print Assumptions C05_nesting.

Theorem C05_zero : forall L i, parse_ber_recursive L i 0 = Err (Error BerMaxDepth).
Proof. reflexivity. Qed.
Print Assumptions C05_zero.

(** Input nested deeper than the limit is rejected.  For DER the leaf decoders
    must not answer [UnknownTag] (that error makes the reader return the
    element undecoded). *)
Theorem C05_rejects : forall L d bs x, bytes_ok (bs ++ x) -> nested (S d) bs ->
  (forall r o, parse_ber_recursive L (bs ++ x) d <> Ok (r, o))
  /\ (no_unknown_tag L -> forall r o, parse_der_recursive L (bs ++ x) d <> Ok (r, o)).
Proof.
  intros L d bs x Hok Hn. split; intros; [now apply parse_ber_nested|now apply parse_der_nested].
Qed.
Print Assumptions C05_rejects.

Lemma SL_no_unknown_tag : no_unknown_tag SL.
Proof.
  intros pc l c t. cbn.
  assert (Ht : forall y s, time_rest y s <> inl (UnknownTag t)).
  { intros y s. unfold time_rest.
    repeat match goal with |- context [match ?x with _ => _ end] => destruct x end; discriminate. }
  repeat split.
  - unfold oid_check. repeat match goal with |- context [match ?x with _ => _ end] => destruct x end; discriminate.
  - unfold oid_check. repeat match goal with |- context [match ?x with _ => _ end] => destruct x end; discriminate.
  - unfold utctime_of. destruct (two_digits c) as [[]|]; [apply Ht|discriminate].
  - unfold gentime_of.
    repeat match goal with |- context [match ?x with _ => _ end] => destruct x end; try discriminate; apply Ht.
Qed.

(** [parse_ber] and [parse_der] have the limit 50: nothing deeper is returned, nothing
    deeper accepted, and fifty levels are accepted by both.  *)
Theorem C05_entry_points : forall L,
  (forall i r o, bytes_ok i -> parse_ber L i = Ok (r, o) \/ parse_der L i = Ok (r, o) -> (nesting o <= 50)%nat)
  /\ (forall bs x r o, bytes_ok (bs ++ x) -> nested 51 bs ->
        parse_ber L (bs ++ x) <> Ok (r, o) /\ (no_unknown_tag L -> parse_der L (bs ++ x) <> Ok (r, o)))
  /\ exists i o, bytes_ok i /\ parse_ber L i = Ok ([], o) /\ parse_der L i = Ok ([], o) /\ nesting o = 50%nat.
Proof.
  intros L. split; [|split].
  - intros i r o Hok H. destruct (C05_nesting L i 50 r o Hok) as [Hb Hd]. destruct H as [H|H]; [apply Hb, H|apply Hd, H].
  - intros bs x r o Hok Hn. destruct (C05_rejects L 50 bs x Hok Hn) as [Hb Hd].
    split; [apply Hb|]. intros HU. apply Hd, HU.
  - exists (flat_map (fun n => [48; 2 * (49 - N.of_nat n)]) (seq 0 50)).
    eexists. split; [repeat constructor|]. split; [vm_compute; reflexivity|]. split; vm_compute; reflexivity.
Qed.
Print Assumptions C05_entry_points.

(** Three levels; limit 2 rejects, limit 3 accepts. *)
Example C05_ex : nested 3 (hx "30 07 02 01 05 31 02 30 00")
  /\ parse_ber_recursive SL (hx "30 07 02 01 05 31 02 30 00") 2 = Err (Error BerMaxDepth)
  /\ exists o, parse_ber_recursive SL (hx "30 07 02 01 05 31 02 30 00") 3 = Ok ([], o)
       /\ nesting o = 3%nat.
Proof.
  assert (Hel : forall i h c, any_from_ber i = Ok ([], mkAny h c) -> bytes_ok i -> element 50 h c i).
  { intros i h c H Hok. apply any_from_ber_sound in H as (bs & E & He); [|assumption].
    rewrite app_nil_r in E. now subst. }
  split; [|split; [vm_compute; reflexivity|eexists; vm_compute; auto]].
  assert (H1 : nested 1 (hx "30 00")).
  { eapply (nested_S 0 _ _ _ [] [] []); [apply Hel; [vm_compute; reflexivity|bok]|..]; cbn; auto;
      constructor. }
  assert (H2 : nested 2 (hx "31 02 30 00")).
  { eapply (nested_S 1 _ _ _ [] (hx "30 00") []); [apply Hel; [vm_compute; reflexivity|bok]|..]; cbn; auto.
    constructor. }
  eapply (nested_S 2 _ _ _ (hx "02 01 05") (hx "31 02 30 00") []);
    [apply Hel; [vm_compute; reflexivity|bok]|..]; cbn; auto.
  eapply (elements_cons _ _ [2; 1; 5] []); [apply Hel; [vm_compute; reflexivity|bok]|constructor].
Qed.

(** ** C06 *)

Theorem C06_limit_irrelevant : forall L i d d' r o, (d <= d')%nat ->
  (parse_ber_recursive L i d = Ok (r, o) -> parse_ber_recursive L i d' = Ok (r, o))
  /\ (parse_der_recursive L i d = Ok (r, o) -> parse_der_recursive L i d' = Ok (r, o)).
Proof.
  intros L i d d' r o Hd. split; intros H.
  - apply (parse_ber_app_mono _ _ [] _ _ _ _ Hd) in H. now rewrite !app_nil_r in H.
  - apply (parse_der_app_mono _ _ [] _ _ _ _ Hd) in H. now rewrite !app_nil_r in H.
Qed.
Print Assumptions C06_limit_irrelevant.

Example C06_ex : exists o, parse_ber_recursive SL sample 3 = Ok (hx "ff 00", o)
  /\ parse_ber_recursive SL sample 50 = Ok (hx "ff 00", o).
Proof. eexists. vm_compute. auto. Qed.

(** ** C07 *)

Theorem C07_parse_ber : forall L i d r o n s, bytes_ok i ->
  parse_ber_recursive L i d = Ok (r, o) -> node n o -> In s (slices n) ->
  exists bs, i = bs ++ r /\ subslice s bs.
Proof. intros L i d r o n s. apply parse_ber_slices. Qed.
Print Assumptions C07_parse_ber.

Theorem C07_parse_der : forall L i d r o n s, bytes_ok i ->
  parse_der_recursive L i d = Ok (r, o) -> node n o -> In s (slices n) ->
  exists bs, i = bs ++ r /\ subslice s bs.
Proof. intros L i d r o n s. apply parse_der_slices. Qed.
Print Assumptions C07_parse_der.

(** The content octets of [1] inside the sample are reached by the theorem. *)
Example C07_ex : exists o n, parse_ber SL sample = Ok (hx "ff 00", o) /\ node n o
  /\ In [5] (slices n) /\ subslice [5] (firstn 22 sample).
Proof.
  eexists. eexists. split; [vm_compute; reflexivity|]. split; [|split].
  - eapply node_seq; [left; reflexivity|]. eapply node_seq; [right; left; reflexivity|].
    apply node_self.
  - right; left; reflexivity.
  - exists (hx "30 14 30 80 02 02 01 02 81 01"), (hx "00 00 0c 02 c3 a9 04 03 61 62 63"). reflexivity.
Qed.

(** ** C55: the BER parser decodes exactly the specified values *)

Theorem C55_parse_ber_exact : forall L i d r o, bytes_ok i ->
  (parse_ber_recursive L i d = Ok (r, o)
   <-> exists bs c, i = bs ++ r /\ element 50 (o_header o) c bs
         /\ value L d (o_header o) c (o_content o)).
Proof. intros L i d r o Hok. now apply parse_ber_iff. Qed.
Print Assumptions C55_parse_ber_exact.

Example C55_ex : exists o, parse_ber SL sample = Ok (hx "ff 00", o)
  /\ exists l, o_content o = CSequence l /\ length l = 3%nat.
Proof. eexists. split; [vm_compute; reflexivity|]. eexists. cbn. auto. Qed.
