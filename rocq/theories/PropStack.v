(** * Property C105: how deep the calls are nested. *)

From Coq Require Import String.
From Verif Require Import Base Asn1rs Ber Der Serialize Stack Spec SpecValue SpecComb SpecSize
  LemBase LemHeader LemSkip LemParse LemTree LemNode LemInt LemSer LemDer LemComb Conformance PropFraming PropDer.
Local Open Scope string_scope.
Local Open Scope N_scope.
Local Open Scope list_scope.

(** ** Counting does not change the result *)

Lemma snd_call {A} (x : nat * A) : snd (call x) = snd x.
Proof. now destruct x. Qed.
Lemma fst_call {A} (x : nat * A) : fst (call x) = S (fst x).
Proof. now destruct x. Qed.

Lemma snd_nbind {E A B} (x : nat * res E A) (k : A -> nat * res E B) :
  snd (nbind x k) = bind (snd x) (fun a => snd (k a)).
Proof. destruct x as [n [a| | |]]; cbn; try reflexivity. destruct (k a). reflexivity. Qed.

Lemma snd_nmap_err {E F A} (f : E -> F) (x : nat * res E A) : snd (nmap_err f x) = map_err f (snd x).
Proof. destruct x. reflexivity. Qed.

Lemma bind_ext {E A B} (x : res E A) (k k' : A -> res E B) :
  (forall a, k a = k' a) -> bind x k = bind x k'.
Proof. intros H. destruct x; cbn; auto. Qed.

Lemma same_skip d : forall i h, snd (n_skip d i h) = ber_skip_object_content d i h.
Proof.
  induction d as [|d IH]; intros i h; cbn [n_skip ber_skip_object_content]; rewrite snd_call; [reflexivity|].
  destruct (h_length h) as [n|]; [destruct ((n =? 0) && (h_tag h =? T_EndOfContent)); reflexivity|].
  destruct (negb (h_constructed h)); [reflexivity|].
  generalize (S (length i)). intros fuel. revert i. induction fuel as [|fuel IHf]; intros i; [reflexivity|].
  cbn [n_skip_loop ber_skip_loop]. rewrite snd_nbind. cbn [snd].
  apply bind_ext. intros [i2 h2]. rewrite snd_nbind, IH. apply bind_ext. intros [i3 [|]]; [reflexivity|apply IHf].
Qed.

Lemma same_get_content i h d : snd (n_get_content i h d) = ber_get_object_content i h d.
Proof.
  unfold n_get_content, ber_get_object_content. rewrite snd_nbind, same_skip.
  apply bind_ext. intros [r e]. reflexivity.
Qed.

Lemma same_any i : snd (n_any_from_ber i) = any_from_ber i.
Proof.
  unfold n_any_from_ber, any_from_ber. rewrite snd_nbind. cbn [snd]. apply bind_ext. intros [i1 h].
  rewrite snd_nbind, same_get_content, asn1_get_content_eq. apply bind_ext. intros [i2 data]. reflexivity.
Qed.

Lemma same_iter conv conv' : (forall a, snd (conv a) = conv' a) ->
  forall fuel data, snd (n_iter_collect conv fuel data) = iter_collect conv' fuel data.
Proof.
  intros Hc. induction fuel as [|fuel IH]; intros [|b data]; cbn [n_iter_collect iter_collect]; try reflexivity.
  rewrite snd_nbind, snd_nmap_err, same_any. apply bind_ext. intros [r a].
  rewrite snd_nbind, Hc. apply bind_ext. intros o. rewrite snd_nbind, IH. reflexivity.
Qed.

Lemma same_conv L d : forall a, snd (n_berobject_from_any L d a) = try_berobject_from_any L d a.
Proof.
  induction d as [|d IH]; intros a; [reflexivity|].
  cbn [n_berobject_from_any]. rewrite snd_call.
  destruct (negb (class_eqb (h_class (a_header a)) Universal)) eqn:Ec; [reflexivity|].
  destruct (utag_of (h_tag (a_header a))) eqn:Et; try reflexivity;
    cbn [try_berobject_from_any]; rewrite Ec, Et, snd_nbind; cbn [snd]; apply bind_ext; intros _;
    rewrite snd_nbind, (same_iter _ _ IH); reflexivity.
Qed.

Lemma same_content_as L i t l c d : snd (n_content_as L i t l c d) = ber_read_element_content_as L i t l c d.
Proof.
  unfold n_content_as, ber_read_element_content_as, try_read_berobjectcontent_as. cbv zeta.
  assert (E : forall h, snd (nbind (n_get_content i h d) (fun rd => let (r, data) := rd in
        nbind (nmap_err nerr_of_err (n_berobject_from_any L d (mkAny h data))) (fun o =>
        (O, Ok (r, o_content o)))))
      = (let* (r, data) := ber_get_object_content i h d in
           let* o := map_err nerr_of_err (try_berobject_from_any L d (mkAny h data)) in
           Ok (r, o_content o))).
  { intros h. rewrite snd_nbind, same_get_content. apply bind_ext. intros [r data].
    rewrite snd_nbind, snd_nmap_err, same_conv. reflexivity. }
  destruct l as [n|]; [|apply E]. destruct (MAX_OBJECT_SIZE <? n); [reflexivity|].
  destruct (nlen i <? n); [reflexivity|]. apply E.
Qed.

Lemma same_der_content_as L i t l c d :
  snd (n_der_content_as L i t l c d) = der_read_element_content_as L i t l c d.
Proof.
  unfold n_der_content_as, der_read_element_content_as. rewrite snd_nbind. cbn [snd]. apply bind_ext. intros n.
  destruct (nlen i <? n); [reflexivity|]. rewrite <- same_content_as.
  destruct (utag_of t); try reflexivity;
    repeat first [reflexivity | match goal with |- context[match ?x with _ => _ end] => destruct x end].
Qed.

Lemma same_der_content_recursive L i h d :
  snd (n_der_content_recursive L i h d) = der_read_element_content_recursive L i h d.
Proof.
  unfold n_der_content_recursive, der_read_element_content_recursive. cbv zeta.
  assert (E : snd (nbind (n_get_content i h d) (fun rd => let (r, data) := rd in
      (O, @Ok (nerr berror) (bytes * obj) (r, Obj h (CUnknown (mkAny h data))))))
    = (let* (r, data) := ber_get_object_content i h d in Ok (r, Obj h (CUnknown (mkAny h data))))).
  { rewrite snd_nbind, same_get_content. apply bind_ext. intros [r data]. reflexivity. }
  destruct (h_class h); try exact E. rewrite <- E, <- same_der_content_as.
  destruct (n_der_content_as _ _ _ _ _ _) as [n [[r c]|e| |]]; try reflexivity. cbn [snd].
  destruct e as [k|e|e]; try reflexivity. destruct e; try reflexivity.
  destruct (nbind _ _). reflexivity.
Qed.

Lemma same_zeroes s : snd (n_remove_zeroes s) = remove_zeroes s.
Proof.
  induction s as [|b s IH]; [reflexivity|].
  destruct b as [|p]; [|reflexivity]. destruct s as [|c s]; [reflexivity|].
  change (n_remove_zeroes (0 :: c :: s)) with (call (n_remove_zeroes (c :: s))).
  rewrite snd_call, IH. reflexivity.
Qed.

Lemma same_decode_uint n s : snd (n_decode_array_uint n s) = decode_array_uint n s.
Proof.
  unfold n_decode_array_uint, decode_array_uint. destruct (is_highest_bit_set s); [reflexivity|].
  rewrite <- same_zeroes. destruct (n_remove_zeroes s). reflexivity.
Qed.
Lemma same_decode_int n s : snd (n_decode_array_int n s) = decode_array_int n s.
Proof. unfold n_decode_array_int, decode_array_int. rewrite <- same_zeroes. destruct (n_remove_zeroes s). reflexivity. Qed.

Lemma same_many {A} (f : A -> nat * gen) g l : (forall x, In x l -> snd (f x) = g x) ->
  snd (n_many f l) = gen_many g l.
Proof.
  intros H. induction l as [|x l IH]; [reflexivity|].
  change (n_many f (x :: l)) with (nbind (f x) (fun a => nbind (n_many f l) (fun b => (O, Ok (a ++ b))))).
  change (gen_many g (x :: l)) with (gen_seq (g x) (gen_many g l)).
  unfold gen in *. rewrite snd_nbind, H by (now left). unfold gen_seq. apply bind_ext. intros a.
  rewrite snd_nbind, IH by (intros y Hy; apply H; now right). reflexivity.
Qed.

Lemma list_sum_in {A} (f : A -> nat) l x : In x l -> (f x <= list_sum (map f l))%nat.
Proof.
  induction l as [|y l IH]; [intros []|]. change (list_sum (map f (y :: l))) with (f y + list_sum (map f l))%nat.
  intros [->|H]; [lia|]. apply IH in H. lia.
Qed.

Lemma same_encode_mut L : forall n,
  (forall c, (objects_content c < n)%nat -> snd (n_encode_object_content L c) = ber_encode_object_content L c)
  /\ (forall o, (objects o <= n)%nat -> snd (n_encode_object L o) = ber_encode_object L o).
Proof.
  induction n as [|n [IHc IHo]]; split; intros x Hx; [lia|destruct x; cbn [objects] in Hx; lia| |].
  - destruct x as [| | | | | | | | | | | |l|l| | |o| |]; cbn [n_encode_object_content]; try reflexivity;
      cbn [objects_content] in Hx.
    all: try (cbn [ber_encode_object_content]; rewrite snd_call; apply same_many; intros y Hy; apply IHo;
              apply (list_sum_in objects) in Hy; lia).
    + destruct o as [[h c]|]; [|reflexivity]. cbn [objects] in Hx. cbn [ber_encode_object_content].
      rewrite snd_call. apply IHc. lia.
    + cbn [ber_encode_object_content]. rewrite snd_call. apply IHo. lia.
  - destruct x as [h c]. cbn [objects] in Hx. cbn [n_encode_object ber_encode_object]. unfold with_header, gen in *.
    rewrite snd_call, snd_nbind.
    assert (Hc : snd (n_encode_object_content L c) = ber_encode_object_content L c).
    { destruct c as [| | | | | | | | | | | |l|l| | |o| |]; cbn [n_encode_object_content]; try reflexivity;
      cbn [objects_content] in Hx.
      all: try (cbn [ber_encode_object_content]; rewrite snd_call; apply same_many; intros y Hy; apply IHo;
              apply (list_sum_in objects) in Hy; lia).
      + destruct o as [[h' c]|]; [|reflexivity]. cbn [objects] in Hx. cbn [ber_encode_object_content].
        rewrite snd_call. apply IHc. lia.
      + cbn [ber_encode_object_content]. rewrite snd_call. apply IHo. lia. }
    unfold gen in Hc. rewrite Hc. apply bind_ext. intros v. rewrite snd_nbind. reflexivity.
Qed.

(** The functions with the count give the results of the functions of the model. *)
Theorem C105_same : forall L i d t c o,
  snd (n_parse_ber_recursive L i d) = parse_ber_recursive L i d
  /\ snd (n_parse_ber_with_tag L i t) = parse_ber_with_tag L i t
  /\ snd (n_parse_der_recursive L i d) = parse_der_recursive L i d
  /\ snd (n_parse_der_with_tag L i t) = parse_der_with_tag L i t
  /\ snd (n_as_int 8 c) = as_i64 c /\ snd (n_as_int 4 c) = as_i32 c
  /\ snd (n_as_u64 c) = as_u64 c /\ snd (n_as_u32 c) = as_u32 c
  /\ snd (n_encode_object L o) = to_vec L o.
Proof.
  intros L i d t c o. split; [|split; [|split; [|split; [|split; [|split; [|split; [|split]]]]]]].
  - unfold n_parse_ber_recursive, parse_ber_recursive, parse_ber_any_r. destruct (d =? 0)%nat; [reflexivity|].
    rewrite snd_nbind, same_any. apply bind_ext. intros [r a]. rewrite snd_nbind, snd_nmap_err, same_conv. reflexivity.
  - unfold n_parse_ber_with_tag, parse_ber_with_tag. rewrite snd_nbind. apply bind_ext. intros [i1 h].
    rewrite snd_nbind. apply bind_ext. intros _. rewrite snd_nbind, same_content_as. apply bind_ext.
    intros [i2 k]. reflexivity.
  - unfold n_parse_der_recursive, parse_der_recursive. rewrite snd_nbind. apply bind_ext. intros [i1 h].
    destruct (h_length h) as [n|]; [destruct (MAX_OBJECT_SIZE <? n); [reflexivity|]|];
      apply same_der_content_recursive.
  - unfold n_parse_der_with_tag, parse_der_with_tag. rewrite snd_nbind. apply bind_ext. intros [i1 h].
    rewrite snd_nbind. apply bind_ext. intros _. rewrite snd_nbind, same_der_content_as. apply bind_ext.
    intros [i2 k]. reflexivity.
  - destruct c as [| |s| | | | | | | | | | | | | | | |]; try reflexivity. unfold n_as_int, as_i64, as_int.
    destruct (is_highest_bit_set s); rewrite snd_nbind; [rewrite same_decode_int|rewrite same_decode_uint]; reflexivity.
  - destruct c as [| |s| | | | | | | | | | | | | | | |]; try reflexivity. unfold n_as_int, as_i32, as_int.
    destruct (is_highest_bit_set s); rewrite snd_nbind; [rewrite same_decode_int|rewrite same_decode_uint]; reflexivity.
  - destruct c as [| |s| | | | | | | | | | | | | | | |]; try reflexivity. unfold n_as_u64, as_u64.
    rewrite snd_nbind, same_decode_uint. reflexivity.
  - destruct c as [| |s| | | | | | | | | | | | | | | |]; try reflexivity. unfold n_as_u32, as_u32.
    rewrite snd_nbind, same_decode_uint. reflexivity.
  - apply (proj2 (same_encode_mut L (objects o))). lia.
Qed.
Print Assumptions C105_same.

(** ** The readers *)

Lemma nbind_le {E A B} (x : nat * res E A) (k : A -> nat * res E B) m :
  (fst x <= m)%nat -> (forall a, (fst (k a) <= m)%nat) -> (fst (nbind x k) <= m)%nat.
Proof.
  intros Hx Hk. destruct x as [n [a| | |]]; cbn [fst nbind] in *; auto.
  specialize (Hk a). destruct (k a). cbn [fst] in *. lia.
Qed.

Lemma nmap_err_fst {E F A} (f : E -> F) (x : nat * res E A) : fst (nmap_err f x) = fst x.
Proof. now destruct x. Qed.

Lemma skip_le d : forall i h, (fst (n_skip d i h) <= S d)%nat.
Proof.
  induction d as [|d IH]; intros i h; cbn [n_skip]; rewrite fst_call; apply le_n_S; [cbn [fst]; lia|].
  destruct (h_length h) as [n|]; [destruct ((n =? 0) && _); cbn [fst]; lia|].
  destruct (negb (h_constructed h)); [cbn [fst]; lia|].
  generalize (S (length i)). intros fuel. revert i. induction fuel as [|fuel IHf]; intros i;
    cbn [n_skip_loop]; [cbn [fst]; lia|].
  apply nbind_le; [cbn [fst]; lia|]. intros [i2 h2]. apply nbind_le; [apply IH|].
  intros [i3 [|]]; [cbn [fst]; lia|apply IHf].
Qed.

Lemma get_content_le i h d : (fst (n_get_content i h d) <= S d)%nat.
Proof. unfold n_get_content. apply nbind_le; [apply skip_le|]. intros re. cbn [fst]. lia. Qed.

Lemma any_le i : (fst (n_any_from_ber i) <= 51)%nat.
Proof.
  unfold n_any_from_ber. apply nbind_le; [cbn [fst]; lia|]. intros [i1 h].
  apply nbind_le; [apply (get_content_le i1 h 50)|]. intros [i2 data]. cbn [fst]. lia.
Qed.

Lemma iter_le conv m : (51 <= m)%nat -> (forall a, (fst (conv a) <= m)%nat) ->
  forall fuel data, (fst (n_iter_collect conv fuel data) <= m)%nat.
Proof.
  intros Hm Hc. induction fuel as [|fuel IH]; intros [|b data]; cbn [n_iter_collect]; try (cbn [fst]; lia).
  apply nbind_le; [rewrite nmap_err_fst; pose proof (any_le (b :: data)); lia|]. intros [r a].
  apply nbind_le; [apply Hc|]. intros o. apply nbind_le; [apply IH|]. intros os. cbn [fst]. lia.
Qed.

Lemma conv_le L d : forall a, (fst (n_berobject_from_any L d a) <= d + 51)%nat.
Proof.
  induction d as [|d IH]; intros a; cbn [n_berobject_from_any]; rewrite fst_call; [cbn [fst]; lia|].
  rewrite Nat.add_succ_l. apply le_n_S. destruct (negb _); [cbn [fst]; lia|].
  destruct (utag_of _); try (cbn [fst]; lia);
    (apply nbind_le; [cbn [fst]; lia|]; intros _; apply nbind_le; [apply iter_le; [lia|exact IH]|];
     intros l; cbn [fst]; lia).
Qed.

Lemma content_as_le L i t l c d : (fst (n_content_as L i t l c d) <= d + 51)%nat.
Proof.
  unfold n_content_as. cbv zeta.
  match goal with |- context [nbind (n_get_content i ?h d) ?k] => assert (H : (fst (nbind (n_get_content i h d) k) <= d + 51)%nat) end.
  { apply nbind_le; [pose proof (get_content_le i (header_new Universal c t l) d); lia|]. intros [r data].
    apply nbind_le; [rewrite nmap_err_fst; apply conv_le|]. intros o. cbn [fst]. lia. }
  destruct l as [n|]; [|exact H]. destruct (MAX_OBJECT_SIZE <? n); [cbn [fst]; lia|].
  destruct (nlen i <? n); [cbn [fst]; lia|exact H].
Qed.

Lemma der_content_as_le L i t l c d : (fst (n_der_content_as L i t l c d) <= d + 51)%nat.
Proof.
  unfold n_der_content_as. apply nbind_le; [cbn [fst]; lia|]. intros n.
  pose proof (content_as_le L i t l c d) as H.
  destruct (nlen i <? n); [cbn [fst]; lia|]. cbv zeta.
  destruct (utag_of t); try exact H;
    repeat first [exact H | cbn [fst]; lia
                 | match goal with |- context[match ?x with _ => _ end] => destruct x end].
Qed.

Lemma der_content_recursive_le L i h d : (fst (n_der_content_recursive L i h d) <= d + 51)%nat.
Proof.
  unfold n_der_content_recursive. cbv zeta.
  set (u := nbind (n_get_content i h d) _).
  assert (Hu : (fst u <= d + 51)%nat).
  { apply nbind_le; [pose proof (get_content_le i h d); lia|]. intros []. cbn [fst]. lia. }
  clearbody u. destruct (h_class h); try exact Hu.
  pose proof (der_content_as_le L i (h_tag h) (h_length h) (h_constructed h) d) as H.
  destruct (n_der_content_as _ _ _ _ _ _) as [k v]. cbn [fst] in H.
  destruct v as [[r c]|e| |]; try exact H. destruct e as [x|e|e]; try exact H. destruct e; try exact H.
  destruct u as [m w]. cbn [fst] in *. lia.
Qed.

(** However large the input: with limit [d] there are at most [d + 51] nested calls. *)
Theorem C105_readers : forall L i d t,
  (fst (n_parse_ber_recursive L i d) <= d + 51)%nat
  /\ (fst (n_parse_ber_with_tag L i t) <= 101)%nat
  /\ (fst (n_parse_der_recursive L i d) <= d + 51)%nat
  /\ (fst (n_parse_der_with_tag L i t) <= 101)%nat.
Proof.
  intros L i d t. split; [|split; [|split]].
  - unfold n_parse_ber_recursive. destruct (d =? 0)%nat; [cbn [fst]; lia|].
    apply nbind_le; [pose proof (any_le i); lia|]. intros [r a].
    apply nbind_le; [rewrite nmap_err_fst; apply conv_le|]. intros o. cbn [fst]. lia.
  - unfold n_parse_ber_with_tag. apply nbind_le; [cbn [fst]; lia|]. intros [i1 h].
    apply nbind_le; [cbn [fst]; lia|]. intros _.
    apply nbind_le; [apply (content_as_le L i1 (h_tag h) (h_length h) (h_constructed h) 50)|].
    intros [i2 c]. cbn [fst]. lia.
  - unfold n_parse_der_recursive. apply nbind_le; [cbn [fst]; lia|]. intros [i1 h].
    destruct (h_length h) as [n|]; [destruct (MAX_OBJECT_SIZE <? n); [cbn [fst]; lia|]|];
      apply der_content_recursive_le.
  - unfold n_parse_der_with_tag. apply nbind_le; [cbn [fst]; lia|]. intros [i1 h].
    apply nbind_le; [cbn [fst]; lia|]. intros _.
    apply nbind_le; [apply (der_content_as_le L i1 (h_tag h) (h_length h) (h_constructed h) 50)|].
    intros [i2 c]. cbn [fst]. lia.
Qed.
Print Assumptions C105_readers.

(** ** The integer accessors *)

(** One call, and one more for every octet [00] that is dropped. *)
Lemma zeroes_calls s : fst (n_remove_zeroes s) = S (length s - length (remove_zeroes s)).
Proof.
  induction s as [|b s IH]; [reflexivity|].
  destruct b as [|p]; [|cbn; lia]. destruct s as [|c s]; [reflexivity|].
  change (n_remove_zeroes (0 :: c :: s)) with (call (n_remove_zeroes (c :: s))).
  change (remove_zeroes (0 :: c :: s)) with (remove_zeroes (c :: s)).
  rewrite fst_call, IH.
  assert (Hl : forall t, (length (remove_zeroes t) <= length t)%nat).
  { intros t. induction t as [|x t IHt]; [cbn; lia|]. destruct x as [|p]; [|cbn; lia].
    destruct t as [|y t]; [cbn; lia|]. change (remove_zeroes (0 :: y :: t)) with (remove_zeroes (y :: t)).
    cbn [length] in *. lia. }
  specialize (Hl (c :: s)). cbn [length] in *. lia.
Qed.

Lemma decode_calls n s : (fst (n_decode_array_uint n s) <= fst (n_remove_zeroes s))%nat
  /\ fst (n_decode_array_int n s) = fst (n_remove_zeroes s)
  /\ (is_highest_bit_set s = false -> fst (n_decode_array_uint n s) = fst (n_remove_zeroes s)).
Proof.
  unfold n_decode_array_uint, n_decode_array_int. destruct (is_highest_bit_set s), (n_remove_zeroes s);
    cbn [fst]; repeat split; intros; try discriminate; lia.
Qed.

Lemma nbind_pure_fst {E A B} (x : nat * res E A) (k : A -> nat * res E B) :
  (forall a, fst (k a) = O) -> fst (nbind x k) = fst x.
Proof.
  intros H. destruct x as [n [a| | |]]; cbn [nbind]; try reflexivity. specialize (H a). destruct (k a).
  cbn in *. lia.
Qed.

Lemma accessor_calls c n :
  let m := match c with CInteger s => fst (n_remove_zeroes s) | _ => O end in
  (fst (n_as_int n c) <= m)%nat /\ (fst (n_as_u64 c) <= m)%nat /\ (fst (n_as_u32 c) <= m)%nat.
Proof.
  destruct c as [| |s| | | | | | | | | | | | | | | |]; cbn; try lia.
  pose proof (decode_calls n s) as (H1 & H2 & _). pose proof (decode_calls 8 s) as (H3 & _).
  pose proof (decode_calls 4 s) as (H5 & _).
  split; [|split]; rewrite ?nbind_pure_fst by reflexivity; auto.
  destruct (is_highest_bit_set s); rewrite nbind_pure_fst by reflexivity; lia.
Qed.

(** Not more calls than octets and one; and at most two for the outer INTEGER of a
    distinguished encoding. *)
Theorem C105_integers_partial : forall c,
  (forall n, (fst (n_as_int n c) <= S (octets_content c))%nat)
  /\ (fst (n_as_u64 c) <= S (octets_content c))%nat
  /\ (fst (n_as_u32 c) <= S (octets_content c))%nat
  /\ forall L i d r h, bytes_ok i -> der_reads L i d 2 r (Obj h c) ->
       (forall n, fst (n_as_int n c) <= 2)%nat /\ (fst (n_as_u64 c) <= 2)%nat /\ (fst (n_as_u32 c) <= 2)%nat.
Proof.
  intros c.
  assert (H0 : (match c with CInteger s => fst (n_remove_zeroes s) | _ => O end <= S (octets_content c))%nat).
  { destruct c; try lia. rewrite zeroes_calls. cbn [octets_content]. lia. }
  split; [intros n; destruct (accessor_calls c n); lia|].
  split; [destruct (accessor_calls c 8); lia|]. split; [destruct (accessor_calls c 8); lia|].
  intros L i d r h Hok H.
  enough (Hm : (match c with CInteger s => fst (n_remove_zeroes s) | _ => O end <= 2)%nat).
  { split; [intros n; destruct (accessor_calls c n); lia|]. destruct (accessor_calls c 8); lia. }
  destruct c as [| |s| | | | | | | | | | | | | | | |]; try lia.
  apply C22_partial in H as (bs & c & -> & _ & E & Hmin); [|exact Hok]. cbn [o_content] in E.
  injection E as ->. rewrite zeroes_calls.
  destruct c as [|b [|b' c]]; [contradiction|destruct b; cbn; lia|].
  destruct b as [|p]; [|cbn; lia]. change (remove_zeroes (0 :: b' :: c)) with (remove_zeroes (b' :: c)).
  destruct b' as [|p]; [exfalso; apply Hmin; lia|]. cbn [remove_zeroes length]. lia.
Qed.
Print Assumptions C105_integers_partial.

(** No number bounds them for an INTEGER read by [parse_ber]: [n] octets [00] take [n]
    nested calls, for every length that four length octets can say. *)
Lemma zeroes_repeat n : (1 <= n)%nat -> remove_zeroes (repeat 0 n) = [0].
Proof.
  destruct n as [|n]; [lia|]. intros _. induction n as [|n IH]; [reflexivity|].
  change (repeat 0 (S (S n))) with (0 :: 0 :: repeat 0 n).
  change (remove_zeroes (0 :: 0 :: repeat 0 n)) with (remove_zeroes (repeat 0 (S n))). exact IH.
Qed.

Theorem C105_refuted : forall L n, (1 <= n)%nat -> N.of_nat n < 2 ^ 32 ->
  exists i o, bytes_ok i /\ parse_ber L i = Ok ([], o) /\ as_u64 (o_content o) = Ok 0
    /\ fst (n_as_u64 (o_content o)) = n.
Proof.
  intros L n Hn Hm. destruct (to_be_bytes_spec 4 (N.of_nat n)) as (Hl & Ho & Hu).
  set (h := mkHeader Universal false 2 (Definite (N.of_nat n)) (Some [2])).
  exists (([2] ++ 132 :: to_be_bytes 4 (N.of_nat n)) ++ repeat 0 n), (Obj h (CInteger (repeat 0 n))).
  assert (Hz : bytes_ok (repeat 0 n)).
  { clear. induction n as [|n IH]; cbn [repeat]; constructor; [lia|exact IH]. }
  assert (Hi : bytes_ok (([2] ++ 132 :: to_be_bytes 4 (N.of_nat n)) ++ repeat 0 n)).
  { apply bytes_ok_app. split; [|exact Hz]. constructor; [lia|]. constructor; [lia|exact Ho]. }
  split; [exact Hi|]. split; [|split].
  - unfold parse_ber. apply parse_ber_iff; [exact Hi|].
    exists (([2] ++ 132 :: to_be_bytes 4 (N.of_nat n)) ++ repeat 0 n), (repeat 0 n).
    split; [now rewrite app_nil_r|]. split; [|apply v_integer; reflexivity].
    apply definite_is_element. eexists. split; [reflexivity|]. cbn [o_header]. split.
    + exists [2], (132 :: to_be_bytes 4 (N.of_nat n)). split; [reflexivity|]. split; [apply ident_low; cbn; lia|].
      split; [|split; [reflexivity|discriminate]].
      assert (Hv : unsigned (to_be_bytes 4 (N.of_nat n)) = N.of_nat n).
      { apply Hu. exact Hm. }
      replace (h_length h) with (Definite (unsigned (to_be_bytes 4 (N.of_nat n)))) by (rewrite Hv; reflexivity).
      replace 132 with (128 + N.of_nat (length (to_be_bytes 4 (N.of_nat n)))) by (rewrite Hl; reflexivity).
      apply length_long; [lia|exact Ho|rewrite Hv; lia].
    + cbn [h h_length]. now rewrite repeat_length.
  - cbn [o_content]. unfold as_u64, decode_array_uint.
    assert (Hh : is_highest_bit_set (repeat 0 n) = false) by (destruct n; [lia|reflexivity]).
    rewrite Hh, zeroes_repeat by exact Hn. reflexivity.
  - cbn [o_content n_as_u64]. rewrite nbind_pure_fst by reflexivity.
    rewrite (proj2 (proj2 (decode_calls 8 _))); [|destruct n; [lia|reflexivity]].
    rewrite zeroes_calls, zeroes_repeat, repeat_length by exact Hn. cbn [length]. lia.
Qed.
Print Assumptions C105_refuted.

(** ** The encoder *)

Lemma many_le {A} (f : A -> nat * gen) l m : (forall o, In o l -> (fst (f o) <= m)%nat) -> (fst (n_many f l) <= m)%nat.
Proof.
  induction l as [|o l IH]; intros H; [cbn; lia|].
  change (n_many f (o :: l)) with (nbind (f o) (fun a => nbind (n_many f l) (fun b => (O, Ok (a ++ b))))).
  unfold gen in *. apply nbind_le; [apply H; now left|]. intros a. apply nbind_le; [apply IH; intros; apply H; now right|].
  intros b. cbn [fst]. lia.
Qed.

Lemma list_max_in {A} (f : A -> nat) l x : In x l -> (f x <= list_max (map f l))%nat.
Proof.
  intros H. pose proof (proj1 (list_max_le (map f l) (list_max (map f l))) (le_n _)) as Hf.
  rewrite Forall_map, Forall_forall in Hf. now apply Hf.
Qed.

Lemma encode_le_mut L : forall n c, (objects_content c < n)%nat ->
  (fst (n_encode_object_content L c) <= S (2 * height_content c))%nat.
Proof.
  induction n as [|n IH]; intros c Hx; [lia|].
  assert (IHo : forall o, (objects o <= n)%nat -> (fst (n_encode_object L o) <= 2 * height o)%nat).
  { intros [h c'] H. cbn [objects] in H. cbn [n_encode_object height]. rewrite fst_call. unfold gen in *.
    specialize (IH c'). match goal with |- (S ?x <= _)%nat => enough (x <= S (2 * height_content c'))%nat by lia end.
    apply nbind_le; [apply IH; lia|]. intros v. apply nbind_le; [cbn [fst]; lia|]. intros v'. cbn [fst]. lia. }
  destruct c as [| | | | | | | | | | | |l|l| | |o| |]; cbn [n_encode_object_content]; rewrite fst_call;
    try (cbn [fst]; lia); cbn [objects_content height_content] in *.
  - apply le_n_S, many_le. intros y Hy. pose proof (list_sum_in objects _ _ Hy).
    pose proof (list_max_in height _ _ Hy). specialize (IHo y). lia.
  - apply le_n_S, many_le. intros y Hy. pose proof (list_sum_in objects _ _ Hy).
    pose proof (list_max_in height _ _ Hy). specialize (IHo y). lia.
  - destruct o as [[h c]|]; [|cbn; lia]. cbn [objects height] in *. specialize (IH c). lia.
  - match goal with H : (objects ?x < _)%nat |- _ => specialize (IHo x) end. lia.
Qed.

Lemma encoder_le L o : (fst (n_encode_object L o) <= 2 * height o)%nat.
Proof.
  destruct o as [h c]. cbn [n_encode_object height]. rewrite fst_call. unfold gen in *.
  pose proof (encode_le_mut L (S (objects_content c)) c) as H. unfold gen in *.
  match goal with |- (S ?x <= _)%nat => enough (x <= S (2 * height_content c))%nat by lia end.
  apply nbind_le; [apply H; lia|]. intros v. apply nbind_le; [cbn [fst]; lia|]. intros v'. cbn [fst]. lia.
Qed.

Lemma value_height_mut L :
  (forall d h c k, value L d h c k -> (S (height_content k) <= d)%nat)
  /\ (forall d c l, series L d c l -> Forall (fun o => (height o <= d)%nat) l).
Proof.
  apply value_series_ind; intros; cbn [height_content]; try lia.
  - apply le_n_S, list_max_le_Forall. apply Forall_map. assumption.
  - apply le_n_S, list_max_le_Forall. apply Forall_map. assumption.
  - constructor.
  - constructor; [cbn [height]; assumption|assumption].
Qed.

(** Two calls for every level of the tree, and a decoded tree has at most as many levels
    as the limit it was decoded with. *)
Theorem C105_encoder : forall L o,
  (fst (n_encode_object L o) <= 2 * height o)%nat
  /\ forall i d r, bytes_ok i ->
       (parse_ber_recursive L i d = Ok (r, o) -> (height o <= d)%nat)
       /\ (parse_der_recursive L i d = Ok (r, o) -> (height o <= Nat.max d 1)%nat).
Proof.
  intros L o. split; [apply encoder_le|]. intros i d r Hok. split; intros H.
  - apply parse_ber_iff in H as (bs & c & _ & _ & Hv); [|assumption].
    destruct o as [h k]. cbn [height o_content] in *. eapply value_height_mut; eauto.
  - apply parse_der_element in H as (hb & c & -> & Hh & Hl & Hm & Ho); [|assumption].
    apply bytes_ok_app in Hok as [_ Hok]. apply bytes_ok_app in Hok as [Hok _].
    inv Ho; cbn [height height_content]; try lia.
    match goal with Hv : der_value _ _ _ _ _ |- _ => inv Hv end.
    + match goal with Hb : der_bits _ _ |- _ => destruct Hb as (u & data & _ & _ & -> & _) end.
      cbn; lia.
    + match goal with Hv : try_berobject_from_any _ _ _ = _ |- _ => apply conv_value in Hv end;
        [| |exact Hok].
      * match goal with Hv : value _ _ _ _ _ |- _ => apply value_height_mut in Hv end. cbn [o_content] in *. lia.
      * intros n' E. cbn in *. congruence.
Qed.
Print Assumptions C105_encoder.

(** Two levels of SEQUENCE with indefinite lengths, 50 levels of SEQUENCE, an INTEGER with
    three octets [00]; and the encoder on the first. *)
Example C105_ex :
  let i := hx "30 80 30 80 02 01 05 00 00 00 00" in
  fst (n_parse_ber_recursive SL i 50) = 3%nat
  /\ fst (n_parse_ber_recursive SL i 2) = 3%nat
  /\ (exists o, parse_ber SL i = Ok ([], o) /\ height o = 3%nat /\ fst (n_encode_object SL o) = 6%nat)
  /\ fst (n_parse_ber_recursive SL (concat (map (fun k => [48; 2 * N.of_nat (49 - k)]) (seq 0 50))) 50) = 50%nat
  /\ fst (n_as_u64 (CInteger [0; 0; 0; 7])) = 4%nat.
Proof.
  cbv zeta. split; [vm_compute; reflexivity|]. split; [vm_compute; reflexivity|].
  split; [|split; vm_compute; reflexivity].
  destruct (parse_ber SL (hx "30 80 30 80 02 01 05 00 00 00 00")) as [[r o]| | |] eqn:E; vm_compute in E; try discriminate.
  injection E as <- <-. eexists. split; [reflexivity|]. split; vm_compute; reflexivity.
Qed.
