(** * C114: targets with another width of [usize] *)

From Verif Require Import Base Asn1rs Ber Der Serialize Combinators Width Spec SpecValue.
From Verif Require Import LemBase LemHeader LemInt LemSkip LemParse LemTree LemNode LemSer LemComb PropFraming.

(** ** What may differ *)

(** An error that asks for so many more octets that, with the [m] octets given, a
    [usize] of [k] octets could not count them, or that was given because the
    recursion limit was met first. *)
Definition excused (k : nat) (m : N) (e : nerr berror) : Prop :=
  (exists n, e = Incomplete (Some n) /\ usize_limit k <= n + m) \/ e = Error BerMaxDepth.

(** On the [k]-octet target the result is the same, or both are errors: the length is
    called invalid where the 64-bit target gives such an error. *)
Definition as_wide {A} (k : nat) (m : N) (a b : res (nerr berror) A) : Prop :=
  a = b \/ (usize_limit k < 2 ^ 64 /\ a = Err (Error InvalidLength)
            /\ exists e, b = Err e /\ excused k m e).

(** The same for results with the plain error type. *)
Definition as_wide' {A} (k : nat) (m : N) (a b : res berror A) : Prop :=
  a = b \/ (usize_limit k < 2 ^ 64 /\ a = Err InvalidLength
            /\ exists e, b = Err e /\ excused k m (nerr_of_err e)).

Lemma wide_refl {A} k m (a : res (nerr berror) A) : as_wide k m a a.
Proof. now left. Qed.
Lemma wide_refl' {A} k m (a : res berror A) : as_wide' k m a a.
Proof. now left. Qed.
Local Hint Resolve wide_refl wide_refl' : core.

Lemma wide_bind {A B} k m (a b : res (nerr berror) A) (f g : A -> res (nerr berror) B) :
  as_wide k m a b -> (forall x, b = Ok x -> as_wide k m (f x) (g x)) ->
  as_wide k m (bind a f) (bind b g).
Proof.
  intros [->|(Hk & -> & e & -> & He)] H.
  - destruct b; cbn [bind]; auto.
  - right. cbn [bind]. eauto 6.
Qed.

Lemma wide_bind' {A B} k m (a b : res berror A) (f g : A -> res berror B) :
  as_wide' k m a b -> (forall x, b = Ok x -> as_wide' k m (f x) (g x)) ->
  as_wide' k m (bind a f) (bind b g).
Proof.
  intros [->|(Hk & -> & e & -> & He)] H.
  - destruct b; cbn [bind]; auto.
  - right. cbn [bind]. eauto 6.
Qed.

Lemma wide_to_nerr {A} k m (a b : res berror A) :
  as_wide' k m a b -> as_wide k m (map_err nerr_of_err a) (map_err nerr_of_err b).
Proof.
  intros [->|(Hk & -> & n & -> & Hn)]; [auto|]. right. cbn. eauto 6.
Qed.

Lemma wide_of_nerr {A} k m (a b : res (nerr berror) A) :
  as_wide k m a b -> as_wide' k m (map_err err_of_nerr a) (map_err err_of_nerr b).
Proof.
  intros [->|(Hk & -> & e & -> & He)]; [auto|]. right. cbn. split; [exact Hk|].
  split; [reflexivity|]. eexists. split; [reflexivity|].
  destruct He as [(n & -> & Hn)| ->]; cbn; [left; eauto|now right].
Qed.

(** ** Headers *)

Lemma parse_length_w_cases k indef i :
  parse_length_w k indef i = parse_length indef i
  \/ exists r l, parse_length_w k indef i = Err (Error InvalidLength)
     /\ parse_length indef i = Ok (r, Definite l) /\ usize_limit k <= l < 2 ^ 64.
Proof.
  destruct i as [|b rest]; [now left|]. cbn [parse_length_w parse_length].
  destruct (b <? 128); [now left|]. destruct (b =? 128); [now left|].
  destruct (b =? 255); [now left|].
  destruct (take_streaming (b - 128) rest) as [[r s]|e| |]; cbn [bind]; try now left.
  destruct (bytes_to_u64 s) as [l|] eqn:El; [|now left].
  apply bytes_to_u64_spec in El as [_ El].
  destruct (l <? usize_limit k) eqn:E; [now left|]. right. exists r, l.
  split; [reflexivity|]. split; [reflexivity|]. lia.
Qed.

Definition wide_header k (i : bytes) (a b : iresult berror header) : Prop :=
  a = b \/ exists r h l, a = Err (Error InvalidLength) /\ b = Ok (r, h)
    /\ h_length h = Definite l /\ usize_limit k <= l < 2 ^ 64 /\ nlen r <= nlen i.

Lemma header_from_ber_w_cases k i : wide_header k i (header_from_ber_w k i) (header_from_ber i).
Proof.
  unfold wide_header, header_from_ber_w.
  destruct (header_from_ber i) as [[r h]|e| |] eqn:E; unfold header_from_ber in E;
    destruct (parse_identifier i) as [[r1 [[[c pc] t] raw]]|e'| |] eqn:Ei; cbn [bind] in E |- *;
    try discriminate E; try (left; congruence);
  match goal with |- context [parse_length_w k ?x r1] => destruct (parse_length_w_cases k x r1) as [->|(r2 & l & -> & H & Hl)] end.
  all: try (left; exact E).
  all: rewrite H in E; cbn [bind] in E; try discriminate E.
  inv E. right. exists r, (mkHeader c pc t (Definite l) (Some raw)), l. cbn.
  split; [reflexivity|]. split; [reflexivity|]. split; [reflexivity|]. split; [exact Hl|].
  apply parse_identifier_split in Ei. apply parse_length_split in H.
  destruct Ei as (-> & _). destruct H as (lb & -> & _). rewrite !nlen_app. lia.
Qed.

Lemma header_from_der_w_cases k i : wide_header k i (header_from_der_w k i) (header_from_der i).
Proof.
  unfold wide_header, header_from_der_w.
  destruct (header_from_der i) as [[r h]|e| |] eqn:E; unfold header_from_der in E;
    destruct (parse_identifier i) as [[r1 [[[c pc] t] raw]]|e'| |] eqn:Ei; cbn [bind] in E |- *;
    try discriminate E; try (left; congruence);
  match goal with |- context [parse_length_w k ?x r1] => destruct (parse_length_w_cases k x r1) as [->|(r2 & l & -> & H & Hl)] end.
  all: try (left; exact E).
  all: rewrite H in E; cbn [bind] in E; try discriminate E.
  inv E. right. exists r, (mkHeader c pc t (Definite l) (Some raw)), l. cbn.
  split; [reflexivity|]. split; [reflexivity|]. split; [reflexivity|]. split; [exact Hl|].
  apply parse_identifier_split in Ei. apply parse_length_split in H.
  destruct Ei as (-> & _). destruct H as (lb & -> & _). rewrite !nlen_app. lia.
Qed.

(** What follows a header that differs. *)
Lemma wide_header_bind {A} k m i a b (f g : bytes * header -> res (nerr berror) A) :
  wide_header k i a b -> nlen i <= m ->
  (forall r h, b = Ok (r, h) -> as_wide k m (f (r, h)) (g (r, h))) ->
  (forall r h l, b = Ok (r, h) -> h_length h = Definite l -> usize_limit k <= l < 2 ^ 64 -> nlen r <= nlen i ->
     as_wide k m (Err (Error InvalidLength)) (g (r, h))) ->
  as_wide k m (bind a f) (bind b g).
Proof.
  intros [->|(r & h & l & -> & -> & Hl & Hk & Hr)] Hm H1 H2.
  - destruct b as [[r h]|e| |]; cbn [bind]; auto.
  - cbn [bind]. eauto.
Qed.

Lemma limit_big k : (4 <= k)%nat -> 2 ^ 32 <= usize_limit k.
Proof.
  intros H. unfold usize_limit. change (2 ^ 32) with (256 ^ 4). apply N.pow_le_mono_r; lia.
Qed.

Lemma skip_too_long k m d i h l :
  h_length h = Definite l -> usize_limit k <= l < 2 ^ 64 -> nlen i <= m < usize_limit k ->
  exists e, ber_skip_object_content d i h = Err e /\ excused k m e.
Proof.
  intros Hl Hk Hm. destruct d as [|d]; cbn [ber_skip_object_content].
  - eexists. split; [reflexivity|]. now right.
  - rewrite Hl. replace (l =? 0) with false by lia. cbn [andb].
    unfold take_streaming. replace (nlen i <? l) with true by lia. cbn [bind].
    eexists. split; [reflexivity|]. left.
    exists (l - nlen i). unfold needed_new. replace (l - nlen i =? 0) with false by lia.
    split; [reflexivity|]. lia.
Qed.

Lemma skip_loop_wide k m d fuel : m < usize_limit k ->
  (forall i h, nlen i <= m -> as_wide k m (skip_w k d i h) (ber_skip_object_content d i h)) ->
  forall i, nlen i <= m ->
  as_wide k m (skip_loop_w k (skip_w k d) fuel i)
              (ber_skip_loop (ber_skip_object_content d) fuel i).
Proof.
  intros Hm H1. induction fuel as [|fuel IH]; intros i Hi; [now left|].
  cbn [skip_loop_w ber_skip_loop]. unfold ber_read_element_header.
  eapply wide_header_bind; [apply header_from_ber_w_cases|exact Hi| |].
  - intros r h Hh. apply header_from_ber_consumes in Hh as (hb & -> & _). rewrite nlen_app in Hi.
    apply wide_bind; [apply H1; lia|]. intros [i3 eoc] He.
    destruct eoc; [now left|]. apply IH.
    apply skip_split in He as (p & ->). rewrite nlen_app in Hi. lia.
  - intros r h l _ Hl Hk Hr.
    destruct (skip_too_long k m d r h l Hl Hk ltac:(lia)) as (e & -> & He).
    right. cbn [bind]. split; [lia|]. eauto.
Qed.

Lemma skip_wide k m d : m < usize_limit k -> forall i h, nlen i <= m ->
  as_wide k m (skip_w k d i h) (ber_skip_object_content d i h).
Proof.
  intros Hm. induction d as [|d IH]; intros i h Hi; cbn [skip_w ber_skip_object_content]; [now left|].
  destruct (h_length h); [now left|]. destruct (negb (h_constructed h)); [now left|].
  now apply skip_loop_wide.
Qed.

Lemma get_content_wide k m d i h : m < usize_limit k -> nlen i <= m ->
  as_wide k m (get_content_w k i h d) (ber_get_object_content i h d).
Proof.
  intros Hm Hi. unfold get_content_w, ber_get_object_content.
  apply wide_bind; [now apply skip_wide|]. intros [r e] _. now left.
Qed.

Lemma get_content_too_long k m d i h l :
  h_length h = Definite l -> usize_limit k <= l < 2 ^ 64 -> nlen i <= m < usize_limit k ->
  exists e, ber_get_object_content i h d = Err e /\ excused k m e.
Proof.
  intros Hl Hk Hm. unfold ber_get_object_content.
  destruct (skip_too_long k m d i h l Hl Hk Hm) as (e & -> & He). cbn [bind]. eauto.
Qed.

Lemma any_from_ber_wide k m i : m < usize_limit k -> nlen i <= m ->
  as_wide k m (any_from_ber_w k i) (any_from_ber i).
Proof.
  intros Hm Hi. unfold any_from_ber_w, any_from_ber.
  eapply wide_header_bind; [apply header_from_ber_w_cases|exact Hi| |].
  - intros r h Hh. rewrite asn1_get_content_eq.
    apply header_from_ber_consumes in Hh as (hb & -> & _). rewrite nlen_app in Hi.
    apply wide_bind; [apply get_content_wide; lia|]. intros [i2 data] _. now left.
  - intros r h l _ Hl Hk Hr. rewrite asn1_get_content_eq.
    destruct (get_content_too_long k m ASN1_MAX_RECURSION r h l Hl Hk ltac:(lia)) as (e & -> & He).
    right. cbn [bind]. split; [lia|]. eauto.
Qed.

Lemma any_from_der_wide k m i : m < usize_limit k -> nlen i <= m ->
  as_wide k m (any_from_der_w k i) (any_from_der i).
Proof.
  intros Hm Hi. unfold any_from_der_w, any_from_der.
  eapply wide_header_bind; [apply header_from_der_w_cases|exact Hi| |].
  - intros r h _. now left.
  - intros r h l _ Hl Hk Hr. rewrite Hl. cbn [length_definite map_err bind].
    unfold take_streaming. replace (nlen r <? l) with true by lia. cbn [bind].
    right. split; [lia|]. split; [reflexivity|]. eexists. split; [reflexivity|].
    left. exists (l - nlen r). unfold needed_new. replace (l - nlen r =? 0) with false by lia.
    split; [reflexivity|]. lia.
Qed.

Lemma content_octets_le h b : nlen (content_octets h b) <= nlen b.
Proof.
  unfold content_octets. destruct (h_length h); [lia|]. unfold nlen. rewrite firstn_length. lia.
Qed.

Lemma any_data_le i r a : any_from_ber i = Ok (r, a) -> nlen (a_data a) <= nlen i.
Proof.
  intros H. apply any_from_ber_split in H as (hb & b & -> & _ & _ & -> & _).
  pose proof (content_octets_le (a_header a) b). rewrite !nlen_app. lia.
Qed.

Lemma iter_wide k m conv_w conv fuel : m < usize_limit k ->
  (forall a, nlen (a_data a) <= m -> as_wide' k m (conv_w a) (conv a)) ->
  forall data, nlen data <= m ->
  as_wide' k m (iter_collect_w k conv_w fuel data) (iter_collect conv fuel data).
Proof.
  intros Hm H1. induction fuel as [|fuel IH]; intros data Hd.
  - destruct data; now left.
  - destruct data as [|x data]; [now left|]. cbn [iter_collect_w iter_collect].
    apply wide_bind'; [apply wide_of_nerr; now apply any_from_ber_wide|].
    intros [r a] Ha. apply map_err_ok in Ha.
    pose proof (any_data_le _ _ _ Ha) as Hl. pose proof (any_from_ber_shorter _ _ _ Ha) as Hs.
    apply wide_bind'; [apply H1; lia|]. intros o _.
    apply wide_bind'; [apply IH; unfold nlen in *; lia|]. intros os _. now left.
Qed.

Lemma from_any_wide k m L d : m < usize_limit k -> forall a, nlen (a_data a) <= m ->
  as_wide' k m (from_any_w k L d a) (try_berobject_from_any L d a).
Proof.
  intros Hm. induction d as [|d IH]; intros a Ha; [now left|].
  cbn [from_any_w try_berobject_from_any].
  destruct (negb (class_eqb (h_class (a_header a)) Universal)); [now left|].
  destruct (utag_of (h_tag (a_header a))); try now left.
  all: apply wide_bind'; [now left|]; intros _ _.
  all: apply wide_bind'; [now apply iter_wide|]; intros l _; now left.
Qed.

Lemma content_as_wide k m L i t l pc d : m < usize_limit k -> nlen i <= m ->
  as_wide k m (content_as_w k L i t l pc d) (ber_read_element_content_as L i t l pc d).
Proof.
  intros Hm Hi. unfold content_as_w, ber_read_element_content_as, try_read_berobjectcontent_as.
  assert (R : as_wide k m
    (let* (r, data) := get_content_w k i (header_new Universal pc t l) d in
     let* o := map_err nerr_of_err (from_any_w k L d (mkAny (header_new Universal pc t l) data)) in
     Ok (r, o_content o))
    (let* (r, data) := ber_get_object_content i (header_new Universal pc t l) d in
     let* o := map_err nerr_of_err (try_berobject_from_any L d (mkAny (header_new Universal pc t l) data)) in
     Ok (r, o_content o))).
  { apply wide_bind; [now apply get_content_wide|]. intros [r data] Hg.
    apply get_content_inv in Hg as (b & -> & -> & _). rewrite nlen_app in Hi.
    pose proof (content_octets_le (header_new Universal pc t l) b) as Hc.
    apply wide_bind; [apply wide_to_nerr, from_any_wide; cbn [a_data]; lia|].
    intros o _. now left. }
  destruct l as [n|]; [|exact R].
  destruct (MAX_OBJECT_SIZE <? n); [now left|]. destruct (nlen i <? n); [now left|]. exact R.
Qed.

Lemma der_content_as_wide k m L i t l pc d : m < usize_limit k -> nlen i <= m ->
  as_wide k m (der_content_as_w k L i t l pc d) (der_read_element_content_as L i t l pc d).
Proof.
  intros Hm Hi. unfold der_content_as_w, der_read_element_content_as.
  apply wide_bind; [now left|]. intros n _. destruct (nlen i <? n); [now left|].
  pose proof (content_as_wide k m L i t l pc d Hm Hi) as C.
  destruct (utag_of t); try exact C; try now left.
  all: try (match goal with |- context [if ?x then _ else _] => destruct x end; [now left|]).
  all: try exact C.
  - destruct i as [|b i]; [now left|].
    destruct (negb (b =? 0) && negb (b =? 255)); [now left|exact C].
  - destruct (firstn (N.to_nat n) i) as [|b0 [|b1 r]]; [now left|exact C|].
    destruct ((b0 =? 0) && (b1 =? 0)); [now left|].
    destruct ((b0 =? 0) && (b1 <? 128)); [now left|exact C].
Qed.

Lemma der_content_recursive_wide k m L i h d : m < usize_limit k -> nlen i <= m ->
  as_wide k m (der_content_recursive_w k L i h d) (der_read_element_content_recursive L i h d).
Proof.
  intros Hm Hi. unfold der_content_recursive_w, der_read_element_content_recursive.
  assert (U : as_wide k m
    (let* (r, data) := get_content_w k i h d in Ok (r, Obj h (CUnknown (mkAny h data))))
    (let* (r, data) := ber_get_object_content i h d in Ok (r, Obj h (CUnknown (mkAny h data))))).
  { apply wide_bind; [now apply get_content_wide|]. intros [r data] _. now left. }
  destruct (h_class h); try exact U.
  destruct (der_content_as_wide k m L i (h_tag h) (h_length h) (h_constructed h) d Hm Hi)
    as [->|(Hk & -> & e & -> & He)].
  - destruct (der_read_element_content_as L i (h_tag h) (h_length h) (h_constructed h) d)
      as [[r c]|[n|[]|]| |]; try now left. exact U.
  - right. split; [exact Hk|]. split; [reflexivity|]. exists e. split; [|exact He].
    destruct He as [(n & -> & _)| ->]; reflexivity.
Qed.

(** ** The readers *)

(** On a target whose [usize] has [k] octets every reader gives the result of the
    64-bit target, or both give errors: the length is called invalid where the 64-bit
    target asks for more octets than can be counted or has met the recursion limit. *)
Theorem C114_readers : forall k L i, (4 <= k)%nat -> nlen i < usize_limit k ->
  (forall d, as_wide k (nlen i) (parse_ber_recursive_w k L i d) (parse_ber_recursive L i d))
  /\ (forall d, as_wide k (nlen i) (parse_der_recursive_w k L i d) (parse_der_recursive L i d))
  /\ (forall t l pc d, as_wide k (nlen i) (content_as_w k L i t l pc d)
                               (ber_read_element_content_as L i t l pc d))
  /\ (forall t l pc d, as_wide k (nlen i) (der_content_as_w k L i t l pc d)
                               (der_read_element_content_as L i t l pc d))
  /\ (forall n, as_wide k (nlen i) (uint_from_ber_w k n i) (uint_from_ber n i)
             /\ as_wide k (nlen i) (int_from_ber_w k n i) (int_from_ber n i)
             /\ as_wide k (nlen i) (uint_from_der_w k n i) (uint_from_der n i)
             /\ as_wide k (nlen i) (int_from_der_w k n i) (int_from_der n i)).
Proof.
  intros k L i Hk Hi. set (m := nlen i) in *. assert (Hm : nlen i <= m) by (unfold m; lia).
  split; [|split; [|split; [|split]]].
  - intros d. unfold parse_ber_recursive_w, parse_ber_recursive, parse_ber_any_r.
    destruct (d =? 0)%nat; [now left|].
    apply wide_bind; [now apply any_from_ber_wide|]. intros [r a] Ha.
    pose proof (any_data_le _ _ _ Ha) as Hl.
    apply wide_bind; [apply wide_to_nerr, from_any_wide; lia|]. intros o _. now left.
  - intros d. unfold parse_der_recursive_w, parse_der_recursive, der_read_element_header.
    eapply wide_header_bind; [apply header_from_der_w_cases|exact Hm| |].
    + intros r h Hh.
      assert (Hr : nlen r <= m).
      { apply header_from_der_ber in Hh as [Hh _]. apply header_from_ber_consumes in Hh as (hb & E & _).
        unfold m. rewrite E, nlen_app. lia. }
      pose proof (der_content_recursive_wide k m L r h d Hi Hr) as C.
      destruct (h_length h); [|exact C]. destruct (MAX_OBJECT_SIZE <? n); [now left|exact C].
    + intros r h l _ Hl Hu Hr. rewrite Hl. pose proof (limit_big k Hk) as Hb.
      replace (MAX_OBJECT_SIZE <? l) with true by (unfold MAX_OBJECT_SIZE; lia). now left.
  - intros t l pc d. now apply content_as_wide.
  - intros t l pc d. now apply der_content_as_wide.
  - intros n. split; [|split; [|split]].
    + unfold uint_from_ber_w, uint_from_ber.
      apply wide_bind; [now apply any_from_ber_wide|]. intros [r a] _. now left.
    + unfold int_from_ber_w, int_from_ber.
      apply wide_bind; [now apply any_from_ber_wide|]. intros [r a] _. now left.
    + unfold uint_from_der_w, uint_from_der.
      apply wide_bind; [now apply any_from_der_wide|]. intros [r a] _. now left.
    + unfold int_from_der_w, int_from_der.
      apply wide_bind; [now apply any_from_der_wide|]. intros [r a] _. now left.
Qed.
Print Assumptions C114_readers.

(** The readers of one type look at the tag before the contents, so the 64-bit target
    may also give the error about the tag. *)
Theorem C114_typed : forall k L i t, (4 <= k)%nat -> nlen i < usize_limit k ->
  let tag_error (b : iresult berror obj) :=
    usize_limit k < 2 ^ 64 /\ exists t', b = Err (Error (UnexpectedTag (Some t) t')) in
  (as_wide k (nlen i) (parse_ber_with_tag_w k L i t) (parse_ber_with_tag L i t)
   \/ parse_ber_with_tag_w k L i t = Err (Error InvalidLength) /\ tag_error (parse_ber_with_tag L i t))
  /\ (as_wide k (nlen i) (parse_der_with_tag_w k L i t) (parse_der_with_tag L i t)
   \/ parse_der_with_tag_w k L i t = Err (Error InvalidLength) /\ tag_error (parse_der_with_tag L i t)).
Proof.
  intros k L i t Hk Hi tag_error. set (m := nlen i) in *.
  pose proof (limit_big k Hk) as Hb. split.
  - unfold parse_ber_with_tag_w, parse_ber_with_tag, ber_read_element_header.
    destruct (header_from_ber_w_cases k i) as [->|(r & h & l & -> & -> & Hl & Hu & Hr)].
    + left. apply wide_bind; [now left|]. intros [r h] Hh.
      apply wide_bind; [now left|]. intros _ _.
      apply header_from_ber_consumes in Hh as (hb & E & _).
      apply wide_bind; [apply content_as_wide; [exact Hi|unfold m; rewrite E, nlen_app; lia]|].
      intros [r' c] _. now left.
    + cbn [bind]. unfold assert_tag. destruct (h_tag h =? t) eqn:Et.
      * left. cbn [map_err bind]. rewrite Hl.
        unfold ber_read_element_content_as, try_read_berobjectcontent_as.
        replace (MAX_OBJECT_SIZE <? l) with true by (unfold MAX_OBJECT_SIZE; lia). now left.
      * right. split; [reflexivity|]. split; [lia|]. exists (h_tag h). reflexivity.
  - unfold parse_der_with_tag_w, parse_der_with_tag, der_read_element_header.
    destruct (header_from_der_w_cases k i) as [->|(r & h & l & -> & -> & Hl & Hu & Hr)].
    + left. apply wide_bind; [now left|]. intros [r h] Hh.
      apply wide_bind; [now left|]. intros _ _.
      apply header_from_der_ber in Hh as [Hh _]. apply header_from_ber_consumes in Hh as (hb & E & _).
      apply wide_bind; [apply der_content_as_wide; [exact Hi|unfold m; rewrite E, nlen_app; lia]|].
      intros [r' c] _. now left.
    + cbn [bind]. unfold assert_tag. destruct (h_tag h =? t) eqn:Et.
      * left. cbn [map_err bind]. rewrite Hl. unfold der_read_element_content_as.
        cbn [length_definite map_err bind]. replace (nlen r <? l) with true by lia. cbn [bind].
        right. split; [lia|]. split; [reflexivity|]. eexists. split; [reflexivity|].
        left. exists l. unfold needed_new. replace (l =? 0) with false by lia.
        split; [reflexivity|]. lia.
      * right. split; [reflexivity|]. split; [lia|]. exists (h_tag h). reflexivity.
Qed.
Print Assumptions C114_typed.

Lemma wide_ok {A} k m (a b : res (nerr berror) A) x : as_wide k m a b -> (a = Ok x <-> b = Ok x).
Proof. intros [->|(_ & -> & e & -> & _)]; split; congruence. Qed.

(** So the same inputs are accepted with the same results. *)
Theorem C114_accepts : forall k L i r o, (4 <= k)%nat -> nlen i < usize_limit k ->
  (forall d, parse_ber_recursive_w k L i d = Ok (r, o) <-> parse_ber_recursive L i d = Ok (r, o))
  /\ (forall d, parse_der_recursive_w k L i d = Ok (r, o) <-> parse_der_recursive L i d = Ok (r, o))
  /\ (forall t, parse_ber_with_tag_w k L i t = Ok (r, o) <-> parse_ber_with_tag L i t = Ok (r, o))
  /\ (forall t, parse_der_with_tag_w k L i t = Ok (r, o) <-> parse_der_with_tag L i t = Ok (r, o)).
Proof.
  intros k L i r o Hk Hi. pose proof (C114_readers k L i Hk Hi) as (H1 & H2 & _).
  split; [intros d; eapply wide_ok, H1|]. split; [intros d; eapply wide_ok, H2|].
  split; intros t; pose proof (C114_typed k L i t Hk Hi) as [H3 H4].
  - destruct H3 as [H|[-> (_ & t' & ->)]]; [eapply wide_ok, H|split; congruence].
  - destruct H4 as [H|[-> (_ & t' & ->)]]; [eapply wide_ok, H|split; congruence].
Qed.
Print Assumptions C114_accepts.

(** The functions of Width.v at 8 octets are those of the other files. *)
Theorem C114_same : forall L i,
  nlen i < 2 ^ 64 ->
  (forall d, parse_ber_recursive_w 8 L i d = parse_ber_recursive L i d)
  /\ (forall d, parse_der_recursive_w 8 L i d = parse_der_recursive L i d)
  /\ (forall t, parse_ber_with_tag_w 8 L i t = parse_ber_with_tag L i t)
  /\ (forall t, parse_der_with_tag_w 8 L i t = parse_der_with_tag L i t).
Proof.
  intros L i Hi. change (2 ^ 64) with (usize_limit 8) in Hi.
  assert (W : forall A m (a b : res (nerr berror) A), as_wide 8 m a b -> a = b).
  { intros A m a b [H|(H & _)]; [exact H|]. exfalso. revert H. vm_compute. discriminate. }
  pose proof (C114_readers 8 L i ltac:(lia) Hi) as (H1 & H2 & _).
  split; [intros d; eapply W, H1|]. split; [intros d; eapply W, H2|].
  split; intros t; pose proof (C114_typed 8 L i t ltac:(lia) Hi) as [H3 H4].
  - destruct H3 as [H|[_ (H & _)]]; [eapply W, H|]. exfalso. revert H. vm_compute. discriminate.
  - destruct H4 as [H|[_ (H & _)]]; [eapply W, H|]. exfalso. revert H. vm_compute. discriminate.
Qed.
Print Assumptions C114_same.

(** ** Containers *)

(** The containers of the combinators: the same result, or both are errors.  On the
    64-bit target too many octets are missing, so that the error is nom's [Eof] or
    [Incomplete], or the recursion limit was met; the closure is called on neither. *)
Theorem C114_containers : forall k E A (ops : err_ops E) (f : bytes -> header -> iresult E A) i,
  nlen i < usize_limit k ->
  let both a b := a = b
    \/ a = Err (Error (from_ber_error ops InvalidLength))
       /\ (exists rest, b = Err (Error (from_error_kind ops rest EkEof)))
    \/ a = Err (Error (from_ber_error ops InvalidLength))
       /\ exists e, b = Err (err_convert ops e) /\ excused k (nlen i) e in
  both (parse_ber_container_w k ops f i) (parse_ber_container ops f i)
  /\ both (parse_der_container_w k ops f i) (parse_der_container ops f i).
Proof.
  intros k E A ops f i Hi both. split.
  - unfold parse_ber_container_w, parse_ber_container, ber_read_element_header.
    destruct (header_from_ber_w_cases k i) as [->|(r & h & l & -> & -> & Hl & Hu & Hr)].
    + destruct (header_from_ber i) as [[r h]|e| |] eqn:Eh; try now left.
      cbn [map_err bind]. apply header_from_ber_consumes in Eh as (hb & Ei & _).
      assert (Hr : nlen r <= nlen i) by (rewrite Ei, nlen_app; lia).
      destruct (h_length h) as [n|]; [now left|].
      destruct (get_content_wide k (nlen i) MAX_RECURSION r h Hi Hr) as [->|(Hk & -> & e & -> & He)]; [now left|].
      right. right. cbn [map_err bind]. split; [reflexivity|]. eauto.
    + right. left. cbn [map_err bind]. split; [reflexivity|]. rewrite Hl. unfold take_complete.
      replace (nlen r <? l) with true by lia. cbn [bind]. eauto.
  - unfold parse_der_container_w, parse_der_container, der_read_element_header.
    destruct (header_from_der_w_cases k i) as [->|(r & h & l & -> & -> & Hl & Hu & Hr)]; [now left|].
    right. left. cbn [map_err bind]. split; [reflexivity|]. rewrite Hl. unfold take_complete.
    replace (nlen r <? l) with true by lia. cbn [bind]. eauto.
Qed.
Print Assumptions C114_containers.

(** ** The encoder *)

Lemma to_be_bytes_zero j : forall n, n < pw j -> to_be_bytes (S j) n = 0 :: to_be_bytes j n.
Proof.
  induction j as [|j IH]; intros n Hn.
  - unfold pw in Hn. cbn in Hn. assert (n = 0) by lia. subst. reflexivity.
  - change (to_be_bytes (S (S j)) n) with (to_be_bytes (S j) (n / 256) ++ [n mod 256]).
    rewrite pw_S in Hn. rewrite IH by lia. reflexivity.
Qed.

Lemma min_octets_w k n : (k <= 8)%nat -> n < usize_limit k ->
  skip_zeroes (to_be_bytes k n) = skip_zeroes (to_be_bytes 8 n).
Proof.
  intros Hk Hn. change (usize_limit k) with (pw k) in Hn.
  assert (H : forall j, skip_zeroes (to_be_bytes (j + k) n) = skip_zeroes (to_be_bytes k n)).
  { induction j as [|j IH]; [reflexivity|]. cbn [plus]. rewrite to_be_bytes_zero.
    - cbn [skip_zeroes]. change (0 =? 0) with true. cbn iota. exact IH.
    - pose proof (pw_mono k (j + k) ltac:(lia)). lia. }
  rewrite <- (H (8 - k)%nat). now replace (8 - k + k)%nat with 8%nat by lia.
Qed.

Lemma encode_header_same k h n : (k <= 8)%nat -> n < usize_limit k ->
  encode_header_w k (with_length h (Definite n)) = ber_encode_header (with_length h (Definite n)).
Proof.
  intros Hk Hn. unfold encode_header_w, ber_encode_header. cbn [with_length h_length h_tag h_class h_constructed].
  unfold encode_length_w, encode_length. rewrite min_octets_w by assumption. reflexivity.
Qed.

Lemma header_gen_cases k h n :
  (encode_header_w k (with_length h (Definite n)) = Panic
     /\ ber_encode_header (with_length h (Definite n)) = Panic)
  \/ exists x y, encode_header_w k (with_length h (Definite n)) = Ok x
     /\ forall n', ber_encode_header (with_length h (Definite n')) = Ok (y n').
Proof.
  unfold encode_header_w, ber_encode_header. cbn [with_length h_length h_tag h_class h_constructed].
  destruct (30 <? h_tag h); [now left|]. right.
  exists (match gen_seq (Ok [N.lor (N.lor (N.shiftl (class_to_u8 (h_class h)) 6) (N.shiftl (if h_constructed h then 1 else 0) 5)) (h_tag h mod 256)]) (encode_length_w k (Definite n)) with Ok x => x | _ => [] end).
  exists (fun n' => match gen_seq (Ok [N.lor (N.lor (N.shiftl (class_to_u8 (h_class h)) 6) (N.shiftl (if h_constructed h then 1 else 0) 5)) (h_tag h mod 256)]) (encode_length (Definite n')) with Ok x => x | _ => [] end).
  unfold encode_length_w, encode_length. split.
  - destruct (n <=? 127); reflexivity.
  - intros n'. destruct (n' <=? 127); reflexivity.
Qed.

Definition written_as (k : nat) (a b : gen) : Prop :=
  (a = Panic /\ b = Panic)
  \/ exists x y, a = Ok x /\ b = Ok y /\ (nlen y < usize_limit k -> x = y).

Lemma many_written {A} k (f g : A -> gen) l : Forall (fun o => written_as k (f o) (g o)) l ->
  written_as k (gen_many f l) (gen_many g l).
Proof.
  induction 1 as [|o l [[Ha Hb]|(x & y & Ha & Hb & He)] _ IH]; cbn [gen_many].
  - right. exists [], []. auto.
  - unfold gen_seq. rewrite Ha, Hb. now left.
  - unfold gen_seq. rewrite Ha, Hb. cbn [bind].
    destruct IH as [[-> ->]|(x' & y' & -> & -> & He')]; [now left|]. right. cbn [bind].
    exists (x ++ x'), (y ++ y'). split; [reflexivity|]. split; [reflexivity|]. rewrite nlen_app.
    intros Hl. rewrite He, He' by lia. reflexivity.
Qed.

Lemma encode_written k L : (k <= 8)%nat ->
  (forall o, written_as k (encode_object_w k L o) (ber_encode_object L o))
  /\ (forall c, written_as k (encode_content_w k L c) (ber_encode_object_content L c)).
Proof.
  intros Hk. apply obj_content_ind.
  - intros h c Hc. cbn [encode_object_w ber_encode_object]. unfold with_header_w, with_header.
    destruct Hc as [[-> ->]|(x & y & -> & -> & He)]; [now left|]. cbn [bind].
    destruct (header_gen_cases k h (nlen x)) as [[-> H]|(u & v & Hu & Hv)].
    + left. split; [reflexivity|]. unfold ber_encode_header in *. cbn [with_length h_tag] in *.
      destruct (30 <? h_tag h); [reflexivity|].
      exfalso. unfold gen_seq in H. cbn [with_length h_length encode_length bind] in H. destruct (nlen x <=? 127); cbn in H; discriminate H.
    + right. rewrite Hu, Hv. cbn [bind]. exists (u ++ x), (v (nlen y) ++ y).
      split; [reflexivity|]. split; [reflexivity|]. rewrite nlen_app. intros Hl.
      rewrite He in * by lia. rewrite encode_header_same, Hv in Hu by lia. congruence.
  - intros l Hl. cbn [encode_content_w ber_encode_object_content]. now apply many_written.
  - intros l Hl. cbn [encode_content_w ber_encode_object_content]. now apply many_written.
  - intros h c Hc _. exact Hc.
  - intros c t o Ho. exact Ho.
  - intros c Hc. pose proof (proj2 (gen_total L) c) as G.
    assert (E : encode_content_w k L c = ber_encode_object_content L c)
      by (destruct c as [| | | | | | | | | | | | | | | |[o|]| |]; try contradiction; reflexivity).
    rewrite E. destruct G as [(x & ->)| ->]; [right; eauto|now left].
Qed.

(** The encoder writes the same octets, as long as there are fewer than a [usize] can
    count, and panics on the same objects. *)
Theorem C114_encoder : forall k L o, (4 <= k <= 8)%nat ->
  (encode_object_w k L o = Panic <-> to_vec L o = Panic)
  /\ forall b, nlen b < usize_limit k -> to_vec L o = Ok b -> encode_object_w k L o = Ok b.
Proof.
  intros k L o Hk. unfold to_vec.
  destruct (proj1 (encode_written k L ltac:(lia)) o) as [[-> ->]|(x & y & -> & -> & He)].
  - split; [tauto|]. discriminate.
  - split; [split; discriminate|]. intros b Hb E. injection E as ->. now rewrite He.
Qed.
Print Assumptions C114_encoder.

(** A header is written the same way, whatever its length says, and so is an object
    written with a given header. *)
Theorem C114_headers : forall k hdr, (4 <= k <= 8)%nat ->
  (match h_length hdr with Definite n => n < usize_limit k | Indefinite => True end) ->
  encode_header_w k hdr = ber_encode_header hdr
  /\ forall L c,
     (encode_object_raw_w k L hdr c = Panic <-> ber_encode_object_raw L hdr c = Panic)
     /\ forall b, nlen b < usize_limit k ->
        ber_encode_object_raw L hdr c = Ok b -> encode_object_raw_w k L hdr c = Ok b.
Proof.
  intros k hdr Hk Hl.
  assert (E : encode_header_w k hdr = ber_encode_header hdr).
  { unfold encode_header_w, ber_encode_header, encode_length_w, encode_length.
    destruct (h_length hdr) as [n|]; [|reflexivity]. rewrite min_octets_w by (assumption || lia). reflexivity. }
  split; [exact E|]. intros L c. unfold encode_object_raw_w, ber_encode_object_raw, gen_seq. rewrite E.
  destruct (ber_encode_header hdr) as [x| | |]; cbn [bind]; [|split; [tauto|auto] ..].
  destruct (proj2 (encode_written k L ltac:(lia)) c) as [[-> ->]|(y & z & -> & -> & He)]; cbn [bind].
  - split; [tauto|]. discriminate.
  - split; [split; discriminate|]. intros b Hb Eb. injection Eb as <-. rewrite nlen_app in Hb.
    now rewrite He by lia.
Qed.
Print Assumptions C114_headers.

(** The same for the two functions that write an object under a tag. *)
Theorem C114_tagged_encoders : forall k L t c o, (4 <= k <= 8)%nat ->
  (encode_tagged_explicit_w k L t c o = Panic <-> ber_encode_tagged_explicit L t c o = Panic)
  /\ (encode_tagged_implicit_w k L t c o = Panic <-> ber_encode_tagged_implicit L t c o = Panic)
  /\ forall b, nlen b < usize_limit k ->
     (ber_encode_tagged_explicit L t c o = Ok b -> encode_tagged_explicit_w k L t c o = Ok b)
     /\ (ber_encode_tagged_implicit L t c o = Ok b -> encode_tagged_implicit_w k L t c o = Ok b).
Proof.
  intros k L t c o Hk.
  assert (W : forall a b cst, written_as k a b ->
    written_as k
      (let* v := a in let* v_hdr := encode_header_w k (header_new c cst t (Definite (nlen v))) in Ok (v_hdr ++ v))
      (let* v := b in let* v_hdr := ber_encode_header (header_new c cst t (Definite (nlen v))) in Ok (v_hdr ++ v))).
  { intros a b cst [[-> ->]|(x & y & -> & -> & He)]; [now left|]. cbn [bind].
    set (h0 := header_new c cst t Indefinite).
    assert (Hw : forall n, header_new c cst t (Definite n) = with_length h0 (Definite n)) by reflexivity.
    rewrite !Hw. destruct (header_gen_cases k h0 (nlen x)) as [[-> H]|(u & v & Hu & Hv)].
    - left. split; [reflexivity|]. unfold ber_encode_header in *. cbn [with_length h_tag] in *.
      destruct (30 <? h_tag h0); [reflexivity|].
      exfalso. unfold gen_seq in H. cbn [with_length h_length encode_length bind] in H.
      destruct (nlen x <=? 127); cbn in H; discriminate H.
    - right. rewrite Hu, Hv. cbn [bind]. exists (u ++ x), (v (nlen y) ++ y).
      split; [reflexivity|]. split; [reflexivity|]. rewrite nlen_app. intros Hl.
      rewrite He in * by lia. rewrite encode_header_same, Hv in Hu by lia. congruence. }
  destruct (encode_written k L ltac:(lia)) as [Wo Wc].
  assert (P : forall a b : gen, written_as k a b ->
    (a = Panic <-> b = Panic) /\ forall r, nlen r < usize_limit k -> b = Ok r -> a = Ok r).
  { intros a b [[-> ->]|(x & y & -> & -> & He)].
    - split; [tauto|]. discriminate.
    - split; [split; discriminate|]. intros r Hr E. injection E as <-. now rewrite He. }
  destruct (P _ _ (W _ _ true (Wo o))) as [P1 P2].
  destruct (P _ _ (W _ _ (h_constructed (o_header o)) (Wc (o_content o)))) as [P3 P4].
  split; [exact P1|]. split; [exact P3|]. intros b Hb. split; [apply P2, Hb|apply P4, Hb].
Qed.
Print Assumptions C114_tagged_encoders.

(** ** The bits of a BIT STRING *)

(** [as_u64] and [as_u32] give the same results while eight times the number of octets
    fits a [usize]; beyond that a build with overflow checks panics. *)
Theorem C114_bits_partial : forall k checks c,
  (match c with CBitString _ d => nlen d * 8 < usize_limit k | _ => True end ->
     as_u64_w k checks c = as_u64 c /\ as_u32_w k checks c = as_u32 c)
  /\ (match c with CBitString _ d => usize_limit k <= nlen d * 8 | _ => False end ->
     as_u64_w k true c = Panic /\ as_u32_w k true c = Panic).
Proof.
  intros k checks c. destruct c as [| | |u d| | | | | | | | | | | | | | |]; try (split; [auto|contradiction]).
  cbn [as_u64_w as_u32_w as_u64 as_u32]. unfold bitstring_to_u64_w, len_times_8_w. split; intros H.
  - replace (nlen d * 8 <? usize_limit k) with true by lia. auto.
  - replace (nlen d * 8 <? usize_limit k) with false by lia. auto.
Qed.
Print Assumptions C114_bits_partial.

(** Beyond that, without overflow checks, the count wraps: on a 32-bit target the
    value of a BIT STRING of 2^29 octets, all of its bits 1, is given as 0.  With
    overflow checks its readers panic.  The 64-bit target answers that it is too
    large. *)
Theorem C114_bits_refuted : forall L, exists i o,
  bytes_ok i /\ nlen i < 2 ^ 31
  /\ parse_ber_recursive_w 4 L i MAX_RECURSION = Ok ([], o) /\ parse_ber L i = Ok ([], o)
  /\ as_u64 (o_content o) = Err IntegerTooLarge
  /\ as_u64_w 4 true (o_content o) = Panic
  /\ as_u64_w 4 false (o_content o) = Ok 0.
Proof.
  intros L.
  assert (Hn : exists n, N.of_nat n = 2 ^ 29) by (exists (N.to_nat (2 ^ 29)); apply N2Nat.id).
  destruct Hn as (n & Hn).
  set (d := repeat 255 n).
  assert (Hd : nlen d = 2 ^ 29) by (unfold d, nlen; now rewrite repeat_length).
  assert (Hok : bytes_ok d).
  { unfold d. clear. induction n as [|n IH]; cbn [repeat]; constructor; [lia|exact IH]. }
  clearbody d. clear n Hn.
  set (h := mkHeader Universal false 3 (Definite (2 ^ 29 + 1)) (Some [3])).
  set (hb := [3] ++ [132; 32; 0; 0; 1]).
  exists (hb ++ 0 :: d), (Obj h (CBitString 0 d)).
  assert (Hi : bytes_ok (hb ++ 0 :: d)).
  { apply bytes_ok_app. split; [bok|]. apply bytes_ok_cons. split; [lia|exact Hok]. }
  assert (Hl : nlen (hb ++ 0 :: d) < 2 ^ 31).
  { rewrite nlen_app, nlen_cons, Hd. vm_compute. reflexivity. }
  assert (Hp : parse_ber L (hb ++ 0 :: d) = Ok ([], Obj h (CBitString 0 d))).
  { unfold parse_ber. apply parse_ber_iff; [exact Hi|].
    exists (hb ++ 0 :: d), (0 :: d). split; [now rewrite app_nil_r|].
    split; [|apply v_bit_string; reflexivity].
    apply definite_is_element. eexists. split; [reflexivity|]. cbn [o_header]. split.
    - exists [3], [132; 32; 0; 0; 1]. split; [reflexivity|]. split; [apply ident_low; cbn; lia|].
      split; [|split; [reflexivity|discriminate]].
      change (h_length h) with (Definite (unsigned [32; 0; 0; 1])).
      change 132 with (128 + N.of_nat (length [32; 0; 0; 1])).
      apply length_long; [cbn; lia|bok|vm_compute; reflexivity].
    - cbn [h h_length]. change (N.of_nat (length (0 :: d))) with (nlen (0 :: d)).
      rewrite nlen_cons, Hd. reflexivity. }
  assert (Hb : nlen d * 8 = 2 ^ 32) by (rewrite Hd; reflexivity).
  split; [exact Hi|]. split; [exact Hl|]. split; [|split; [exact Hp|]].
  - apply (C114_accepts 4 L (hb ++ 0 :: d)); [lia| |exact Hp].
    change (usize_limit 4) with (2 ^ 32). lia.
  - cbn [o_content as_u64 as_u64_w]. unfold bitstring_to_u64, bitstring_to_u64_w, len_times_8_w.
    rewrite Hb. change (usize_limit 4) with (2 ^ 32). split; [reflexivity|]. split; [reflexivity|].
    change (2 ^ 32 <? 2 ^ 32) with false. cbn iota.
    change (2 ^ 32 mod 2 ^ 32) with 0. cbn [bind].
    change (0 <? 0) with false. cbn iota. change (0 - 0) with 0. change (64 <? 0) with false. cbn iota.
    change (0 <? 0 mod 8) with false. cbn iota. change (0 / 8) with 0.
    replace (nlen d <? 0) with false by lia. reflexivity.
Qed.
Print Assumptions C114_bits_refuted.

(** Non-vacuity: a length of 2^32 is invalid for one target and too much for the
    other, an indefinite SEQUENCE with it inside likewise; a length that fits is read
    by both. *)
Example C114_ex : forall L,
  let i := [4; 133; 1; 0; 0; 0; 0; 170] in
  let j := [48; 128; 4; 133; 1; 0; 0; 0; 0; 0; 0] in
  let s := [48; 132; 0; 0; 0; 3; 2; 1; 5; 9] in
  nlen i < usize_limit 4
  /\ parse_ber_recursive_w 4 L i MAX_RECURSION = Err (Error InvalidLength)
  /\ parse_ber_recursive L i MAX_RECURSION = Err (Incomplete (Some 4294967295))
  /\ parse_der_recursive_w 4 L i MAX_RECURSION = Err (Error InvalidLength)
  /\ parse_der_recursive L i MAX_RECURSION = Err (Error InvalidLength)
  /\ parse_ber_with_tag_w 4 L i 5 = Err (Error InvalidLength)
  /\ parse_ber_with_tag L i 5 = Err (Error (UnexpectedTag (Some 5) 4))
  /\ parse_ber_recursive_w 4 L j MAX_RECURSION = Err (Error InvalidLength)
  /\ parse_ber_recursive L j MAX_RECURSION = Err (Incomplete (Some 4294967294))
  /\ (exists o, parse_ber_recursive_w 4 L s MAX_RECURSION = Ok ([9], o)
       /\ parse_der_recursive_w 4 L s MAX_RECURSION = Ok ([9], o)
       /\ encode_object_w 4 L o = Ok [48; 3; 2; 1; 5]).
Proof.
  intros L i j s. repeat (split; [vm_compute; reflexivity|]).
  eexists. split; [vm_compute; reflexivity|]. split; vm_compute; reflexivity.
Qed.

(** Headers and tagged objects on a 32-bit target: an indefinite length, a long one, a
    primitive value under an explicit and an implicit tag. *)
Example C114_ex2 : forall L,
  let o := from_int_slice [5] in
  encode_header_w 4 (header_new Universal true 16 Indefinite) = Ok [48; 128]
  /\ encode_header_w 4 (header_new Universal true 16 (Definite 4294967295)) = Ok [48; 132; 255; 255; 255; 255]
  /\ encode_header_w 4 (header_new Universal true 31 Indefinite) = Panic
  /\ encode_object_raw_w 4 L (header_new Universal true 16 Indefinite) (CSequence [o]) = Ok [48; 128; 2; 1; 5]
  /\ encode_tagged_explicit_w 4 L 1 ContextSpecific o = Ok [161; 3; 2; 1; 5]
  /\ encode_tagged_implicit_w 4 L 1 ContextSpecific o = Ok [129; 1; 5].
Proof. intros L o. repeat split; vm_compute; reflexivity. Qed.
