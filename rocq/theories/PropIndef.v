(** * C09, C10, C54: indefinite length and incomplete input *)

From Coq Require Import String.
From Verif Require Import Base Asn1rs Ber Der Conformance Spec SpecValue SpecComb.
From Verif Require Import LemBase LemHeader LemSkip LemParse LemDer LemTree LemNode LemComb LemFrame LemInt PropInt.
Local Open Scope string_scope.
Local Open Scope N_scope.
Local Open Scope list_scope.

(** A series of elements, none of them an end-of-contents, nested at most [d]
    indefinite lengths deep. *)
Inductive inner_elements (d : nat) : bytes -> Prop :=
| inner_nil : inner_elements d []
| inner_cons h c bs rest :
    element d h c bs -> ~ ends_contents h -> inner_elements d rest -> inner_elements d (bs ++ rest).

Lemma inner_until d es ht tb : inner_elements (S d) es -> header_octets ht tb -> ends_contents ht ->
  until_eoc (S d) (es ++ tb).
Proof.
  intros H Hh He. induction H as [|h c bs rest (hb & b & -> & Hb & Hbody & _) Hn _ IH].
  - cbn [app]. eapply eoc_now; eauto.
  - rewrite <- !app_assoc. eapply eoc_later; eauto.
Qed.

Lemma until_inner d b : until_eoc d b ->
  exists es ht tb, b = es ++ tb /\ inner_elements d es /\ header_octets ht tb /\ ends_contents ht.
Proof.
  apply (until_eoc_mind (fun d h b _ => True)
    (fun d b _ => exists es ht tb, b = es ++ tb /\ inner_elements d es /\ header_octets ht tb /\ ends_contents ht)).
  - auto.
  - auto.
  - intros d0 h hb Hh He. exists [], h, hb. repeat split; auto; try apply He. constructor.
  - intros d0 h hb bb rest Hh Hn Hb _ _ (es & ht & tb & -> & Hes & Ht & He).
    exists ((hb ++ bb) ++ es), ht, tb. split; [now rewrite <- !app_assoc|]. split; [|auto].
    econstructor; eauto. exists hb, bb. eauto.
Qed.

Lemma eoc_header : exists h, header_octets h [0; 0] /\ ends_contents h.
Proof.
  exists (mkHeader Universal false 0 (Definite 0) (Some [0])). split; [|split; reflexivity].
  exists [0], [0]. split; [reflexivity|]. cbn [h_class h_constructed h_tag h_length h_raw_tag].
  split; [apply (ident_low Universal false 0); lia|]. split; [apply (length_short 0); lia|]. split; [reflexivity|discriminate].
Qed.

(** ** C09 *)

(** The header octets [hb] announce a SEQUENCE or SET of length [l]. *)
Definition container_header (t : tag) (l : blen) (h : header) (hb : bytes) : Prop :=
  header_octets h hb /\ h_class h = Universal /\ h_constructed h = true /\ h_tag h = t /\ h_length h = l.

(** The result without the header of the outer object. *)
Definition contents_of (r : iresult berror obj) : iresult berror content :=
  let* (i, o) := r in Ok (i, o_content o).

Lemma indefinite_body h es : h_length h = Indefinite -> h_constructed h = true -> inner_elements 49 es ->
  body 50 h (es ++ [0; 0]) /\ content_octets h (es ++ [0; 0]) = es.
Proof.
  intros Hl Hc Hes. destruct eoc_header as (ht & Ht & He). split.
  - apply body_indefinite; auto. eapply inner_until; eauto.
  - unfold content_octets. rewrite Hl, app_length. cbn [length].
    replace (length es + 2 - 2)%nat with (length es) by lia. apply firstn_app_exact.
Qed.

Lemma convert_same L d h h' c t : t = 16 \/ t = 17 ->
  h_class h = Universal -> h_class h' = Universal -> h_constructed h = true -> h_constructed h' = true ->
  h_tag h = t -> h_tag h' = t ->
  (let* o := map_err nerr_of_err (try_berobject_from_any L d (mkAny h c)) in Ok (o_content o))
  = (let* o := map_err nerr_of_err (try_berobject_from_any L d (mkAny h' c)) in Ok (o_content o)).
Proof.
  intros Ht Hc Hc' Hp Hp' Et Et'. destruct d as [|d]; [reflexivity|]. cbn [try_berobject_from_any a_header a_data].
  rewrite Hc, Hc', Et, Et'. unfold assert_constructed. rewrite Hp, Hp'.
  destruct Ht as [-> | ->]; (destruct (iter_collect _ _ _); reflexivity).
Qed.

(** The indefinite-length form and the definite-length form of the same
    elements: same content or same error; the remainder is what follows. *)
Theorem C09_parse_ber : forall L d t es h hb h' hb' x, t = 16 \/ t = 17 ->
  inner_elements 49 es ->
  container_header t Indefinite h hb ->
  container_header t (Definite (N.of_nat (length es))) h' hb' ->
  contents_of (parse_ber_recursive L (hb ++ es ++ [0; 0] ++ x) d)
  = contents_of (parse_ber_recursive L (hb' ++ es ++ x) d)
  /\ forall r o, parse_ber_recursive L (hb ++ es ++ [0; 0] ++ x) d = Ok (r, o) -> r = x.
Proof.
  intros L d t es h hb h' hb' x Ht Hes (Hh & Hc & Hp & Et & Hl) (Hh' & Hc' & Hp' & Et' & Hl').
  destruct (indefinite_body h es Hl Hp Hes) as [Hb Hco].
  assert (Ha : any_from_ber (hb ++ es ++ [0; 0] ++ x) = Ok (x, mkAny h es)).
  { rewrite (app_assoc es), (app_assoc hb). apply any_from_ber_complete. exists hb, (es ++ [0; 0]). auto. }
  assert (Ha' : any_from_ber (hb' ++ es ++ x) = Ok (x, mkAny h' es)).
  { rewrite app_assoc. apply any_from_ber_definite. exists hb'. auto. }
  unfold parse_ber_recursive, parse_ber_any_r. rewrite Ha, Ha'. split.
  - destruct (d =? 0)%nat; [reflexivity|]. cbn [bind].
    pose proof (convert_same L d h h' es t Ht Hc Hc' Hp Hp' Et Et') as E.
    destruct (try_berobject_from_any L d (mkAny h es)), (try_berobject_from_any L d (mkAny h' es));
      cbn [map_err bind contents_of] in *; congruence.
  - intros r o. destruct (d =? 0)%nat; [discriminate|]. cbn [bind]. intros H. bind_inv H. congruence.
Qed.
Print Assumptions C09_parse_ber.

(** The typed parsers refuse definite lengths above 2^32-1. *)
Theorem C09_with_tag : forall L t es h hb h' hb' x, t = 16 \/ t = 17 ->
  inner_elements 49 es -> N.of_nat (length es) <= 4294967295 ->
  container_header t Indefinite h hb ->
  container_header t (Definite (N.of_nat (length es))) h' hb' ->
  contents_of (parse_ber_with_tag L (hb ++ es ++ [0; 0] ++ x) t)
  = contents_of (parse_ber_with_tag L (hb' ++ es ++ x) t)
  /\ forall r o, parse_ber_with_tag L (hb ++ es ++ [0; 0] ++ x) t = Ok (r, o) -> r = x.
Proof.
  change 4294967295 with MAX_OBJECT_SIZE.
  intros L t es h hb h' hb' x Ht Hes Hm (Hh & Hc & Hp & Et & Hl) (Hh' & Hc' & Hp' & Et' & Hl').
  unfold parse_ber_with_tag, ber_read_element_header.
  rewrite (header_from_ber_complete _ _ (es ++ [0; 0] ++ x) Hh), (header_from_ber_complete _ _ (es ++ x) Hh').
  cbn [bind]. unfold assert_tag. rewrite Et, Et', N.eqb_refl. cbn [map_err bind].
  rewrite Hp, Hp', Hl, Hl'. unfold ber_read_element_content_as, try_read_berobjectcontent_as.
  set (k := header_new Universal true t Indefinite).
  set (k' := header_new Universal true t (Definite (N.of_nat (length es)))).
  destruct (indefinite_body k es eq_refl eq_refl Hes) as [Hb Hco].
  assert (Hg : ber_get_object_content (es ++ [0; 0] ++ x) k MAX_RECURSION = Ok (x, es)).
  { rewrite app_assoc. rewrite (get_content_complete _ _ _ _ Hb). now rewrite Hco. }
  assert (Hg' : ber_get_object_content (es ++ x) k' MAX_RECURSION = Ok (x, es)).
  { assert (Hb' : body MAX_RECURSION k' es) by (eapply body_definite; [reflexivity|reflexivity]).
    now rewrite (get_content_complete _ _ _ _ Hb'). }
  rewrite Hg, Hg'. destruct (MAX_OBJECT_SIZE <? N.of_nat (length es)) eqn:E1; [lia|].
  destruct (nlen (es ++ x) <? N.of_nat (length es)) eqn:E2;
    [exfalso; unfold nlen in E2; rewrite app_length in E2; lia|].
  cbn [bind].
  pose proof (convert_same L MAX_RECURSION k k' es t Ht eq_refl eq_refl eq_refl eq_refl eq_refl eq_refl) as E.
  destruct (try_berobject_from_any L MAX_RECURSION (mkAny k es)), (try_berobject_from_any L MAX_RECURSION (mkAny k' es));
    cbn [map_err bind contents_of o_content] in *; (split; [congruence|]); intros; congruence.
Qed.
Print Assumptions C09_with_tag.

Lemma low_header c pc t n lb : t < 31 -> length_octets n lb -> (n = Indefinite -> pc = true) ->
  header_octets (mkHeader c pc t n (Some [leading_octet c pc t])) (leading_octet c pc t :: lb).
Proof.
  intros Ht Hl Hi. exists [leading_octet c pc t], lb. split; [reflexivity|].
  cbn [h_class h_constructed h_tag h_length h_raw_tag]. split; [now apply ident_low|]. auto.
Qed.

Lemma short_element d c pc t data : t < 31 -> (length data < 128)%nat -> t <> 0 ->
  exists h, element (S d) h data (leading_octet c pc t :: N.of_nat (length data) :: data) /\ ~ ends_contents h.
Proof.
  intros Ht Hn H0. eexists. split.
  - exists [leading_octet c pc t; N.of_nat (length data)], data. split; [reflexivity|].
    split; [|split].
    + apply (low_header c pc t (Definite (N.of_nat (length data))) [N.of_nat (length data)]); [assumption|constructor; lia|discriminate].
    + eapply body_definite; reflexivity.
    + reflexivity.
  - intros [E _]. apply H0. exact E.
Qed.

Lemma indefinite_element d c t es : t < 31 -> inner_elements (S d) es ->
  exists h, element (S (S d)) h es (leading_octet c true t :: 128 :: es ++ [0; 0]) /\ ~ ends_contents h.
Proof.
  intros Ht Hes. eexists. split.
  - exists [leading_octet c true t; 128], (es ++ [0; 0]). split; [reflexivity|]. split; [|split].
    + apply (low_header c true t Indefinite [128]); [assumption|constructor|reflexivity].
    + apply body_indefinite; [reflexivity|reflexivity|].
      destruct eoc_header as (ht & H1 & H2). eapply inner_until; eauto.
    + unfold content_octets. cbn [h_length]. rewrite app_length. cbn [length].
      replace (length es + 2 - 2)%nat with (length es) by lia. symmetry. apply firstn_app_exact.
  - intros [_ E]. discriminate E.
Qed.

Example C09_ex : inner_elements 49 (hx "02 01 05 30 80 05 00 00 00")
  /\ exists h h', container_header 16 Indefinite h (hx "30 80") /\ container_header 16 (Definite 9) h' (hx "30 81 09")
  /\ exists k, contents_of (parse_ber SL (hx "30 80 02 01 05 30 80 05 00 00 00 00 00 ff")) = Ok ([255], k).
Proof.
  split.
  - destruct (short_element 48 Universal false 2 [5]) as (h1 & H1 & N1); [lia|cbn; lia|lia|].
    destruct (short_element 47 Universal false 5 []) as (h3 & H3 & N3); [lia|cbn; lia|lia|].
    assert (H2 : inner_elements 48 (hx "05 00")).
    { rewrite <- (app_nil_r (hx "05 00")). econstructor; [exact H3|exact N3|constructor]. }
    destruct (indefinite_element 47 Universal 16 _ ltac:(lia) H2) as (h2 & He & N2).
    change (inner_elements 49 (hx "02 01 05" ++ hx "30 80 05 00 00 00" ++ [])).
    econstructor; [exact H1|exact N1|]. econstructor; [exact He|exact N2|]. constructor.
  - do 2 eexists. split; [|split].
    + split; [|split; [|split; [|split]]].
      * apply (low_header Universal true 16 Indefinite [128]); [lia|constructor|reflexivity].
      * reflexivity.
      * reflexivity.
      * reflexivity.
      * reflexivity.
    + split; [|split; [|split; [|split]]].
      * apply (low_header Universal true 16 (Definite 9) [129; 9]); [lia| |discriminate].
        apply (length_long [9]); [cbn; lia|bok|reflexivity].
      * reflexivity.
      * reflexivity.
      * reflexivity.
      * reflexivity.
    + eexists. vm_compute. reflexivity.
Qed.

(** ** C10 *)

(** False: a context-specific 80 00 ends the content too, ... *)
Theorem C10_refuted : exists L i o, bytes_ok i /\ parse_ber L i = Ok ([], o)
  /\ h_length (o_header o) = Indefinite /\ o_content o = CSequence []
  /\ ~ exists p, i = p ++ [0; 0].
Proof.
  exists SL, (hx "30 80 80 00"). eexists. split; [bok|]. split; [vm_compute; reflexivity|].
  split; [reflexivity|]. split; [reflexivity|].
  intros (p & E). apply (f_equal (@rev N)) in E. rewrite rev_app_distr in E. vm_compute in E. discriminate.
Qed.
Print Assumptions C10_refuted.

(** ... and when the terminator has a long length form, octets of it are taken
    for content: here the element 00 81 00 leaves the octet 00 in the content. *)
Theorem C10_stray_refuted : exists i r a, bytes_ok i /\ any_from_ber i = Ok (r, a)
  /\ h_length (a_header a) = Indefinite /\ i = hx "24 80 00 81 00" /\ r = [] /\ a_data a = [0].
Proof.
  exists (hx "24 80 00 81 00"). do 2 eexists. split; [bok|]. split; [vm_compute; reflexivity|].
  cbn. auto.
Qed.
Print Assumptions C10_stray_refuted.

(** What does hold, for every indefinite-length element: the content ends at
    the first header with tag number 0 and length 0, and two octets are
    removed.  Missing from C10: the terminator may have any class, form and
    length form; when it has more than two octets the content keeps part of it. *)
Theorem C10_partial : forall h hb i r c, bytes_ok i ->
  header_octets h hb -> h_length h = Indefinite ->
  (any_from_ber (hb ++ i) = Ok (r, mkAny h c)
   <-> exists es ht tb, i = es ++ tb ++ r /\ inner_elements 49 es /\ header_octets ht tb /\ ends_contents ht
         /\ c = firstn (length (es ++ tb) - 2) (es ++ tb)).
Proof.
  intros h hb i r c Hok Hh Hl. pose proof Hh as (ib & lb & _ & _ & _ & _ & Hi). specialize (Hi Hl). split.
  - unfold any_from_ber. rewrite (header_from_ber_complete _ _ i Hh). cbn [bind]. intros H.
    bind_inv H. destruct a as [i2 data]. inv H. rewrite asn1_get_content_eq in E.
    apply get_content_sound in E as (b & -> & Hb & ->); [|assumption].
    inversion Hb as [? ? ? ? H1|d ? ? _ _ Hu Ed]; subst; [congruence|].
    apply until_inner in Hu as (es & ht & tb & -> & Hes & Ht & He).
    exists es, ht, tb. split; [now rewrite app_assoc|]. split; [assumption|]. split; [assumption|]. split; [assumption|].
    unfold content_octets. now rewrite Hl.
  - intros (es & ht & tb & -> & Hes & Ht & He & ->). rewrite (app_assoc es), (app_assoc hb).
    apply any_from_ber_complete. exists hb, (es ++ tb). split; [reflexivity|]. split; [assumption|]. split.
    + apply body_indefinite; auto. eapply inner_until; eauto.
    + unfold content_octets. now rewrite Hl.
Qed.
Print Assumptions C10_partial.

(** With the terminator 00 00 the content is exactly the elements. *)
Theorem C10_exact_partial : forall h hb es r,
  header_octets h hb -> h_length h = Indefinite -> inner_elements 49 es ->
  any_from_ber (hb ++ es ++ [0; 0] ++ r) = Ok (r, mkAny h es).
Proof.
  intros h hb es r Hh Hl Hes. pose proof Hh as (ib & lb & _ & _ & _ & _ & Hi).
  destruct (indefinite_body h es Hl (Hi Hl) Hes) as [Hb Hc].
  rewrite (app_assoc es), (app_assoc hb). apply any_from_ber_complete. exists hb, (es ++ [0; 0]). auto.
Qed.
Print Assumptions C10_exact_partial.

Example C10_ex : exists a, any_from_ber (hx "24 80 04 01 aa 04 02 00 00 00 00 ff") = Ok ([255], a)
  /\ a_data a = hx "04 01 aa 04 02 00 00".
Proof. eexists. split; vm_compute; reflexivity. Qed.

(** ** C54 *)

(** False: Incomplete although no extension is accepted (the inner element is
    cut by the outer length), ... *)
Lemma cut_inside x : exists h, any_from_ber (hx "30 02 02 01" ++ x) = Ok (x, mkAny h (hx "02 01"))
  /\ any_from_der (hx "30 02 02 01" ++ x) = Ok (x, mkAny h (hx "02 01"))
  /\ header_from_der (hx "30 02 02 01" ++ x) = Ok (hx "02 01" ++ x, h)
  /\ h = mkHeader Universal true 16 (Definite 2) (Some [48]).
Proof.
  assert (Hh := low_header Universal true 16 (Definite 2) [2] ltac:(lia) (length_short 2 ltac:(lia)) ltac:(discriminate)).
  eexists. split; [|split; [|split; [|reflexivity]]].
  - apply any_from_ber_definite. exists (hx "30 02"). split; [reflexivity|]. split; [exact Hh|reflexivity].
  - apply any_from_der_definite. exists (hx "30 02"). split; [reflexivity|]. split; [exact Hh|reflexivity].
  - change (hx "30 02 02 01" ++ x) with (hx "30 02" ++ hx "02 01" ++ x).
    apply header_from_der_complete; [exact Hh|discriminate].
Qed.

Theorem C54_ber_incomplete_refuted : exists L i n, bytes_ok i /\ parse_ber L i = Err (Incomplete n)
  /\ forall x r o, parse_ber L (i ++ x) <> Ok (r, o).
Proof.
  exists SL, (hx "30 02 02 01"), (Some 1). split; [bok|]. split; [vm_compute; reflexivity|].
  intros x r o H. apply parse_ber_inv in H as (a & Ha & Hc).
  destruct (cut_inside x) as (h & Ha' & _ & _ & ->). rewrite Ha' in Ha. inv Ha. vm_compute in Hc. discriminate.
Qed.
Print Assumptions C54_ber_incomplete_refuted.

Theorem C54_der_incomplete_refuted : exists L i n, bytes_ok i /\ parse_der L i = Err (Incomplete n)
  /\ forall x r o, parse_der L (i ++ x) <> Ok (r, o).
Proof.
  exists SL, (hx "30 02 02 01"), (Some 1). split; [bok|]. split; [vm_compute; reflexivity|].
  intros x r o H. unfold parse_der in H. apply parse_der_iff in H as (h & c & Hh & Hl & _ & Ho).
  destruct (cut_inside x) as (h' & _ & _ & Hh' & ->). rewrite Hh' in Hh. injection Hh as E <-.
  assert (Ec : c = hx "02 01").
  { cbn [h_length] in Hl. injection Hl as Hl. unfold nlen in Hl.
    destruct c as [|c0 [|c1 [|c2 c]]]; cbn [length] in Hl; try lia.
    change (hx "02 01" ++ x) with (2 :: 1 :: x) in E. cbn [app] in E. inv E. reflexivity. }
  subst c. assert (Ht : try_berobject_from_any SL MAX_RECURSION
     (mkAny (plain (mkHeader Universal true 16 (Definite 2) (Some [48]))) (hx "02 01")) = Err (EIncomplete (Some 1)))
    by (vm_compute; reflexivity).
  inv Ho.
  - match goal with H : der_value _ _ _ _ _ |- _ => inv H end; [discriminate|congruence].
  - cbn [h_class] in *. congruence.
  - congruence.
Qed.
Print Assumptions C54_der_incomplete_refuted.

(** ... and an error although an extension is accepted: cut inside a long-form
    tag. *)
Theorem C54_error_refuted : exists L i x r o, bytes_ok (i ++ x)
  /\ parse_ber L i = Err (Error InvalidTag) /\ parse_der L i = Err (Error InvalidTag)
  /\ parse_ber L (i ++ x) = Ok (r, o) /\ parse_der L (i ++ x) = Ok (r, o).
Proof.
  exists SL, (hx "9f"), (hx "81 01 00"). do 2 eexists. split; [bok|].
  split; [vm_compute; reflexivity|]. split; [vm_compute; reflexivity|]. split; vm_compute; reflexivity.
Qed.
Print Assumptions C54_error_refuted.

(** [i] stops inside a long-form tag. *)
Definition cut_tag (i : bytes) : Prop :=
  exists pre b ds, i = pre ++ b :: ds /\ b mod 32 = 31 /\ Forall (fun d => 128 <= d) ds.

(** Incomplete, asking for no more than [k] octets, or InvalidTag when [i] stops
    inside a long-form tag. *)
Definition cut_short {A} (k : N) (i : bytes) (res : iresult berror A) : Prop :=
  (exists n, res = Err (Incomplete (Some n)) /\ 1 <= n <= k) \/ (res = Err (Error InvalidTag) /\ cut_tag i).

Lemma cut_tag_app p i : cut_tag i -> cut_tag (p ++ i).
Proof. intros (pre & b & ds & -> & H). exists (p ++ pre), b, ds. now rewrite app_assoc. Qed.

Lemma cut_short_bind {A B} m m' p i (res : iresult berror A) (k : bytes * A -> iresult berror B) :
  m <= m' -> cut_short m i res -> cut_short m' (p ++ i) (bind res k).
Proof.
  intros Hm [(n & -> & Hn)|(-> & H)]; [left; exists n; split; [reflexivity|lia]|right].
  split; [reflexivity|]. now apply cut_tag_app.
Qed.

(** Something has to be missing. *)
Lemma missing_one {A} (f : bytes -> Base.res (nerr berror) A) i x v : f (i ++ x) = Ok v -> (forall v', f i <> Ok v') -> 1 <= nlen x.
Proof.
  intros H Hn. destruct x as [|b x]; [rewrite app_nil_r in H; now elim (Hn v)|]. unfold nlen. cbn [length]. lia.
Qed.

Lemma high_tag_cut x : forall i k c raw v, high_tag k c raw (i ++ x) = Some v ->
  (exists v', high_tag k c raw i = Some v') \/ (high_tag k c raw i = None /\ Forall (fun d => 128 <= d) i).
Proof.
  induction i as [|b i IH]; intros k c raw v H; [right; auto|]. cbn [app high_tag] in *. cbv zeta in *.
  destruct (5 <? k); [discriminate|]. destruct (b <? 128) eqn:E; [left; eauto|].
  destruct (IH _ _ _ _ H) as [Hv|[Hn Hf]]; [left; assumption|right]. split; [assumption|]. constructor; [lia|assumption].
Qed.

Lemma identifier_cut i x r v : parse_identifier (i ++ x) = Ok (r, v) ->
  (exists r' v', parse_identifier i = Ok (r', v')) \/ cut_short (nlen x) i (parse_identifier i).
Proof.
  destruct i as [|b i].
  { intros H. right; left. exists 1. split; [reflexivity|]. split; [lia|]. eapply (missing_one parse_identifier []); [exact H|discriminate]. } cbn [app parse_identifier]. cbv zeta.
  destruct (b mod 32 =? 31) eqn:E; [|left; eauto].
  destruct (high_tag 1 0 [b] (i ++ x)) as [[[c raw] rest]|] eqn:Eh; [|discriminate]. intros _.
  destruct (high_tag_cut _ _ _ _ _ _ Eh) as [([[c' raw'] rest'] & ->)|[-> Hf]]; [left; eauto|].
  right; right. split; [reflexivity|]. exists [], b, i. split; [reflexivity|]. split; [lia|assumption].
Qed.

Lemma take_cut {E} l i x r v : take_streaming (E := E) l (i ++ x) = Ok (r, v) ->
  (exists r', take_streaming (E := E) l i = Ok (r', v))
  \/ (exists n, take_streaming (E := E) l i = Err (Incomplete (Some n)) /\ 1 <= n <= nlen x).
Proof.
  intros H. destruct (take_streaming l i) as [[r' v']|e| |] eqn:Et.
  - left. rewrite (take_streaming_app _ _ x _ _ Et) in H. inv H. eauto.
  - right. unfold take_streaming in *. unfold nlen in *. rewrite app_length in H.
    destruct (N.of_nat (length i) <? l) eqn:E1; inv Et. destruct (N.of_nat (length i + length x) <? l) eqn:E2; [discriminate|].
    unfold needed_new. destruct (l - N.of_nat (length i) =? 0) eqn:E3; [lia|]. eexists. split; [reflexivity|]. lia.
  - unfold take_streaming in Et. destruct (nlen i <? l); discriminate.
  - unfold take_streaming in Et. destruct (nlen i <? l); discriminate.
Qed.

Lemma length_cut indef i x r v : parse_length indef (i ++ x) = Ok (r, v) ->
  (exists r', parse_length indef i = Ok (r', v))
  \/ (exists n, parse_length indef i = Err (Incomplete (Some n)) /\ 1 <= n <= nlen x).
Proof.
  destruct i as [|b i].
  { intros H. right. exists 1. split; [reflexivity|]. split; [lia|]. eapply (missing_one (parse_length indef) []); [exact H|discriminate]. } cbn [app parse_length].
  destruct (b <? 128); [intros H; inv H; eauto|].
  destruct (b =? 128); [intros H; bind_inv H; inv H; left; exists i; reflexivity|].
  destruct (b =? 255); [intros H; discriminate H|]. intros H. bind_inv H. destruct a as [r1 s].
  destruct (take_cut _ _ _ _ _ E) as [(r' & ->)|(n & -> & Hn)]; cbn [bind]; [|right; eauto].
  destruct (bytes_to_u64 s); inv H. left. eauto.
Qed.

Lemma header_cut (f : bool -> Base.res (nerr berror) blen) i x r v :
  (let* (r1, (cls, constructed, t, raw)) := parse_identifier (i ++ x) in
   let* (r2, l) := parse_length (f constructed) r1 in
   Ok (r2, mkHeader cls constructed t l (Some raw))) = Ok (r, v) ->
  let f := (let* (r1, (cls, constructed, t, raw)) := parse_identifier i in
   let* (r2, l) := parse_length (f constructed) r1 in
   Ok (r2, mkHeader cls constructed t l (Some raw))) in
  (exists r', f = Ok (r', v)) \/ cut_short (nlen x) i f.
Proof.
  cbv zeta. intros H. bind_inv H. destruct a as [r1 v1].
  destruct (identifier_cut _ _ _ _ E) as [(r' & v' & Ei)|Hc].
  - pose proof (parse_identifier_app _ x _ _ Ei) as Ea. rewrite Ea in E. inv E. rewrite Ei. cbn [bind].
    destruct v1 as [[[cls pc] t] raw]. bind_inv H. destruct a as [r2 l]. inv H.
    destruct (length_cut _ _ _ _ _ E) as [(r2' & ->)|(n & -> & Hn)]; cbn [bind]; [left; eauto|].
    right; left; eauto.
  - right. rewrite <- (app_nil_l i) at 1. eapply cut_short_bind; [reflexivity|exact Hc].
Qed.

Lemma header_ber_cut i x r h : header_from_ber (i ++ x) = Ok (r, h) ->
  (exists r', header_from_ber i = Ok (r', h)) \/ cut_short (nlen x) i (header_from_ber i).
Proof. apply (header_cut (fun pc => if pc then Ok Indefinite else Err (Error ConstructExpected))). Qed.

Lemma header_der_cut i x r h : header_from_der (i ++ x) = Ok (r, h) ->
  (exists r', header_from_der i = Ok (r', h)) \/ cut_short (nlen x) i (header_from_der i).
Proof. apply (header_cut (fun _ => Err (Error (DerConstraintFailed DcIndefiniteLength)))). Qed.

Lemma loop_cut skip1 skip2 x :
  (forall i h r e, skip2 (i ++ x) h = Ok (r, e) -> (exists r', skip1 i h = Ok (r', e) /\ skip2 (i ++ x) h = Ok (r' ++ x, e))
     \/ cut_short (nlen x) i (skip1 i h)) ->
  (forall i h r e, skip1 i h = Ok (r, e) -> exists p, i = p ++ r) ->
  forall fuel' fuel i r e, (length i < fuel)%nat -> ber_skip_loop skip2 fuel' (i ++ x) = Ok (r, e) ->
  (exists r', ber_skip_loop skip1 fuel i = Ok (r', e)) \/ cut_short (nlen x) i (ber_skip_loop skip1 fuel i).
Proof.
  intros H1 Hs. induction fuel' as [|fuel' IH]; intros fuel i r e Hf H; cbn [ber_skip_loop] in H; [discriminate|].
  destruct fuel as [|fuel]; [lia|]. cbn [ber_skip_loop]. unfold ber_read_element_header in *.
  bind_inv H. destruct a as [i2 h2]. destruct (header_ber_cut _ _ _ _ E) as [(r' & Eh)|Hc].
  - pose proof (header_from_ber_app _ x _ _ Eh) as Ea. rewrite Ea in E. inv E. rewrite Eh. cbn [bind].
    apply header_from_ber_consumes in Eh as (hb & -> & Hl).
    bind_inv H. destruct a as [i3 eoc]. destruct (H1 _ _ _ _ E) as [(r3 & Es & Es')|Hc].
    + rewrite Es' in E. inv E. rewrite Es. cbn [bind]. destruct eoc; [inv H; left; eauto|].
      destruct (Hs _ _ _ _ Es) as (p & ->). rewrite !app_length in Hf.
      destruct (IH fuel r3 _ _ ltac:(lia) H) as [Hok|Hc]; [left; assumption|].
      right. destruct Hc as [(n & -> & Hn)|(-> & Hc)]; [left; eauto|right].
      split; [reflexivity|]. now apply cut_tag_app, cut_tag_app.
    + right. eapply cut_short_bind; [reflexivity|exact Hc].
  - right. rewrite <- (app_nil_l i) at 1. eapply cut_short_bind; [reflexivity|exact Hc].
Qed.

Lemma skip_cut d : forall i x h r e, ber_skip_object_content d (i ++ x) h = Ok (r, e) ->
  (exists r', ber_skip_object_content d i h = Ok (r', e)) \/ cut_short (nlen x) i (ber_skip_object_content d i h).
Proof.
  induction d as [|d IH]; intros i x h r e H; cbn [ber_skip_object_content] in *; [discriminate|].
  destruct (h_length h) as [n|].
  - destruct ((n =? 0) && (h_tag h =? T_EndOfContent)); [inv H; left; eauto|].
    bind_inv H. destruct a as [r1 s]. inv H. destruct (take_cut _ _ _ _ _ E) as [(r' & ->)|(m & -> & Hm)]; cbn [bind].
    + left; eauto.
    + right; left; eauto.
  - destruct (negb (h_constructed h)); [discriminate|].
    eapply loop_cut; [|apply skip_split| |exact H]; [|lia].
    intros i' h' r' e' H'. destruct (IH _ _ _ _ _ H') as [(r2 & E2)|Hc]; [left|right; assumption].
    exists r2. split; [assumption|]. now apply skip_app.
Qed.

Lemma any_ber_cut i x r a : any_from_ber (i ++ x) = Ok (r, a) ->
  (exists r', any_from_ber i = Ok (r', a)) \/ cut_short (nlen x) i (any_from_ber i).
Proof.
  intros H. pose proof H as H0. unfold any_from_ber in H. bind_inv H. destruct a0 as [i1 h].
  bind_inv H. destruct a0 as [i2 data]. inv H. rewrite asn1_get_content_eq in E0.
  destruct (any_from_ber i) as [[r' a']|e| |] eqn:Ea.
  - rewrite (any_from_ber_app _ x _ _ Ea) in H0. inv H0. left. eauto.
  - right. rewrite <- Ea. unfold any_from_ber. destruct (header_ber_cut _ _ _ _ E) as [(r1 & Eh)|Hc].
    + rewrite (header_from_ber_app _ x _ _ Eh) in E. inv E. rewrite Eh. cbn [bind].
      rewrite asn1_get_content_eq. unfold ber_get_object_content. apply get_content_inv in E0 as (b & _ & _ & Es & _).
      destruct (skip_cut _ _ _ _ _ _ Es) as [(r2 & Ek)|Hc].
      * exfalso. unfold any_from_ber in Ea. rewrite Eh in Ea. cbn [bind] in Ea.
        rewrite asn1_get_content_eq in Ea. pose proof (skip_split _ _ _ _ _ Ek) as (p & ->).
        rewrite (get_content_intro _ _ _ _ Ek) in Ea. discriminate.
      * apply header_from_ber_consumes in Eh as (hb & -> & _).
        destruct Hc as [(n & -> & Hn)|(-> & Hc)]; [left; eexists; split; [reflexivity|exact Hn]|right].
        split; [reflexivity|now apply cut_tag_app].
    + rewrite <- (app_nil_l i) at 1. eapply cut_short_bind; [reflexivity|exact Hc].
  - exfalso. eapply (proj1 (any_from_ber_total i)); eassumption.
  - exfalso. eapply (proj2 (any_from_ber_total i)); eassumption.
Qed.

(** What does hold: when an extension is accepted, [i] itself is accepted, or
    incomplete, or stops inside a long-form tag.  Incomplete then asks for no more
    octets than were added.  Missing from C54: that last case; and that Incomplete
    implies an accepted extension. *)
Theorem C54_ber_partial : forall L i x d r o, parse_ber_recursive L (i ++ x) d = Ok (r, o) ->
  (exists r', parse_ber_recursive L i d = Ok (r', o)) \/ cut_short (N.of_nat (length x)) i (parse_ber_recursive L i d).
Proof.
  intros L i x d r o H. apply parse_ber_inv in H as (a & Ha & Hc).
  destruct (any_ber_cut _ _ _ _ Ha) as [(r' & E)|H].
  - left. exists r'. eapply parse_ber_intro; eauto.
  - right. unfold parse_ber_recursive, parse_ber_any_r. destruct d; [discriminate|]. cbn [Nat.eqb].
    rewrite <- (app_nil_l i) at 1. eapply cut_short_bind; [reflexivity|exact H].
Qed.
Print Assumptions C54_ber_partial.

Lemma der_missing L i d n r1 h : header_from_der i = Ok (r1, h) -> h_length h = Definite n ->
  n <= MAX_OBJECT_SIZE -> nlen r1 < n -> (1 <= d)%nat ->
  parse_der_recursive L i d
  = Err (Incomplete (Some (match h_class h with Universal => n | _ => n - nlen r1 end))).
Proof.
  intros Eh Hl Hm Hn Hd. unfold parse_der_recursive, der_read_element_header. rewrite Eh. cbn [bind]. rewrite Hl.
  destruct (MAX_OBJECT_SIZE <? n) eqn:E; [lia|]. unfold der_read_element_content_recursive.
  assert (Hu : ber_get_object_content r1 h d = Err (Incomplete (Some (n - nlen r1)))).
  { unfold ber_get_object_content. destruct d as [|d]; [lia|]. cbn [ber_skip_object_content]. rewrite Hl.
    destruct (n =? 0) eqn:E0; [lia|]. cbn [andb]. unfold take_streaming.
    destruct (nlen r1 <? n) eqn:E1; [|lia]. cbn [bind]. unfold needed_new.
    destruct (n - nlen r1 =? 0) eqn:E2; [lia|reflexivity]. }
  rewrite Hu. destruct (h_class h); try reflexivity.
  unfold der_read_element_content_as. rewrite Hl. cbn [length_definite map_err bind].
  destruct (nlen r1 <? n) eqn:E1; [|lia]. unfold needed_new. destruct (n =? 0) eqn:E2; [lia|reflexivity].
Qed.

(** [parse_der] may ask for the whole contents although a part of them is there. *)
Theorem C54_der_partial : forall L i x d r o, parse_der_recursive L (i ++ x) d = Ok (r, o) -> (1 <= d)%nat ->
  (exists r', parse_der_recursive L i d = Ok (r', o)) \/ cut_short (N.of_nat (length (i ++ x))) i (parse_der_recursive L i d).
Proof.
  intros L i x d r o H Hd. apply parse_der_iff in H as (h & c & Hh & Hl & Hm & Ho).
  destruct (header_der_cut _ _ _ _ Hh) as [(r1 & Eh)|Hc].
  - pose proof (header_from_der_app _ x _ _ Eh) as Ea. rewrite Hh in Ea. injection Ea as Ea.
    destruct (N.lt_ge_cases (nlen r1) (nlen c)) as [Hn|Hn].
    + right; left. rewrite (der_missing _ _ _ _ _ _ Eh Hl Hm Hn Hd). eexists. split; [reflexivity|].
      pose proof (header_from_ber_consumes _ _ _ (proj1 (header_from_der_ber _ _ _ Hh))) as (hb & Ei & _).
      apply (f_equal (@length N)) in Ei. unfold nlen in *. rewrite !app_length in *. destruct (h_class h); lia.
    + left. exists (skipn (length c) r1). apply parse_der_iff. exists h, c. split; [|auto].
      rewrite Eh. f_equal. f_equal. rewrite <- (firstn_skipn (length c) r1) at 1. f_equal.
      apply (f_equal (firstn (length c))) in Ea. rewrite firstn_app_exact in Ea.
      etransitivity; [|symmetry; exact Ea]. rewrite firstn_app. replace (length c - length r1)%nat with 0%nat by (unfold nlen in Hn; lia).
      cbn [firstn]. now rewrite app_nil_r.
  - right. unfold parse_der_recursive, der_read_element_header.
    eapply (cut_short_bind _ _ []); [|exact Hc]. unfold nlen. rewrite app_length. lia.
Qed.
Print Assumptions C54_der_partial.

(** More than is missing, hence more than any accepted extension needs to add. *)
Theorem C54_needed_refuted : exists i x n o,
  parse_der SL i = Err (Incomplete (Some n)) /\ parse_ber_with_tag SL i 4 = Err (Incomplete (Some n))
  /\ parse_der SL (i ++ x) = Ok ([], o) /\ parse_ber_with_tag SL (i ++ x) 4 = Ok ([], o) /\ N.of_nat (length x) < n.
Proof.
  exists (hx "04 05 01 02"), (hx "03 04 05"), 5. eexists. split; [vm_compute; reflexivity|]. split; [vm_compute; reflexivity|].
  split; [vm_compute; reflexivity|]. split; vm_compute; reflexivity.
Qed.
Print Assumptions C54_needed_refuted.

(** A complete definite-length header whose content is not all there:
    Incomplete, with the number of missing octets (BER, and DER outside the
    universal class) or the announced length (DER). *)
Theorem C54_missing_content_partial : forall L h hb b n d,
  header_octets h hb -> h_length h = Definite n -> N.of_nat (length b) < n -> (1 <= d)%nat ->
  parse_ber_recursive L (hb ++ b) d = Err (Incomplete (Some (n - N.of_nat (length b))))
  /\ (n <= 4294967295 -> parse_der_recursive L (hb ++ b) d
      = Err (Incomplete (Some (match h_class h with Universal => n | _ => n - N.of_nat (length b) end)))).
Proof.
  change 4294967295 with MAX_OBJECT_SIZE.
  intros L h hb b n d Hh Hl Hn Hd. split.
  - unfold parse_ber_recursive, parse_ber_any_r. destruct d as [|d]; [lia|]. cbn [Nat.eqb].
    unfold any_from_ber. rewrite (header_from_ber_complete _ _ b Hh). cbn [bind].
    unfold asn1_get_content. unfold ASN1_MAX_RECURSION. cbn [asn1_skip]. rewrite Hl.
    destruct (n =? 0) eqn:E0; [lia|]. cbn [andb]. unfold take_streaming, nlen.
    destruct (N.of_nat (length b) <? n) eqn:E1; [|lia]. cbn [bind]. unfold needed_new.
    destruct (n - N.of_nat (length b) =? 0) eqn:E2; [lia|reflexivity].
  - intros Hm. eapply der_missing; eauto. apply header_from_der_complete; congruence.
Qed.
Print Assumptions C54_missing_content_partial.

(** The same for the readers of one type, and for contents read on their own:
    always the announced length. *)
Theorem C54_missing_typed_partial : forall L h hb b n,
  header_octets h hb -> h_length h = Definite n -> N.of_nat (length b) < n ->
  (n <= 4294967295 ->
     parse_ber_with_tag L (hb ++ b) (h_tag h) = Err (Incomplete (Some n))
     /\ forall t pc d, ber_read_element_content_as L b t (Definite n) pc d = Err (Incomplete (Some n)))
  /\ parse_der_with_tag L (hb ++ b) (h_tag h) = Err (Incomplete (Some n))
  /\ forall t pc d, der_read_element_content_as L b t (Definite n) pc d = Err (Incomplete (Some n)).
Proof.
  intros L h hb b n Hh Hl Hn.
  assert (Hb : n <= 4294967295 ->
    forall t pc d, ber_read_element_content_as L b t (Definite n) pc d = Err (Incomplete (Some n))).
  { intros Hm t pc d. unfold ber_read_element_content_as, try_read_berobjectcontent_as, nlen, needed_new.
    change 4294967295 with MAX_OBJECT_SIZE in Hm.
    destruct (MAX_OBJECT_SIZE <? n) eqn:E; [lia|].
    destruct (N.of_nat (length b) <? n) eqn:E1; [|lia]. destruct (n =? 0) eqn:E2; [lia|reflexivity]. }
  assert (Hd : forall t pc d, der_read_element_content_as L b t (Definite n) pc d = Err (Incomplete (Some n))).
  { intros t pc d. unfold der_read_element_content_as, nlen, needed_new. cbn [length_definite map_err bind].
    destruct (N.of_nat (length b) <? n) eqn:E1; [|lia]. destruct (n =? 0) eqn:E2; [lia|reflexivity]. }
  split; [|split; [|exact Hd]].
  - intros Hm. split; [|auto]. unfold parse_ber_with_tag, ber_read_element_header.
    rewrite (header_from_ber_complete _ _ b Hh). cbn [bind]. unfold assert_tag. rewrite N.eqb_refl.
    cbn [map_err bind]. rewrite Hl, Hb by exact Hm. reflexivity.
  - unfold parse_der_with_tag, der_read_element_header.
    rewrite (header_from_der_complete _ _ b Hh) by congruence. cbn [bind]. unfold assert_tag. rewrite N.eqb_refl.
    cbn [map_err bind]. rewrite Hl, Hd. reflexivity.
Qed.
Print Assumptions C54_missing_typed_partial.

Example C54_ex : parse_ber SL (hx "30 80 02 03 05") = Err (Incomplete (Some 2))
  /\ parse_der SL (hx "04 05 01 02") = Err (Incomplete (Some 5))
  /\ parse_der SL (hx "84 05 01 02") = Err (Incomplete (Some 3))
  /\ parse_ber_with_tag SL (hx "04 05 01 02") 4 = Err (Incomplete (Some 5))
  /\ exists o, parse_ber SL (hx "30 80 02 03 05" ++ hx "06 07 00 00") = Ok ([], o).
Proof. repeat (split; [vm_compute; reflexivity|]). eexists. vm_compute. reflexivity. Qed.
