(** * C121: where a decoded object borrows its octets *)

From Coq Require Import String.
From Verif Require Import Base Asn1rs Ber Der Located Conformance Spec SpecValue SpecLocated.
From Verif Require Import LemBase LemHeader LemSkip LemParse LemDer PropFraming.
Local Open Scope string_scope. Local Open Scope N_scope. Local Open Scope list_scope.

(** ** The located readers and those of Ber.v and Der.v *)

(** [s'] is what is left of [s] behind some octets. *)
Definition follows (s s' : slice) : Prop :=
  exists pre, s_oct s = pre ++ s_oct s' /\ s_at s' = (s_at s + length pre)%nat.

Lemma follows_refl s : follows s s.
Proof. exists []. cbn. split; [reflexivity|lia]. Qed.
Lemma follows_trans a b c : follows a b -> follows b c -> follows a c.
Proof.
  intros (p & Ep & Ap) (q & Eq & Aq). exists (p ++ q). rewrite Ep, Eq, app_length, <- app_assoc. split; [reflexivity|lia].
Qed.
Lemma follows_drop n s : (n <= length (s_oct s))%nat -> follows s (s_drop n s).
Proof.
  intros H. exists (firstn n (s_oct s)). cbn. rewrite firstn_skipn. split; [reflexivity|]. rewrite firstn_length. lia.
Qed.
Lemma follows_length s s' : follows s s' -> (s_at s' - s_at s)%nat = (length (s_oct s) - length (s_oct s'))%nat.
Proof. intros (p & Ep & Ap). rewrite Ep, app_length. lia. Qed.

Definition tracks {E A B} (s : slice) (R : A -> B -> Prop) (x : res E (slice * A)) (y : res E (bytes * B)) : Prop :=
  match x, y with
  | Ok (s', a), Ok (r, b) => s_oct s' = r /\ follows s s' /\ R a b
  | Err e, Err e' => e = e'
  | Panic, Panic => True
  | Diverge, Diverge => True
  | _, _ => False
  end.

Lemma tracks_bind {E A B A' B'} (s : slice) (R : A -> B -> Prop) (R' : A' -> B' -> Prop)
    (x : res E (slice * A)) (y : res E (bytes * B)) k k' :
  tracks s R x y ->
  (forall s' a b, follows s s' -> R a b -> tracks s R' (k (s', a)) (k' (s_oct s', b))) ->
  tracks s R' (bind x k) (bind y k').
Proof.
  intros H Hk. destruct x as [[s' a]|e| |], y as [[r b]|e'| |]; cbn in *; try contradiction; auto.
  destruct H as (<- & Hf & HR). now apply Hk.
Qed.

Lemma tracks_weaken {E A B} (s s' : slice) (R R' : A -> B -> Prop) (x : res E (slice * A)) y :
  tracks s' R x y -> follows s s' -> (forall a b, R a b -> R' a b) -> tracks s R' x y.
Proof.
  intros H Hf HR. destruct x as [[s1 a]|e| |], y as [[r b]|e'| |]; cbn in *; try contradiction; auto.
  destruct H as (E1 & F1 & R1). split; [exact E1|]. split; [eapply follows_trans; eauto|auto].
Qed.

Lemma tracks_plain {E A A' B'} (s : slice) (R' : A' -> B' -> Prop) (x : res E A) k k' :
  (forall a, x = Ok a -> tracks s R' (k a) (k' a)) -> tracks s R' (bind x k) (bind x k').
Proof. destruct x; cbn; auto. Qed.

Lemma l_take_tracks s l : tracks s (fun a b => s_oct a = b /\ s_at a = s_at s) (l_take_streaming l s) (take_streaming l (s_oct s)).
Proof.
  unfold l_take_streaming, take_streaming. destruct (nlen (s_oct s) <? l) eqn:El; [reflexivity|].
  cbn. split; [reflexivity|]. split; [|auto]. apply follows_drop. unfold nlen in El. lia.
Qed.

Lemma l_identifier_tracks s :
  tracks s (fun a b => let '(c, pc, t, raw) := a in (c, pc, t, s_oct raw) = b /\ s_at raw = s_at s)
    (l_parse_identifier s) (parse_identifier (s_oct s)).
Proof.
  unfold l_parse_identifier, parse_identifier. destruct (s_oct s) as [|b rest] eqn:Es; [reflexivity|].
  destruct (b mod 32 =? 31).
  - destruct (high_tag 1 0 [b] rest) as [[[c raw] rest']|] eqn:Eh; [|reflexivity].
    apply high_tag_split in Eh as (p & -> & -> & _).
    assert (Et : firstn (length ([b] ++ p)) (s_oct s) = [b] ++ p) by (rewrite Es; exact (firstn_app_exact ([b] ++ p) rest')).
    assert (Ed : skipn (length ([b] ++ p)) (s_oct s) = rest') by (rewrite Es; exact (skipn_app_exact ([b] ++ p) rest')).
    cbn [tracks]. split; [exact Ed|]. split; [|cbn [s_oct s_at s_take]; now rewrite Et].
    apply follows_drop. rewrite Es, app_length. cbn. rewrite app_length. lia.
  - cbn [tracks]. split; [cbn; now rewrite Es|]. split; [apply follows_drop; rewrite Es; cbn; lia|]. cbn. now rewrite Es.
Qed.

Lemma l_length_tracks indef s : tracks s eq (l_parse_length indef s) (parse_length indef (s_oct s)).
Proof.
  unfold l_parse_length, parse_length. destruct (s_oct s) as [|b rest] eqn:Es; [reflexivity|].
  assert (Ed : s_oct (s_drop 1 s) = rest) by (cbn; now rewrite Es).
  assert (Hf : follows s (s_drop 1 s)) by (apply follows_drop; rewrite Es; cbn; lia).
  destruct (b <? 128); [cbn [tracks]; auto|]. destruct (b =? 128).
  - destruct indef; cbn [bind tracks]; auto.
  - destruct (b =? 255); [reflexivity|]. rewrite <- Ed. eapply tracks_bind.
    + eapply tracks_weaken; [apply l_take_tracks|exact Hf|]. intros a' b' H. exact H.
    + intros s' a b' Hs' [<- _]. destruct (bytes_to_u64 (s_oct a)); cbn; auto.
Qed.

Definition header_at (s : slice) (a : header * slice) (h : header) : Prop :=
  fst a = h /\ h_raw_tag h = Some (s_oct (snd a)) /\ s_at (snd a) = s_at s.

Lemma l_header_ber_tracks s : tracks s (header_at s) (l_header_from_ber s) (header_from_ber (s_oct s)).
Proof.
  unfold l_header_from_ber, header_from_ber. eapply tracks_bind; [apply l_identifier_tracks|].
  intros s1 [[[c pc] t] raw] b Hf [<- Ha]. eapply tracks_bind; [eapply tracks_weaken; [apply l_length_tracks|exact Hf|intros ? ? H; exact H]|].
  intros s2 l l' Hf2 ->. cbn. repeat split; auto.
Qed.

Lemma l_header_der_tracks s : tracks s (header_at s) (l_header_from_der s) (header_from_der (s_oct s)).
Proof.
  unfold l_header_from_der, header_from_der. eapply tracks_bind; [apply l_identifier_tracks|].
  intros s1 [[[c pc] t] raw] b Hf [<- Ha]. eapply tracks_bind; [eapply tracks_weaken; [apply l_length_tracks|exact Hf|intros ? ? H; exact H]|].
  intros s2 l l' Hf2 ->. cbn. repeat split; auto.
Qed.

Lemma l_loop_tracks skip1 skip2 : (forall s h, tracks s eq (skip1 s h) (skip2 (s_oct s) h)) ->
  forall fuel s, tracks s eq (l_skip_loop skip1 fuel s) (ber_skip_loop skip2 fuel (s_oct s)).
Proof.
  intros Hs. induction fuel as [|fuel IH]; intros s; cbn [l_skip_loop ber_skip_loop]; [exact I|].
  eapply tracks_bind; [apply l_header_ber_tracks|]. intros s1 [h raw] h' Hf (<- & _ & _).
  eapply tracks_bind; [eapply tracks_weaken; [apply Hs|exact Hf|intros ? ? H; exact H]|].
  intros s2 e e' Hf2 <-. destruct e; [cbn; auto|]. eapply tracks_weaken; [apply IH|exact Hf2|auto].
Qed.

Lemma l_skip_tracks d : forall s h, tracks s eq (l_skip d s h) (ber_skip_object_content d (s_oct s) h).
Proof.
  induction d as [|d IH]; intros s h; cbn [l_skip ber_skip_object_content]; [reflexivity|].
  destruct (h_length h) as [l|].
  - destruct ((l =? 0) && (h_tag h =? T_EndOfContent)); [cbn; auto using follows_refl|].
    eapply tracks_bind; [apply l_take_tracks|]. intros s' a b Hf _. cbn. auto.
  - destruct (negb (h_constructed h)); [reflexivity|]. apply l_loop_tracks. exact IH.
Qed.

Lemma l_content_tracks s h d :
  tracks s (fun a b => s_oct a = b /\ s_at a = s_at s) (l_get_content s h d) (ber_get_object_content (s_oct s) h d).
Proof.
  unfold l_get_content, ber_get_object_content. eapply tracks_bind; [apply l_skip_tracks|].
  intros r e e' Hf _. rewrite (follows_length _ _ Hf). cbn [s_oct s_take]. set (n := (length (s_oct s) - length (s_oct r))%nat).
  assert (Hd : follows s (s_drop n s)) by (apply follows_drop; lia).
  destruct (h_length h); [cbn; auto|].
  destruct (length (firstn n (s_oct s)) <? 2)%nat; [exact I|]. cbn. auto.
Qed.

Definition any_at (a : lany) : any := mkAny (la_header a) (s_oct (la_data a)).

Lemma l_any_tracks s : tracks s (fun a b => any_at a = b) (l_any_from_ber s) (any_from_ber (s_oct s)).
Proof.
  unfold l_any_from_ber, any_from_ber. eapply tracks_bind; [apply l_header_ber_tracks|].
  intros s1 [h raw] h' Hf (<- & _ & _). rewrite asn1_get_content_eq.
  eapply tracks_bind; [eapply tracks_weaken; [apply l_content_tracks|exact Hf|intros ? ? H; exact H]|].
  intros s2 data c Hf2 [<- _]. cbn. auto.
Qed.

(** The object without what is said about it. *)
Definition only {E A Y} (x : res E (A * Y)) : res E A := let* (a, _) := x in Ok a.

Lemma l_iter_only conv conv' : (forall a, only (conv a) = conv' (any_at a)) ->
  forall fuel data, only (l_iter_collect conv fuel data) = iter_collect conv' fuel (s_oct data).
Proof.
  intros Hc. induction fuel as [|fuel IH]; intros data; cbn [l_iter_collect iter_collect]; destruct (s_oct data) as [|x i] eqn:Ed;
    try reflexivity. pose proof (l_any_tracks data) as Ht. rewrite Ed in Ht.
  destruct (l_any_from_ber data) as [[r a]|e| |], (any_from_ber (x :: i)) as [[r' b]|e'| |]; cbn [tracks map_err bind only] in *;
    try contradiction; subst; try reflexivity.
  destruct Ht as (<- & _ & <-). rewrite <- Hc, <- IH. destruct (conv a) as [[o y]| | |]; cbn; try reflexivity.
  destruct (l_iter_collect conv fuel r) as [[os ys]| | |]; reflexivity.
Qed.

Lemma l_object_only L d : forall a, only (l_object L d a) = try_berobject_from_any L d (any_at a).
Proof.
  induction d as [|d IH]; intros a; [reflexivity|].
  assert (Ho : forall y, only (let* o := try_berobject_from_any L (S d) (any_at a) in Ok (o, y : layout))
                         = try_berobject_from_any L (S d) (any_at a)).
  { intros y. destruct (try_berobject_from_any L (S d) (any_at a)); reflexivity. }
  cbn [l_object]. change (mkAny (la_header a) (s_oct (la_data a))) with (any_at a).
  destruct (negb (class_eqb (h_class (la_header a)) Universal)) eqn:Ec; [apply Ho|].
  destruct (utag_of (h_tag (la_header a))) eqn:Et; try apply Ho.
  all: cbn [try_berobject_from_any any_at a_header a_data]; rewrite Ec, Et;
    destruct (assert_constructed (la_header a)); cbn [bind only]; try reflexivity;
    rewrite <- (l_iter_only _ _ IH);
    destruct (l_iter_collect (l_object L d) _ (la_data a)) as [[l ys]| | |]; reflexivity.
Qed.

Lemma l_content_as_tracks L s raw t l pc d :
  tracks s (fun a b => fst a = b) (l_content_as L s raw t l pc d) (ber_read_element_content_as L (s_oct s) t l pc d).
Proof.
  unfold l_content_as, ber_read_element_content_as, try_read_berobjectcontent_as. set (h := header_new Universal pc t l).
  match goal with |- tracks _ ?R (match _ with Definite _ => if _ then _ else if _ then _ else ?A | _ => _ end)
    (match _ with Definite _ => if _ then _ else if _ then _ else ?B | _ => _ end) => assert (H : tracks s R A B) end.
  { eapply tracks_bind; [apply l_content_tracks|]. intros s' data c Hf [<- _].
    pose proof (l_object_only L d (mkLany h raw data)) as Ho. unfold any_at in Ho. cbn [la_header la_data] in Ho. rewrite <- Ho.
    destruct (l_object L d _) as [[o y]| | |]; cbn; auto. }
  destruct l as [n|]; [|exact H]. destruct (MAX_OBJECT_SIZE <? n); [reflexivity|]. destruct (nlen (s_oct s) <? n); [reflexivity|exact H].
Qed.

Lemma l_der_bits_tracks s raw l : tracks s (fun a b => fst a = b) (l_der_content_bitstring s raw l) (der_read_content_bitstring (s_oct s) l).
Proof.
  unfold l_der_content_bitstring, der_read_content_bitstring, be_u8. destruct (s_oct s) as [|u i] eqn:Es; [reflexivity|]. cbn [bind].
  destruct (7 <? u); [reflexivity|]. destruct (l =? 0); [reflexivity|].
  assert (Ed : s_oct (s_drop 1 s) = i) by (cbn; now rewrite Es). rewrite <- Ed.
  eapply tracks_bind.
  - eapply tracks_weaken; [apply l_take_tracks|apply follows_drop; rewrite Es; cbn; lia|intros ? ? H; exact H].
  - intros s' a b Hf [<- _]. destruct (1 <? l); [|cbn; auto]. destruct (nth_error (s_oct a) (N.to_nat (l - 2))); [|exact I].
    destruct (unused_bits_zero _ _); cbn; auto.
Qed.

Lemma l_der_content_as_tracks L s raw t l pc d :
  tracks s (fun a b => fst a = b) (l_der_content_as L s raw t l pc d) (der_read_element_content_as L (s_oct s) t l pc d).
Proof.
  unfold l_der_content_as, der_read_element_content_as. pose proof (l_content_as_tracks L s raw t l pc d) as H.
  apply tracks_plain. intros n _. destruct (nlen (s_oct s) <? n); [reflexivity|].
  destruct (utag_of t); try exact H; try (destruct pc; [reflexivity|exact H]).
  - destruct pc; [reflexivity|apply l_der_bits_tracks].
  - destruct (negb (n =? 1)); [reflexivity|]. destruct (s_oct s); [exact I|]. destruct (_ && _); [reflexivity|exact H].
  - destruct (_ || _); [reflexivity|exact H].
  - destruct (firstn (N.to_nat n) (s_oct s)) as [|b0 [|b1 r]]; [reflexivity|exact H|].
    destruct (_ && _); [reflexivity|]. destruct (_ && _); [reflexivity|exact H].
  - destruct (_ || _); [reflexivity|exact H].
Qed.

Lemma l_parse_ber_tracks L s d :
  tracks s (fun a b => fst a = b) (l_parse_ber_recursive L s d) (parse_ber_recursive L (s_oct s) d).
Proof.
  unfold l_parse_ber_recursive, parse_ber_recursive, parse_ber_any_r. destruct (d =? 0)%nat; [reflexivity|].
  eapply tracks_bind; [apply l_any_tracks|]. intros s' a b Hf <-. rewrite <- l_object_only.
  destruct (l_object L d a) as [[o y]| | |]; cbn; auto.
Qed.

Lemma l_parse_ber_with_tag_tracks L s t :
  tracks s (fun a b => fst a = b) (l_parse_ber_with_tag L s t) (parse_ber_with_tag L (s_oct s) t).
Proof.
  unfold l_parse_ber_with_tag, parse_ber_with_tag. eapply tracks_bind; [apply l_header_ber_tracks|].
  intros s1 [h raw] h' Hf (<- & _ & _). cbn [fst]. apply tracks_plain. intros _ _.
  eapply tracks_bind; [eapply tracks_weaken; [apply l_content_as_tracks|exact Hf|intros ? ? H; exact H]|].
  intros s2 [c y] c' Hf2 <-. cbn. auto.
Qed.

Lemma l_parse_der_with_tag_tracks L s t :
  tracks s (fun a b => fst a = b) (l_parse_der_with_tag L s t) (parse_der_with_tag L (s_oct s) t).
Proof.
  unfold l_parse_der_with_tag, parse_der_with_tag. eapply tracks_bind; [apply l_header_der_tracks|].
  intros s1 [h raw] h' Hf (<- & _ & _). cbn [fst]. apply tracks_plain. intros _ _.
  eapply tracks_bind; [eapply tracks_weaken; [apply l_der_content_as_tracks|exact Hf|intros ? ? H; exact H]|].
  intros s2 [c y] c' Hf2 <-. cbn. auto.
Qed.

Lemma l_der_recursive_tracks L s h raw d :
  tracks s (fun a b => fst a = b) (l_der_content_recursive L s h raw d) (der_read_element_content_recursive L (s_oct s) h d).
Proof.
  unfold l_der_content_recursive, der_read_element_content_recursive.
  match goal with |- tracks _ ?R (match _ with Universal => _ | Application => ?A | _ => _ end)
    (match _ with Universal => _ | Application => ?B | _ => _ end) => assert (H : tracks s R A B) end.
  { eapply tracks_bind; [apply l_content_tracks|]. intros s' data c Hf [<- _]. cbn. auto. }
  destruct (h_class h); try exact H.
  pose proof (l_der_content_as_tracks L s raw (h_tag h) (h_length h) (h_constructed h) d) as Ht.
  destruct (l_der_content_as L s raw _ _ _ _) as [[r [c y]]|e| |],
    (der_read_element_content_as L (s_oct s) _ _ _ _) as [[r' c']|e'| |]; cbn in Ht; try contradiction; auto.
  - destruct Ht as (<- & Hf & <-). cbn. auto.
  - subst e'. destruct e as [e|e|e]; cbn; auto. destruct e; try reflexivity. exact H.
Qed.

Lemma l_parse_der_tracks L s d :
  tracks s (fun a b => fst a = b) (l_parse_der_recursive L s d) (parse_der_recursive L (s_oct s) d).
Proof.
  unfold l_parse_der_recursive, parse_der_recursive. eapply tracks_bind; [apply l_header_der_tracks|].
  intros s1 [h raw] h' Hf (<- & _ & _). cbn [fst].
  assert (H : tracks s (fun a b => fst a = b) (l_der_content_recursive L s1 h raw d) (der_read_element_content_recursive L (s_oct s1) h d)).
  { eapply tracks_weaken; [apply l_der_recursive_tracks|exact Hf|auto]. }
  destruct (h_length h) as [l|]; [|exact H]. destruct (MAX_OBJECT_SIZE <? l); [reflexivity|exact H].
Qed.

(** Whatever the address, the located readers give what the readers of Ber.v and Der.v give, in every case;
    so computing [start_i.offset(i)] from lengths, as those do, is right. *)
Definition plain_result (x : res (nerr berror) (slice * (obj * layout))) : iresult berror obj :=
  let* (r, (o, _)) := x in Ok (s_oct r, o).

Lemma tracks_plain_result s x y : tracks s (fun a b => fst a = b) x y -> plain_result x = y.
Proof.
  destruct x as [[r [o l]]|e| |], y as [[r' o']|e'| |]; cbn; try contradiction; try congruence. intros (<- & _ & <-). reflexivity.
Qed.

Theorem C121_same : forall L p i d t,
  plain_result (l_parse_ber_recursive L (mkSlice p i) d) = parse_ber_recursive L i d
  /\ plain_result (l_parse_ber_with_tag L (mkSlice p i) t) = parse_ber_with_tag L i t
  /\ plain_result (l_parse_der_recursive L (mkSlice p i) d) = parse_der_recursive L i d
  /\ plain_result (l_parse_der_with_tag L (mkSlice p i) t) = parse_der_with_tag L i t
  /\ plain_result (l_parse_ber L (mkSlice p i)) = parse_ber L i
  /\ plain_result (l_parse_der L (mkSlice p i)) = parse_der L i.
Proof.
  intros L p i d t. repeat split; eapply tracks_plain_result.
  - apply (l_parse_ber_tracks L (mkSlice p i)).
  - apply (l_parse_ber_with_tag_tracks L (mkSlice p i)).
  - apply (l_parse_der_tracks L (mkSlice p i)).
  - apply (l_parse_der_with_tag_tracks L (mkSlice p i)).
  - apply (l_parse_ber_tracks L (mkSlice p i)).
  - apply (l_parse_der_tracks L (mkSlice p i)).
Qed.
Print Assumptions C121_same.

(** ** Where the slices are *)

Lemma tracks_ok {E A B} s (R : A -> B -> Prop) (x : res E (slice * A)) y s' a :
  tracks s R x y -> x = Ok (s', a) -> exists b, y = Ok (s_oct s', b) /\ follows s s' /\ R a b.
Proof. intros H ->. destruct y as [[r b]|e| |]; cbn in H; try contradiction. destruct H as (<- & Hf & HR). eauto. Qed.

Lemma l_header_split s s1 h raw : bytes_ok (s_oct s) ->
  l_header_from_ber s = Ok (s1, (h, raw)) \/ l_header_from_der s = Ok (s1, (h, raw)) ->
  exists ib lb, s_oct s = ib ++ lb ++ s_oct s1 /\ raw = mkSlice (s_at s) ib /\ h_raw_tag h = Some ib
    /\ header_octets h (ib ++ lb) /\ s_at s1 = (s_at s + length ib + length lb)%nat.
Proof.
  intros Hok H.
  assert (Ht : exists hb, s_oct s = hb ++ s_oct s1 /\ header_octets h hb /\ follows s s1 /\ header_at s (h, raw) h).
  { destruct H as [H|H].
    - destruct (tracks_ok _ _ _ _ _ _ (l_header_ber_tracks s) H) as (h' & Eh & Hf & Ha). pose proof Ha as (E1 & _). cbn in E1. subst h'.
      apply header_from_ber_sound in Eh as (hb & Ehb & Ho); [|exact Hok]. eauto.
    - destruct (tracks_ok _ _ _ _ _ _ (l_header_der_tracks s) H) as (h' & Eh & Hf & Ha). pose proof Ha as (E1 & _). cbn in E1. subst h'.
      apply header_from_der_iff in Eh as (_ & hb & Ehb & Ho); [|exact Hok]. eauto. }
  destruct Ht as (hb & Ehb & Ho & (pre & Epre & Ea) & (_ & Hr2 & Ha2)). cbn [snd] in *.
  pose proof Ho as (ib & lb & -> & _ & _ & Hr & _).
  assert (E : pre = ib ++ lb) by (rewrite Ehb in Epre; now apply app_inv_tail in Epre).
  exists ib, lb. split; [now rewrite Ehb, <- app_assoc|]. split.
  - destruct raw as [ar or]. cbn in *. rewrite Hr in Hr2. injection Hr2 as <-. now rewrite Ha2.
  - split; [exact Hr|]. split; [exact Ho|]. rewrite Ea, E, app_length. lia.
Qed.

Lemma body_ext e h h' b : h_length h' = h_length h -> h_constructed h' = h_constructed h -> body e h b -> body e h' b.
Proof.
  intros El Ec H. inversion H; subst.
  - eapply body_definite; [rewrite El; eassumption|reflexivity].
  - apply body_indefinite; congruence.
Qed.

Lemma l_content_split s h d r data : bytes_ok (s_oct s) -> l_get_content s h d = Ok (r, data) ->
  exists tl, s_oct s = s_oct data ++ tl ++ s_oct r /\ s_at data = s_at s
    /\ s_at r = (s_at s + length (s_oct data) + length tl)%nat
    /\ match h_length h with Definite n => n = N.of_nat (length (s_oct data)) /\ tl = [] | Indefinite => length tl = 2%nat end
    /\ body d h (s_oct data ++ tl).
Proof.
  intros Hok H. destruct (tracks_ok _ _ _ _ _ _ (l_content_tracks s h d) H) as (c & Ec & (pre & Ep & Ar) & (<- & Ad)).
  pose proof (get_content_any_ok _ _ _ _ _ Ec) as Hn. unfold any_ok in Hn. cbn [a_header a_data] in Hn.
  pose proof Ec as Ec'. apply get_content_sound in Ec' as (b' & Eb' & Hb & _); [|exact Hok].
  apply get_content_inv in Ec as (b & Eb & Eo & _ & H2). rewrite Ep in Eb, Eb'. apply app_inv_tail in Eb, Eb'. subst b b'.
  unfold content_octets in Eo. destruct (h_length h) as [n|].
  - exists []. cbn. rewrite Eo. split; [exact Ep|]. split; [exact Ad|]. split; [lia|]. rewrite app_nil_r. split; [split; [|reflexivity]|exact Hb].
    symmetry. specialize (Hn n eq_refl). unfold nlen in Hn. now rewrite Eo in Hn.
  - specialize (H2 eq_refl). exists (skipn (length pre - 2) pre). rewrite Eo.
    rewrite app_assoc, firstn_skipn. split; [exact Ep|]. split; [exact Ad|]. rewrite firstn_length, skipn_length. split; [lia|]. split; [lia|exact Hb].
Qed.

Lemma l_any_split s r a : bytes_ok (s_oct s) -> l_any_from_ber s = Ok (r, a) ->
  exists ib lb tl, s_oct s = (ib ++ lb ++ s_oct (la_data a) ++ tl) ++ s_oct r /\ la_raw a = mkSlice (s_at s) ib
    /\ h_raw_tag (la_header a) = Some ib /\ header_octets (la_header a) (ib ++ lb)
    /\ match h_length (la_header a) with
       | Definite n => n = N.of_nat (length (s_oct (la_data a))) /\ tl = [] | Indefinite => length tl = 2%nat end
    /\ body 50 (la_header a) (s_oct (la_data a) ++ tl)
    /\ s_at (la_data a) = (s_at s + length ib + length lb)%nat
    /\ s_at r = (s_at s + length (ib ++ lb ++ s_oct (la_data a) ++ tl))%nat
    /\ bytes_ok (s_oct (la_data a)) /\ bytes_ok (s_oct r).
Proof.
  intros Hok H. unfold l_any_from_ber in H. bind_inv H. destruct a0 as [s1 [h raw]]. bind_inv H. destruct a0 as [s2 data]. inv H.
  destruct (l_header_split _ _ _ _ Hok (or_introl E)) as (ib & lb & Es & -> & Hr & Hl & A1).
  assert (Hok1 : bytes_ok (s_oct s1)).
  { rewrite Es in Hok. apply bytes_ok_app in Hok as [_ Hok]. now apply bytes_ok_app in Hok. }
  destruct (l_content_split _ _ _ _ _ Hok1 E0) as (tl & Es1 & Ad & A2 & Hn & Hb). cbn [la_header la_raw la_data].
  rewrite Es, Es1 in Hok. exists ib, lb, tl. rewrite Es, Es1, <- !app_assoc, !app_length, Ad, A2, A1.
  apply bytes_ok_app in Hok as [_ Hok]. apply bytes_ok_app in Hok as [_ Hok]. apply bytes_ok_app in Hok as [Hd Hok]. apply bytes_ok_app in Hok as [_ Hok].
  repeat (split; [assumption || reflexivity || lia|]). exact Hok.
Qed.

Lemma l_iter_placed conv : (forall a o y, conv a = Ok (o, y) -> bytes_ok (s_oct (la_data a)) ->
    o_header o = la_header a /\ exists data ms, y = Layout (la_raw a) data ms
      /\ holds (s_at (la_data a)) (s_oct (la_data a)) (o_content o) data
      /\ placed_members (s_at (la_data a)) (s_oct (la_data a)) (o_content o) ms) ->
  forall fuel data l ys, bytes_ok (s_oct data) -> l_iter_collect conv fuel data = Ok (l, ys) ->
    placed_all (s_at data) (s_oct data) l ys.
Proof.
  intros Hc. induction fuel as [|fuel IH]; intros data l ys Hok H; cbn [l_iter_collect] in H;
    destruct (s_oct data) as [|x i] eqn:Ed; try discriminate; try (inv H; constructor).
  rewrite <- Ed in *. bind_inv H. destruct a as [r a]. apply map_err_ok in E. bind_inv H. destruct a0 as [o y].
  bind_inv H. destruct a0 as [os ys']. inv H.
  destruct (l_any_split _ _ _ Hok E) as (ib & lb & tl & Es & Eraw & Hr & Hl & Hn & Hb & Ad & Ar & Hokd & Hokr).
  destruct (Hc _ _ _ E0 Hokd) as (Eh & dt & ms & -> & Hh & Hm).
  rewrite Es. apply pa_cons.
  - rewrite Eraw. destruct o as [h k]. cbn in *. subst h. rewrite Ad in *. eapply placed_element; eassumption.
  - rewrite <- Ar. now apply IH.
Qed.

Lemma l_object_placed L d : forall a o y, l_object L d a = Ok (o, y) -> bytes_ok (s_oct (la_data a)) ->
  o_header o = la_header a /\ exists data ms, y = Layout (la_raw a) data ms
    /\ holds (s_at (la_data a)) (s_oct (la_data a)) (o_content o) data
    /\ placed_members (s_at (la_data a)) (s_oct (la_data a)) (o_content o) ms.
Proof.
  induction d as [|d IH]; intros a o y H Hok; [discriminate|]. cbn [l_object] in H.
  assert (Hother : (let* o := try_berobject_from_any L (S d) (any_at a) in
      Ok (o, Layout (la_raw a) (l_kept (la_header a) (la_data a)) [])) = Ok (o, y) ->
    (h_class (la_header a) = Universal -> utag_of (h_tag (la_header a)) <> USequence /\ utag_of (h_tag (la_header a)) <> USet) ->
    o_header o = la_header a /\ exists data ms, y = Layout (la_raw a) data ms
      /\ holds (s_at (la_data a)) (s_oct (la_data a)) (o_content o) data
      /\ placed_members (s_at (la_data a)) (s_oct (la_data a)) (o_content o) ms).
  { clear H. intros H Hns. bind_inv H. inv H. split; [exact (conv_header _ _ _ _ E)|]. eexists _, []. split; [reflexivity|].
    cbn [try_berobject_from_any any_at a_header a_data] in E. unfold l_kept.
    destruct (class_eqb (h_class (la_header a)) Universal) eqn:Ec; cbn [negb] in E |- *.
    - apply class_eqb_spec in Ec. destruct (Hns Ec) as [Hs1 Hs2]. destruct a as [h raw [q c]]. cbn [la_header la_data s_oct s_at] in *.
      destruct (utag_of (h_tag h)) eqn:Et; try congruence.
      all: try (inv E; split; [now constructor|apply pm_leaf; discriminate]).
      + destruct c as [|u c]; [discriminate|]. destruct (h_constructed h); inv E. split; [now apply holds_bits|apply pm_leaf; discriminate].
      + destruct (h_constructed h); [discriminate|]. destruct (negb _); [discriminate|]. destruct (negb _); inv E.
        split; [now constructor|apply pm_leaf; discriminate].
      + bind_inv E. inv E. split; [now constructor|apply pm_leaf; discriminate].
      + bind_inv E. inv E. split; [now constructor|apply pm_leaf; discriminate].
      + destruct (lf_gentime L _ _ _); inv E. split; [now constructor|apply pm_leaf; discriminate].
      + destruct (lf_oid_check L _ _ _); inv E. split; [now constructor|apply pm_leaf; discriminate].
      + destruct (lf_reloid_check L _ _ _); inv E. split; [now constructor|apply pm_leaf; discriminate].
      + destruct (lf_utctime L _ _ _); inv E. split; [now constructor|apply pm_leaf; discriminate].
      + destruct (h_constructed h); inv E. split; [now constructor|apply pm_leaf; discriminate].
      + unfold from_obj_string in E. destruct (h_constructed h); [discriminate|]. destruct (negb _); [discriminate|].
        destruct (negb _); inv E. split; [now constructor|apply pm_leaf; discriminate].
    - inv E. destruct a as [h raw [q c]]. split; [now constructor|apply pm_leaf; discriminate]. }
  change (mkAny (la_header a) (s_oct (la_data a))) with (any_at a) in H.
  destruct (class_eqb (h_class (la_header a)) Universal) eqn:Ec; cbn [negb] in H.
  - destruct (utag_of (h_tag (la_header a))) eqn:Et; try (apply Hother; [exact H|split; congruence]).
    + bind_inv H. bind_inv H. destruct a1 as [l ys]. inv H. split; [reflexivity|]. eexists _, ys. split; [reflexivity|]. cbn [o_content].
      split; [now constructor|]. apply pm_sequence. eapply l_iter_placed; [exact IH|exact Hok|eassumption].
    + bind_inv H. bind_inv H. destruct a1 as [l ys]. inv H. split; [reflexivity|]. eexists _, ys. split; [reflexivity|]. cbn [o_content].
      split; [now constructor|]. apply pm_set. eapply l_iter_placed; [exact IH|exact Hok|eassumption].
  - apply Hother; [exact H|]. intros E. rewrite E in Ec. discriminate.
Qed.

(** What reading the contents of an element that begin at [s] gives. *)
Definition body_at (s r : slice) (raw : slice) (h : header) (k : content) (y : layout) : Prop :=
  exists c tl data ms, s_oct s = c ++ tl ++ s_oct r /\ s_at r = (s_at s + length c + length tl)%nat
    /\ match h_length h with Definite n => n = N.of_nat (length c) /\ tl = [] | Indefinite => length tl = 2%nat end
    /\ (exists e, body e h (c ++ tl))
    /\ y = Layout raw data ms /\ holds (s_at s) c k data /\ placed_members (s_at s) c k ms.

Lemma l_content_as_body L s raw t l pc d r k y : bytes_ok (s_oct s) ->
  l_content_as L s raw t l pc d = Ok (r, (k, y)) -> body_at s r raw (header_new Universal pc t l) k y.
Proof.
  intros Hok H. unfold l_content_as in H. set (h := header_new Universal pc t l) in *.
  assert (H' : (let* (r, data) := l_get_content s h d in
    let* (o, y) := map_err nerr_of_err (l_object L d (mkLany h raw data)) in Ok (r, (o_content o, y))) = Ok (r, (k, y))).
  { destruct l as [n|]; [|exact H]. destruct (MAX_OBJECT_SIZE <? n); [discriminate|]. destruct (nlen (s_oct s) <? n); [discriminate|exact H]. }
  clear H. bind_inv H'. destruct a as [r' data]. bind_inv H'. destruct a as [o y']. inv H'. apply map_err_ok in E0.
  destruct (l_content_split _ _ _ _ _ Hok E) as (tl & Es & Ad & Ar & Hn & Hb).
  apply l_object_placed in E0; [|cbn; rewrite Es in Hok; now apply bytes_ok_app in Hok].
  destruct E0 as (_ & dt & ms & -> & Hh & Hm). cbn [la_raw la_data] in *. rewrite Ad in *.
  exists (s_oct data), tl, dt, ms. repeat (split; [assumption || reflexivity || (eexists; eassumption)|]). assumption.
Qed.

Lemma l_der_bits_body s raw t n r k y : l_der_content_bitstring s raw n = Ok (r, (k, y)) ->
  body_at s r raw (header_new Universal false t (Definite n)) k y.
Proof.
  unfold l_der_content_bitstring. destruct (s_oct s) as [|u i] eqn:Es; [discriminate|].
  destruct (7 <? u); [discriminate|]. destruct (n =? 0) eqn:En; [discriminate|]. intros H. bind_inv H. destruct a as [s2 data].
  pose proof (tracks_ok _ _ _ _ _ _ (l_take_tracks _ _) E) as (c & Ec & (pre & Ep & Ap) & (<- & Ad)).
  apply take_streaming_ok in Ec as [Ec Hl]. rewrite Ec in Ep. apply app_inv_tail in Ep. subst pre.
  cbn [s_drop s_oct s_at] in *. rewrite Es in Ec. cbn in Ec.
  assert (Hk : Ok (s2, (CBitString u (s_oct data), Layout raw (Some data) [])) = Ok (E := nerr berror) (r, (k, y))).
  { destruct (1 <? n); [|exact H]. destruct (nth_error _ _); [|discriminate]. destruct (unused_bits_zero _ _); [exact H|discriminate]. }
  inv Hk. exists (u :: s_oct data), [], (Some data), []. cbn [app length]. rewrite Es. split; [reflexivity|].
  split; [lia|]. split; [split; [unfold nlen in Hl; lia|reflexivity]|].
  split; [exists 1%nat; eapply body_definite; [reflexivity|]; unfold nlen in Hl; rewrite app_nil_r; cbn [length]; lia|]. split; [reflexivity|]. split.
  - destruct data as [ad od]. cbn in Ad |- *. subst ad. now apply holds_bits.
  - apply pm_leaf; discriminate.
Qed.

Lemma l_der_content_as_body L s raw t l pc d r k y : bytes_ok (s_oct s) ->
  l_der_content_as L s raw t l pc d = Ok (r, (k, y)) -> body_at s r raw (header_new Universal pc t l) k y.
Proof.
  intros Hok H. unfold l_der_content_as in H. bind_inv H. apply map_err_ok in E. destruct l as [n|]; [|discriminate]. inv E.
  pose proof (l_content_as_body L s raw t (Definite a) pc d r k y Hok) as Hb.
  destruct (nlen (s_oct s) <? a); [discriminate|].
  destruct (utag_of t); try (now apply Hb); try (destruct pc; [discriminate|now apply Hb]).
  - destruct pc; [discriminate|]. now apply l_der_bits_body.
  - destruct (negb (a =? 1)); [discriminate|]. destruct (s_oct s); [discriminate|]. destruct (_ && _); [discriminate|now apply Hb].
  - destruct (_ || _); [discriminate|now apply Hb].
  - destruct (firstn (N.to_nat a) (s_oct s)) as [|b0 [|b1 x]]; [discriminate|now apply Hb|].
    destruct (_ && _); [discriminate|]. destruct (_ && _); [discriminate|now apply Hb].
  - destruct (_ || _); [discriminate|now apply Hb].
Qed.

Lemma body_placed s s1 r h raw k y : bytes_ok (s_oct s) ->
  l_header_from_ber s = Ok (s1, (h, raw)) \/ l_header_from_der s = Ok (s1, (h, raw)) ->
  (bytes_ok (s_oct s1) -> exists h', body_at s1 r raw h' k y /\ h_length h' = h_length h /\ h_constructed h' = h_constructed h) ->
  exists bs, s_oct s = bs ++ s_oct r /\ s_at r = (s_at s + length bs)%nat /\ placed (s_at s) bs (Obj h k) y.
Proof.
  intros Hok H Hb. destruct (l_header_split _ _ _ _ Hok H) as (ib & lb & Es & -> & Hr & Hl & A1).
  assert (Hok1 : bytes_ok (s_oct s1)).
  { rewrite Es in Hok. apply bytes_ok_app in Hok as [_ Hok]. now apply bytes_ok_app in Hok. }
  destruct (Hb Hok1) as (h' & (c & tl & data & ms & E1 & A2 & Hn & [e He] & -> & Hh & Hm) & El & Ec). rewrite El in Hn. rewrite A1 in *.
  exists (ib ++ lb ++ c ++ tl). rewrite Es, E1, <- !app_assoc, !app_length. split; [reflexivity|]. split; [lia|].
  eapply placed_element; try eassumption. eapply body_ext; [| |exact He]; auto.
Qed.

(** The readers of an element, with the limit of nesting or the type they ask for. *)
Inductive element_reader (L : leaves) : (slice -> res (nerr berror) (slice * (obj * layout))) -> Prop :=
| reader_ber d : element_reader L (fun s => l_parse_ber_recursive L s d)
| reader_ber_with_tag t : element_reader L (fun s => l_parse_ber_with_tag L s t)
| reader_der d : element_reader L (fun s => l_parse_der_recursive L s d)
| reader_der_with_tag t : element_reader L (fun s => l_parse_der_with_tag L s t).

(** The tag of every object is borrowed from the first octets of its element, contents
    from the octets behind the header, member for member; what is left begins behind the
    element. *)
Theorem C121_placed : forall L f p i r o y, element_reader L f -> bytes_ok i ->
  f (mkSlice p i) = Ok (r, (o, y)) ->
  exists bs, i = bs ++ s_oct r /\ s_at r = (p + length bs)%nat /\ placed p bs o y.
Proof.
  intros L f p i r o y Hf Hok. destruct Hf as [d|t|d|t].
  - intros H. unfold l_parse_ber_recursive in H. destruct (d =? 0)%nat; [discriminate|]. bind_inv H. destruct a as [r' a].
    bind_inv H. inv H. apply map_err_ok in E0.
    destruct (l_any_split (mkSlice p i) _ _ Hok E) as (ib & lb & tl & Es & Eraw & Hr & Hl & Hn & Hb & Ad & Ar & Hokd & Hokr).
    destruct (l_object_placed _ _ _ _ _ E0 Hokd) as (Eh & dt & ms & -> & Hh & Hm). cbn [s_oct s_at] in *.
    exists (ib ++ lb ++ s_oct (la_data a) ++ tl). split; [exact Es|]. split; [exact Ar|].
    rewrite Eraw. destruct o as [h k]. cbn in Eh, Hh, Hm. subst h. rewrite Ad in *. eapply placed_element; eassumption.
  - intros H. unfold l_parse_ber_with_tag in H. bind_inv H. destruct a as [s1 [h raw]]. bind_inv H. bind_inv H. destruct a0 as [s2 [c y']]. inv H.
    apply (body_placed (mkSlice p i) s1 _ _ raw); [exact Hok|now left|]. intros Hok1. eexists. split; [eapply l_content_as_body; eassumption|auto].
  - intros H. unfold l_parse_der_recursive in H. bind_inv H. destruct a as [s1 [h raw]].
    assert (H' : l_der_content_recursive L s1 h raw d = Ok (r, (o, y))).
    { destruct (h_length h); [|exact H]. destruct (MAX_OBJECT_SIZE <? n); [discriminate|exact H]. }
    clear H. rename H' into H. unfold l_der_content_recursive in H.
    assert (Hu : (let* (r, data) := l_get_content s1 h d in
       Ok (r, (Obj h (CUnknown (mkAny h (s_oct data))), Layout raw (Some data) []))) = Ok (r, (o, y)) ->
      exists bs, i = bs ++ s_oct r /\ s_at r = (p + length bs)%nat /\ placed p bs o y).
    { clear H. intros H. bind_inv H. destruct a as [r' data]. inv H.
      apply (body_placed (mkSlice p i) s1 _ _ raw); [exact Hok|now right|]. intros Hok1. exists h. split; [|auto].
      destruct (l_content_split _ _ _ _ _ Hok1 E0) as (tl & Es & Ad & Ar & Hn & Hb).
      exists (s_oct data), tl, (Some data), []. repeat (split; [assumption || reflexivity || (eexists; eassumption)|]). split.
      - destruct data as [ad od]. cbn in Ad |- *. subst ad. now apply holds_all.
      - apply pm_leaf; discriminate. }
    destruct (h_class h); try exact (Hu H).
    destruct (l_der_content_as L s1 raw _ _ _ _) as [[r' [c y']]|[e|e|e]| |] eqn:Ed; try discriminate.
    + inv H. apply (body_placed (mkSlice p i) s1 _ _ raw); [exact Hok|now right|]. intros Hok1. eexists. split; [eapply l_der_content_as_body; eassumption|auto].
    + destruct e; try discriminate. exact (Hu H).
  - intros H. unfold l_parse_der_with_tag in H. bind_inv H. destruct a as [s1 [h raw]]. bind_inv H. bind_inv H. destruct a0 as [s2 [c y']]. inv H.
    apply (body_placed (mkSlice p i) s1 _ _ raw); [exact Hok|now right|]. intros Hok1. eexists. split; [eapply l_der_content_as_body; eassumption|auto].
Qed.
Print Assumptions C121_placed.

(** ** Consequences *)

Lemma lies_more s p i a b : lies s (p + length a) i -> lies s p (a ++ i ++ b).
Proof.
  intros (pre & post & -> & E). exists (a ++ pre), (post ++ b). rewrite app_length, <- !app_assoc. split; [reflexivity|lia].
Qed.

Lemma placed_lies :
  (forall p bs o y, placed p bs o y -> Forall (fun s => lies s p bs) (borrows y))
  /\ (forall q c k ms, placed_members q c k ms -> Forall (fun s => lies s q c) (flat_map borrows ms))
  /\ (forall q c os ys, placed_all q c os ys -> Forall (fun s => lies s q c) (flat_map borrows ys)).
Proof.
  apply placed_mut.
  - intros p ib lb c tl h k data ms e Hr Hl Hn Hb Hh Hm IH. cbn [borrows].
    assert (Hin : forall s, lies s (p + length ib + length lb) c -> lies s p (ib ++ lb ++ c ++ tl)).
    { intros s Hs. rewrite (app_assoc ib). apply lies_more. rewrite app_length, Nat.add_assoc. exact Hs. }
    constructor; [exists [], (lb ++ c ++ tl); cbn; split; [reflexivity|lia]|]. apply Forall_app. split.
    + inv Hh; repeat constructor; apply Hin.
      * exists [], []. cbn. rewrite app_nil_r. split; [reflexivity|lia].
      * exists [u], []. cbn. rewrite app_nil_r. split; [reflexivity|lia].
    + eapply Forall_impl; [|exact IH]. exact Hin.
  - auto.
  - auto.
  - constructor.
  - constructor.
  - intros q bs rest o os y ys _ IH1 _ IH2. cbn [flat_map]. apply Forall_app. split.
    + eapply Forall_impl; [|exact IH1]. intros s Hs. apply (lies_more s q bs [] rest). cbn. now rewrite Nat.add_0_r.
    + eapply Forall_impl; [|exact IH2]. intros s Hs. pose proof (lies_more s q rest bs [] Hs) as H. now rewrite app_nil_r in H.
Qed.

(** Every borrowed slice is made of octets of the element, where they are. *)
Theorem C121_inside : forall L f p i r o y, element_reader L f -> bytes_ok i ->
  f (mkSlice p i) = Ok (r, (o, y)) ->
  exists bs, i = bs ++ s_oct r /\ forall s, In s (borrows y) -> lies s p bs.
Proof.
  intros L f p i r o y Hf Hok H. destruct (C121_placed _ _ _ _ _ _ _ Hf Hok H) as (bs & E & _ & Hp).
  exists bs. split; [exact E|]. intros s Hs. apply (proj1 placed_lies) in Hp. rewrite Forall_forall in Hp. auto.
Qed.
Print Assumptions C121_inside.

Lemma apart_weaken a b l : apart a b l -> forall a' b', (a' <= a)%nat -> (b <= b')%nat -> apart a' b' l.
Proof. induction 1; intros; constructor; try lia. apply IHapart; lia. Qed.
Lemma apart_app a m b l l' : apart a m l -> apart m b l' -> apart a b (l ++ l').
Proof. induction 1; intros Hb; cbn; [eapply apart_weaken; eauto|]. constructor; auto. Qed.

Lemma placed_apart :
  (forall p bs o y, placed p bs o y -> apart p (p + length bs) (borrows y))
  /\ (forall q c k ms, placed_members q c k ms -> apart q (q + length c) (flat_map borrows ms))
  /\ (forall q c os ys, placed_all q c os ys -> apart q (q + length c) (flat_map borrows ys)).
Proof.
  apply placed_mut.
  - intros p ib lb c tl h k data ms e Hr Hl Hn Hb Hh Hm IH. cbn [borrows]. constructor; [cbn; lia|]. cbn [s_at s_oct].
    rewrite !app_length. inv Hh.
    + inv Hm; try discriminate. cbn. repeat constructor; cbn; lia.
    + inv Hm. cbn. repeat constructor; cbn; lia.
    + eapply apart_weaken; [exact IH|lia|lia].
  - auto.
  - auto.
  - intros. constructor. lia.
  - intros. constructor. lia.
  - intros q bs rest o os y ys _ IH1 _ IH2. cbn [flat_map]. rewrite app_length. eapply apart_app; [exact IH1|].
    eapply apart_weaken; [exact IH2|lia|lia].
Qed.

(** No two of them overlap: they lie one behind the other, in the order of the objects;
    so together they are no longer than the element. *)
Theorem C121_apart : forall L f p i r o y, element_reader L f -> bytes_ok i ->
  f (mkSlice p i) = Ok (r, (o, y)) ->
  apart p (s_at r) (borrows y)
  /\ (list_sum (map (fun s => length (s_oct s)) (borrows y)) <= length i - length (s_oct r))%nat.
Proof.
  intros L f p i r o y Hf Hok H. destruct (C121_placed _ _ _ _ _ _ _ Hf Hok H) as (bs & E & Ar & Hp).
  apply (proj1 placed_apart) in Hp. rewrite Ar. split; [exact Hp|]. rewrite E, app_length.
  assert (Hs : forall a b l, apart a b l -> (a + list_sum (map (fun s => length (s_oct s)) l) <= b)%nat).
  { induction 1; cbn; [lia|]. unfold list_sum in IHapart. lia. }
  apply Hs in Hp. lia.
Qed.
Print Assumptions C121_apart.

(** A SEQUENCE of an INTEGER, a BIT STRING, an element with another class and a BOOLEAN, of indefinite
    length, at address 100. *)
Example C121_ex : exists o r,
  l_parse_ber SL (mkSlice 100 (hx "30 80 02 01 05 03 02 00 ff 9f 21 01 aa 01 01 ff 00 00 77"))
    = Ok (r, (o, Layout (mkSlice 100 [48]) None
        [Layout (mkSlice 102 [2]) (Some (mkSlice 104 [5])) [];
         Layout (mkSlice 105 [3]) (Some (mkSlice 108 [255])) [];
         Layout (mkSlice 109 [159; 33]) (Some (mkSlice 112 [170])) [];
         Layout (mkSlice 113 [1]) None []]))
  /\ r = mkSlice 118 [119].
Proof. eexists _, _. split; vm_compute; reflexivity. Qed.
