(** * The DER reader. *)

From Verif Require Import Base Asn1rs Ber Der Spec LemBase LemHeader LemSkip LemParse.

(** ** Tag numbers of the [match] arms *)

Definition utag_number (u : utag) : option tag :=
  match u with
  | UBitString => Some 3 | UBmpString => Some 30 | UBoolean => Some 1 | UEndOfContent => Some 0
  | UEnumerated => Some 10 | UGeneralizedTime => Some 24 | UInteger => Some 2 | UNull => Some 5
  | UOctetString => Some 4 | UOid => Some 6 | URelativeOid => Some 13 | USequence => Some 16
  | USet => Some 17 | UUtcTime => Some 23 | UUniversalString => Some 28
  | UStr k => Some (tag_of_strkind k)
  | UOther => None
  end.

Lemma utag_of_inv t u : utag_of t = u ->
  match utag_number u with Some k => t = k | None => True end.
Proof.
  intros <-. unfold utag_of.
  repeat match goal with
    | |- context [if t =? ?k then _ else _] =>
        let E := fresh in destruct (t =? k) eqn:E; [apply N.eqb_eq in E; exact E|clear E]
    end.
  exact I.
Qed.

Ltac utag H := apply utag_of_inv in H; cbn [utag_number tag_of_strkind] in H.

(** ** Errors under a larger limit *)

Lemma iter_err conv conv' (e : berror) :
  (forall a o, conv a = Ok o -> conv' a = Ok o) ->
  (forall a, conv a = Err e -> conv' a = Err e) ->
  forall fuel data, iter_collect conv fuel data = Err e -> iter_collect conv' fuel data = Err e.
Proof.
  intros H1 H2. induction fuel as [|fuel IH]; intros [|x data] H; cbn [iter_collect] in *; try discriminate.
  destruct (map_err err_of_nerr (any_from_ber (x :: data))) as [[r a]| | |]; cbn [bind] in *; try exact H.
  destruct (conv a) as [o|e'| |] eqn:E; cbn [bind] in *; try discriminate.
  - rewrite (H1 _ _ E). cbn [bind]. destruct (iter_collect conv fuel r) as [l|e'| |] eqn:E2;
      cbn [bind] in H; try discriminate.
    inv H. rewrite (IH _ E2). reflexivity.
  - inv H. rewrite (H2 _ E). reflexivity.
Qed.

Lemma conv_mono_err L e : e <> BerMaxDepth -> forall d d' a, (d <= d')%nat ->
  try_berobject_from_any L d a = Err e -> try_berobject_from_any L d' a = Err e.
Proof.
  intros He. induction d as [|d IH]; intros d' a Hd H.
  - cbn in H. congruence.
  - destruct d' as [|d']; [lia|]. cbn [try_berobject_from_any] in *.
    destruct (negb (class_eqb (h_class (a_header a)) Universal)); [exact H|].
    destruct (utag_of (h_tag (a_header a))); try exact H.
    all: destruct (assert_constructed (a_header a)); cbn [bind] in *; try exact H.
    all: destruct (iter_collect (try_berobject_from_any L d) (length (a_data a)) (a_data a))
           as [l|e'| |] eqn:E; cbn [bind] in H; try discriminate; inv H.
    all: rewrite (iter_err _ (try_berobject_from_any L d') e
           (fun a o => conv_mono L d d' a o ltac:(lia))
           (fun a => IH d' a ltac:(lia)) _ _ E); reflexivity.
Qed.

(** ** [der_read_element_content_as] *)

Lemma unused_bits_spec n b : unused_bits_zero n b = true <-> b mod 2 ^ N.of_nat n = 0.
Proof.
  revert b. induction n as [|n IH]; intros b; cbn [unused_bits_zero].
  - change (N.of_nat 0) with 0. rewrite N.pow_0_r, N.mod_1_r. tauto.
  - replace (N.of_nat (S n)) with (N.succ (N.of_nat n)) by lia. rewrite N.pow_succ_r'.
    rewrite N.shiftr_div_pow2. change (2 ^ 1) with 2.
    change 1 with (N.ones 1). rewrite N.land_ones. change (2 ^ 1) with 2.
    pose proof (N.pow_nonzero 2 (N.of_nat n) ltac:(lia)) as Hp.
    set (P := 2 ^ N.of_nat n) in *.
    assert (Hm : b mod (2 * P) = b mod 2 + 2 * ((b / 2) mod P)).
    { rewrite N.mod_mul_r by lia. lia. }
    rewrite Hm. clear Hm.
    destruct (b mod 2 =? 0) eqn:E; cbn [negb].
    + rewrite IH. fold P. apply N.eqb_eq in E. rewrite E.
      generalize ((b / 2) mod P). intros q. split; intros; nia.
    + split; [discriminate|]. apply N.eqb_neq in E. generalize ((b / 2) mod P). intros q Hq.
      exfalso. apply E. generalize dependent (b mod 2). intros; nia.
Qed.

(** BIT STRING. *)
Definition der_bits (c : bytes) (k : content) : Prop :=
  exists u data, c = u :: data /\ u <= 7 /\ k = CBitString u data
    /\ (data <> [] -> last data 0 mod 2 ^ u = 0).

Lemma nth_error_last (data : bytes) n : length data = S n -> nth_error data n = Some (last data 0).
Proof.
  revert n. induction data as [|x data IH]; intros n H; [discriminate|].
  destruct data as [|y data]; cbn [length] in H.
  - destruct n; [reflexivity|discriminate].
  - destruct n as [|n]; [discriminate|]. cbn [nth_error]. change (last (x :: y :: data) 0) with (last (y :: data) 0).
    apply IH. cbn [length]. lia.
Qed.

Lemma der_bitstring_ok i n r k :
  der_read_content_bitstring i n = Ok (r, k)
  <-> exists c, i = c ++ r /\ nlen c = n /\ der_bits c k.
Proof.
  unfold der_read_content_bitstring, der_bits. split.
  - destruct i as [|u i]; cbn [be_u8 bind]; [discriminate|].
    destruct (7 <? u) eqn:Eu; [discriminate|]. destruct (n =? 0) eqn:En; [discriminate|].
    intros H. bind_inv H. destruct a as [i2 data]. apply take_streaming_ok in E as [-> E].
    assert (Hr : i2 = r /\ k = CBitString u data /\ (1 <? n = true -> exists x,
      nth_error data (N.to_nat (n - 2)) = Some x /\ unused_bits_zero (N.to_nat u) x = true)).
    { destruct (1 <? n) eqn:E1.
      - destruct (nth_error data (N.to_nat (n - 2))) as [x|]; [|discriminate].
        destruct (unused_bits_zero (N.to_nat u) x) eqn:Ez; [|discriminate]. inv H. eauto.
      - inv H. repeat split; discriminate. }
    destruct Hr as (-> & -> & Hx). exists (u :: data). split; [reflexivity|].
    split; [rewrite nlen_cons; lia|]. exists u, data. repeat split; try lia.
    intros Hd. assert (1 <? n = true) as H1.
    { destruct data; [easy|]. rewrite nlen_cons in E. lia. }
    apply Hx in H1 as (x & Hn & Hz). apply unused_bits_spec in Hz.
    rewrite N2Nat.id in Hz. unfold nlen in E.
    rewrite nth_error_last in Hn.
    + inv Hn. exact Hz.
    + destruct data; [easy|]. cbn [length] in *. lia.
  - intros (c & -> & Hn & u & data & -> & Hu & -> & Hl). cbn [app be_u8 bind].
    rewrite nlen_cons in Hn. destruct (7 <? u) eqn:Eu; [lia|]. destruct (n =? 0) eqn:En; [lia|].
    assert (Ht : take_streaming (E := berror) (n - 1) (data ++ r) = Ok (r, data)).
    { apply take_streaming_ok. split; [reflexivity|lia]. }
    rewrite Ht. cbn [bind]. destruct (1 <? n) eqn:E1; [|reflexivity].
    unfold nlen in Hn. rewrite nth_error_last by lia.
    replace (unused_bits_zero (N.to_nat u) (last data 0)) with true; [reflexivity|].
    symmetry. apply unused_bits_spec. rewrite N2Nat.id. apply Hl. intros ->. cbn in Hn. lia.
Qed.

Lemma der_bitstring_not_unknown i n t : der_read_content_bitstring i n <> Err (Error (UnknownTag t)).
Proof.
  unfold der_read_content_bitstring. destruct i as [|u i]; cbn [be_u8 bind]; [discriminate|].
  destruct (7 <? u); [discriminate|]. destruct (n =? 0); [discriminate|].
  unfold take_streaming. destruct (nlen i <? n - 1); cbn [bind]; [discriminate|].
  destruct (1 <? n); [|discriminate].
  destruct (nth_error (firstn (N.to_nat (n - 1)) i) (N.to_nat (n - 2))); [|discriminate].
  destruct (unused_bits_zero (N.to_nat u) n0); discriminate.
Qed.

(** The element passes the checks of the DER layer. *)
Definition accepted {A} (R : iresult berror A) : Prop :=
  (exists v, R = Ok v) \/ (exists t, R = Err (Error (UnknownTag t))).

Lemma firstn_app_nlen (c r : bytes) : firstn (N.to_nat (nlen c)) (c ++ r) = c.
Proof. unfold nlen. rewrite Nat2N.id. apply firstn_app_exact. Qed.

Lemma last_octet (c : bytes) : c <> [] ->
  exists s, c = s ++ [match nth_error c (length c - 1) with Some b => b | None => 0 end].
Proof.
  intros Hc. destruct (exists_last Hc) as (s & x & ->). exists s. f_equal. f_equal.
  rewrite app_length. cbn [length]. rewrite nth_error_app2 by lia.
  replace (length s + 1 - 1 - length s)%nat with 0%nat by lia. reflexivity.
Qed.

Lemma der_content_as_inv L i t l pc d :
  let R := der_read_element_content_as L i t l pc d in
  accepted R ->
  exists c r, i = c ++ r /\ l = Definite (nlen c)
    /\ ((t = 3 /\ pc = false /\ R = der_read_content_bitstring i (nlen c))
        \/ (t <> 3 /\ der_checked t pc c /\ R = ber_read_element_content_as L i t l pc d)).
Proof.
  cbn zeta. unfold der_read_element_content_as.
  assert (Herr : forall e : berror, (forall t, e <> UnknownTag t) ->
            ~ accepted (A := content) (Err (Error e))).
  { intros e He [[v Hv]|[u Hu]]; [discriminate|]. inv Hu. eapply He; eauto. }
  destruct l as [n|]; cbn [length_definite map_err nerr_of_err bind].
  2:{ intros H. exfalso. revert H. apply Herr. discriminate. }
  destruct (nlen i <? n) eqn:En.
  { intros [[v Hv]|[u Hu]]; discriminate. }
  set (c := firstn (N.to_nat n) i). set (r := skipn (N.to_nat n) i).
  assert (Hi : i = c ++ r) by (unfold c, r; now rewrite firstn_skipn).
  assert (Hn : n = nlen c).
  { unfold c, nlen. rewrite firstn_length. unfold nlen in En. lia. }
  assert (Hf : firstn (N.to_nat n) i = c) by reflexivity. clearbody c r.
  intros H. exists c, r. split; [exact Hi|]. split; [now rewrite <- Hn|].
  revert H.
  assert (Hnt : forall k, In t string_tags -> utag_of t = k ->
     match k with UStr _ | UBmpString | UUniversalString => True | _ => False end).
  { intros k Hin <-. cbn in Hin.
    repeat (destruct Hin as [<-|Hin]; [exact I|]). destruct Hin. }
  destruct (utag_of t) eqn:Et.
  all: try (intros H; right; assert (t <> 3) by (intros ->; discriminate);
    split; [assumption|]; split; [|reflexivity];
    assert (Hs : ~ In t string_tags) by (intros Hin; exact (Hnt _ Hin eq_refl));
    repeat split; try (intros ->; discriminate); try (intros Hin; contradiction);
    intros [->| ->]; discriminate).
  - (* BIT STRING *) utag Et. destruct pc; intros H; [exfalso; revert H; apply Herr; discriminate|].
    left. repeat split; auto. now rewrite <- Hn.
  - (* BMPString *) utag Et. destruct pc; intros H; [exfalso; revert H; apply Herr; discriminate|].
    right. split; [lia|]. split; [|reflexivity]. repeat split; intros; subst; try discriminate; auto.
    lia.
  - (* BOOLEAN *) utag Et. destruct (n =? 1) eqn:E1; cbn [negb]; intros H;
      [|exfalso; revert H; apply Herr; discriminate].
    right. split; [lia|].
    assert (n = 1) by lia. subst n. destruct c as [|b [|]] eqn:Ec;
      [rewrite nlen_nil in *; lia| |rewrite !nlen_cons in *; lia].
    rewrite Hi in H |- *. cbn [app] in *.
    destruct (negb (b =? 0) && negb (b =? 255)) eqn:Eb; [exfalso; revert H; apply Herr; discriminate|].
    split; [|reflexivity]. repeat split; intros; subst; try discriminate; auto; try lia.
    + assert (b = 0 \/ b = 255) as [->| ->] by lia; auto.
    + match goal with Hin : In _ string_tags |- _ => destruct (Hnt _ Hin eq_refl) end.
  - (* GeneralizedTime *) utag Et.
    destruct (n =? 0) eqn:E0; cbn [orb]; intros H; [exfalso; revert H; apply Herr; discriminate|].
    right. split; [lia|].
    assert (Hc : c <> []) by (intros ->; rewrite nlen_nil in Hn; lia).
    destruct (last_octet c Hc) as (s & Hl).
    replace (N.to_nat (n - 1)) with (length c - 1)%nat in * by (unfold nlen in Hn; lia).
    rewrite Hi in H at 1. rewrite Hi at 1.
    rewrite nth_error_app1 in * by (destruct c; [easy|cbn [length]; lia]).
    destruct (nth_error c (length c - 1)) as [b|]; cbn [negb] in *;
      [|exfalso; revert H; apply Herr; discriminate].
    destruct (b =? 90) eqn:Eb; cbn [negb] in *; [|exfalso; revert H; apply Herr; discriminate].
    assert (b = 90) by lia. subst b.
    split; [|reflexivity]. repeat split; intros; subst; try discriminate; eauto; try lia.
    match goal with Hin : In _ string_tags |- _ => destruct (Hnt _ Hin eq_refl) end.
  - (* INTEGER *) utag Et. intros H. right. split; [lia|].
    assert (Hs : In t string_tags -> pc = false).
    { intros Hin. destruct (Hnt _ Hin eq_refl). }
    destruct c as [|b0 [|b1 c']].
    + exfalso; revert H; apply Herr; discriminate.
    + split; [|reflexivity]. repeat split; intros; subst; try discriminate; auto; lia.
    + destruct ((b0 =? 0) && (b1 =? 0)) eqn:E1; [exfalso; revert H; apply Herr; discriminate|].
      destruct ((b0 =? 0) && (b1 <? 128)) eqn:E2; [exfalso; revert H; apply Herr; discriminate|].
      split; [|reflexivity]. repeat split; intros; subst; try discriminate; auto; lia.
  - (* UTCTime *) utag Et.
    destruct (n =? 0) eqn:E0; cbn [orb]; intros H; [exfalso; revert H; apply Herr; discriminate|].
    right. split; [lia|].
    assert (Hc : c <> []) by (intros ->; rewrite nlen_nil in Hn; lia).
    destruct (last_octet c Hc) as (s & Hl).
    replace (N.to_nat (n - 1)) with (length c - 1)%nat in * by (unfold nlen in Hn; lia).
    rewrite Hi in H at 1. rewrite Hi at 1.
    rewrite nth_error_app1 in * by (destruct c; [easy|cbn [length]; lia]).
    destruct (nth_error c (length c - 1)) as [b|]; cbn [negb] in *;
      [|exfalso; revert H; apply Herr; discriminate].
    destruct (b =? 90) eqn:Eb; cbn [negb] in *; [|exfalso; revert H; apply Herr; discriminate].
    assert (b = 90) by lia. subst b.
    split; [|reflexivity]. repeat split; intros; subst; try discriminate; eauto; try lia.
    match goal with Hin : In _ string_tags |- _ => destruct (Hnt _ Hin eq_refl) end.
  - (* UniversalString *) utag Et. destruct pc; intros H; [exfalso; revert H; apply Herr; discriminate|].
    right. split; [lia|]. split; [|reflexivity]. repeat split; intros; subst; try discriminate; auto.
    lia.
  - (* strings *) assert (t <> 3 /\ t <> 1 /\ t <> 2 /\ t <> 23 /\ t <> 24) as (?&?&?&?&?).
    { utag Et. destruct k; cbn in Et; repeat split; subst t; discriminate. }
    destruct pc; intros H'; [exfalso; revert H'; apply Herr; discriminate|].
    right. split; [assumption|]. split; [|reflexivity]. repeat split; intros; try lia; auto.
Qed.

Lemma der_content_as_intro L t pc d c r :
  t <> 3 -> der_checked t pc c ->
  der_read_element_content_as L (c ++ r) t (Definite (nlen c)) pc d
  = ber_read_element_content_as L (c ++ r) t (Definite (nlen c)) pc d.
Proof.
  intros H3 (Hb & Hi & Hs & Ht). unfold der_read_element_content_as.
  cbn [length_definite map_err nerr_of_err bind].
  destruct (nlen (c ++ r) <? nlen c) eqn:En; [rewrite nlen_app in En; lia|].
  rewrite firstn_app_nlen.
  assert (Htime : t = 23 \/ t = 24 ->
    (nlen c =? 0) || negb match nth_error (c ++ r) (N.to_nat (nlen c - 1)) with
                          | Some b => b =? 90 | None => false end = false).
  { intros H. apply Ht in H as (s & ->).
    rewrite nlen_app, nlen_cons, nlen_nil. rewrite <- app_assoc, nth_error_app2 by (unfold nlen; lia).
    replace (N.to_nat (nlen s + (1 + 0) - 1) - length s)%nat with 0%nat by (unfold nlen; lia).
    cbn. destruct (nlen s + 1 =? 0) eqn:E; [lia|reflexivity]. }
  destruct (utag_of t) eqn:Et; try reflexivity; utag Et.
  - contradiction.
  - rewrite Hs by (subst; cbn; tauto). reflexivity.
  - destruct (Hb Et) as [->| ->]; reflexivity.
  - rewrite Htime by auto. reflexivity.
  - specialize (Hi Et). destruct c as [|b0 [|b1 c']]; [contradiction|reflexivity|].
    destruct ((b0 =? 0) && (b1 =? 0)) eqn:E1; [lia|].
    destruct ((b0 =? 0) && (b1 <? 128)) eqn:E2; [lia|]. reflexivity.
  - rewrite Htime by auto. reflexivity.
  - rewrite Hs by (subst; cbn; tauto). reflexivity.
  - rewrite Hs; [reflexivity|]. subst t. destruct k; cbn; tauto.
Qed.

Lemma der_content_as_bits L d c r :
  der_read_element_content_as L (c ++ r) 3 (Definite (nlen c)) false d
  = der_read_content_bitstring (c ++ r) (nlen c).
Proof.
  unfold der_read_element_content_as. cbn [length_definite map_err nerr_of_err bind].
  destruct (nlen (c ++ r) <? nlen c) eqn:En; [rewrite nlen_app in En; lia|]. reflexivity.
Qed.

Lemma der_bitstring_total i n : n <= nlen i -> total (der_read_content_bitstring i n).
Proof.
  intros Hn. unfold der_read_content_bitstring. destruct i as [|u i]; cbn [be_u8 bind]; [auto with total|].
  destruct (7 <? u); [auto with total|]. destruct (n =? 0) eqn:E0; [auto with total|].
  apply total_bind; [apply take_streaming_total|]. intros [i2 data] E.
  apply take_streaming_ok in E as [-> E]. destruct (1 <? n) eqn:E1; [|auto with total].
  destruct (nth_error data (N.to_nat (n - 2))) eqn:E2.
  - destruct (unused_bits_zero (N.to_nat u) n0); auto with total.
  - apply nth_error_None in E2. unfold nlen in *. lia.
Qed.

Lemma der_content_as_total L i t l pc d : total (der_read_element_content_as L i t l pc d).
Proof.
  unfold der_read_element_content_as. apply total_bind.
  { apply total_map_err. destruct l; cbn; auto with total. }
  intros n _. destruct (nlen i <? n) eqn:En; [auto with total|].
  destruct (utag_of t); auto with total.
  - destruct pc; [auto with total|]. apply der_bitstring_total. lia.
  - destruct pc; auto with total.
  - destruct (n =? 1) eqn:E1; cbn [negb]; [|auto with total].
    destruct i as [|b i]; [rewrite nlen_nil in En; lia|].
    destruct (negb (b =? 0) && negb (b =? 255)); auto with total.
  - match goal with |- context [if ?x then _ else _] => destruct x end; auto with total.
  - destruct (firstn (N.to_nat n) i) as [|b0 [|b1 c]]; auto with total.
    destruct ((b0 =? 0) && (b1 =? 0)); [auto with total|].
    destruct ((b0 =? 0) && (b1 <? 128)); auto with total.
  - match goal with |- context [if ?x then _ else _] => destruct x end; auto with total.
  - destruct pc; auto with total.
  - destruct pc; auto with total.
Qed.
#[export] Hint Resolve der_content_as_total : total.

Lemma der_recursive_total L i h d : total (der_read_element_content_recursive L i h d).
Proof.
  unfold der_read_element_content_recursive.
  assert (Hu : total (let* (r, data) := ber_get_object_content i h d in
                      Ok (r, Obj h (CUnknown (mkAny h data))))).
  { apply total_bind; [auto with total|]. intros [r data] _. auto with total. }
  destruct (h_class h); auto.
  destruct (der_content_as_total L i (h_tag h) (h_length h) (h_constructed h) d) as [H1 H2].
  destruct (der_read_element_content_as L i (h_tag h) (h_length h) (h_constructed h) d)
    as [[r c]|[n|e|e]| |]; try congruence; auto with total.
  destruct e; auto with total.
Qed.

Lemma parse_der_total L i d : total (parse_der_recursive L i d).
Proof.
  unfold parse_der_recursive, der_read_element_header.
  apply total_bind; [apply header_from_der_total|]. intros [i1 h] _.
  destruct (h_length h); [|apply der_recursive_total].
  destruct (MAX_OBJECT_SIZE <? n); [auto with total|apply der_recursive_total].
Qed.

Lemma der_with_tag_total L i t : total (parse_der_with_tag L i t).
Proof.
  unfold parse_der_with_tag, der_read_element_header. apply total_bind; [apply header_from_der_total|].
  intros [i1 h] _. apply total_bind.
  - apply total_map_err. unfold assert_tag. destruct (h_tag h =? t); auto with total.
  - intros _ _. apply total_bind; [auto with total|]. intros [i2 c] _. auto with total.
Qed.

(** ** What an accepted DER element looks like *)

(** Definite-length content under [ber_get_object_content]. *)
Lemma get_content_definite d c r h : h_length h = Definite (nlen c) ->
  ber_get_object_content (c ++ r) h (S d) = Ok (r, c).
Proof.
  intros El. assert (Hb : body (S d) h c) by (eapply body_definite; eauto).
  rewrite (get_content_complete _ _ _ _ Hb). unfold content_octets. now rewrite El.
Qed.

Lemma get_content_definite_inv d i r c h n : h_length h = Definite n ->
  ber_get_object_content i h d = Ok (r, c) -> i = c ++ r /\ nlen c = n /\ (1 <= d)%nat.
Proof.
  intros El H. pose proof H as H'. apply get_content_any_ok in H'. specialize (H' n El).
  cbn [a_data] in H'. apply get_content_inv in H as (b & -> & -> & H & _).
  unfold content_octets in *. rewrite El in *. split; [reflexivity|]. split; [exact H'|].
  destruct d; [discriminate|lia].
Qed.

(** The header the crate passes to the content reader: class Universal, no
    raw tag (wrap_any.rs:64). *)
Definition plain (h : header) : header :=
  header_new Universal (h_constructed h) (h_tag h) (h_length h).

(** [der_value L d h c k]: what the DER reader makes of content octets [c]
    under header [h], for a universal class. *)
Inductive der_value (L : leaves) (d : nat) (h : header) (c : bytes) : content -> Prop :=
| dv_bits k : h_tag h = 3 -> h_constructed h = false -> der_bits c k -> der_value L d h c k
| dv_ber k :
    h_tag h <> 3 -> der_checked (h_tag h) (h_constructed h) c -> nlen c <= MAX_OBJECT_SIZE ->
    try_berobject_from_any L d (mkAny (plain h) c) = Ok (Obj (plain h) k) ->
    der_value L d h c k.

Lemma der_content_ok L i h d r k :
  der_read_element_content_as L i (h_tag h) (h_length h) (h_constructed h) d = Ok (r, k)
  <-> exists c, i = c ++ r /\ h_length h = Definite (nlen c) /\ der_value L d h c k.
Proof.
  split.
  - intros H. pose proof (der_content_as_inv L i (h_tag h) (h_length h) (h_constructed h) d) as Hi.
    cbn zeta in Hi. rewrite H in Hi.
    destruct Hi as (c & r' & -> & Hl & Hcase); [left; eauto|].
    destruct Hcase as [(H3 & Hp & Hb)|(H3 & Hc & Hb)].
    + symmetry in Hb. apply der_bitstring_ok in Hb as (c' & E & En & Hb).
      assert (c' = c /\ r = r') as [-> ->].
      { unfold nlen in En. apply Nat2N.inj in En.
        pose proof (f_equal (firstn (length c')) E) as F. rewrite firstn_app_exact in F.
        rewrite En, firstn_app_exact in F. subst. apply app_inv_head in E. auto. }
      exists c. split; [reflexivity|]. split; [exact Hl|]. now apply dv_bits.
    + symmetry in Hb. apply content_as_inv in Hb as (data & Hg & Hv & Hn).
      cbn zeta in *. rewrite Hl in Hg.
      apply (get_content_definite_inv _ _ _ _ _ (nlen c)) in Hg as (E & En & _); [|reflexivity].
      assert (data = c /\ r = r') as [-> ->].
      { unfold nlen in En. apply Nat2N.inj in En.
        pose proof (f_equal (firstn (length data)) E) as F. rewrite firstn_app_exact in F.
        rewrite En, firstn_app_exact in F. subst. apply app_inv_head in E. auto. }
      exists c. split; [reflexivity|]. split; [exact Hl|]. apply dv_ber; auto.
  - intros (c & -> & Hl & Hv). destruct Hv as [k H3 Hp Hb|k H3 Hc Hn Hv].
    + rewrite H3, Hp, Hl, der_content_as_bits. apply der_bitstring_ok. eauto.
    + rewrite Hl, der_content_as_intro by assumption. unfold plain in Hv. rewrite Hl in Hv.
      destruct d as [|d]; [discriminate|].
      eapply content_as_intro; [|exact Hv|intros n E; inv E; exact Hn].
      apply get_content_definite. reflexivity.
Qed.

(** The object [o] the DER reader makes of header [h] and content octets [c]. *)
Inductive der_object (L : leaves) (d : nat) (h : header) (c : bytes) : obj -> Prop :=
| do_value k : h_class h = Universal -> der_value L d h c k -> der_object L d h c (Obj h k)
| do_unknown : h_class h <> Universal -> (1 <= d)%nat ->
    der_object L d h c (Obj h (CUnknown (mkAny h c)))
| do_fallback t : h_class h = Universal -> h_tag h <> 3 ->
    der_checked (h_tag h) (h_constructed h) c -> (1 <= d)%nat ->
    try_berobject_from_any L d (mkAny (plain h) c) = Err (UnknownTag t) ->
    der_object L d h c (Obj h (CUnknown (mkAny h c))).

Lemma content_as_err_unknown L i c r t l pc d u :
  i = c ++ r -> l = Definite (nlen c) ->
  ber_read_element_content_as L i t l pc d = Err (Error (UnknownTag u)) <->
  (1 <= d)%nat /\ nlen c <= MAX_OBJECT_SIZE
  /\ try_berobject_from_any L d (mkAny (header_new Universal pc t l) c) = Err (UnknownTag u).
Proof.
  intros -> ->. unfold ber_read_element_content_as, try_read_berobjectcontent_as.
  destruct (MAX_OBJECT_SIZE <? nlen c) eqn:E1.
  { split; [discriminate|lia]. }
  destruct (nlen (c ++ r) <? nlen c) eqn:E2; [rewrite nlen_app in E2; lia|].
  destruct d as [|d].
  { split; [discriminate|]. intros (H & _); lia. }
  rewrite get_content_definite by reflexivity. cbn [bind].
  split.
  - intros H. split; [lia|]. split; [lia|].
    destruct (try_berobject_from_any L (S d) _) as [o|e| |]; cbn in H; try discriminate.
    destruct e; cbn in H; congruence.
  - intros (_ & _ & H). rewrite H. reflexivity.
Qed.

Lemma der_recursive_ok L i h d r o n : h_length h = Definite n -> n <= MAX_OBJECT_SIZE ->
  der_read_element_content_recursive L i h d = Ok (r, o)
  <-> exists c, i = c ++ r /\ h_length h = Definite (nlen c) /\ der_object L d h c o.
Proof.
  intros Hn Hmax. unfold der_read_element_content_recursive.
  assert (Hunk : (let* (r0, data) := ber_get_object_content i h d in
                  Ok (r0, Obj h (CUnknown (mkAny h data)))) = Ok (r, o)
    <-> exists c, i = c ++ r /\ h_length h = Definite (nlen c) /\ (1 <= d)%nat
          /\ o = Obj h (CUnknown (mkAny h c))).
  { split.
    - intros H. bind_inv H. destruct a as [r0 data]. inv H.
      apply (get_content_definite_inv _ _ _ _ _ n Hn) in E as (-> & En & Hd).
      exists data. rewrite En. auto.
    - intros (c & -> & Hl & Hd & ->). destruct d as [|d]; [lia|].
      rewrite get_content_definite by assumption. reflexivity. }
  destruct (h_class h) eqn:Ec.
  2,3,4: rewrite Hunk; split;
    [intros (c & -> & Hl & Hd & ->); exists c; repeat split; auto; apply do_unknown; congruence
    |intros (c & -> & Hl & Hv); exists c; inv Hv; try congruence; auto].
  pose proof (der_content_ok L i h d r) as Hok.
  pose proof (der_content_as_inv L i (h_tag h) (h_length h) (h_constructed h) d) as Hinv.
  cbn zeta in Hinv.
  split.
  - destruct (der_read_element_content_as L i (h_tag h) (h_length h) (h_constructed h) d)
      as [[r' k]|[|e|]| |] eqn:E; try discriminate.
    + intros H. inv H. destruct (Hok k) as [Hk _]. destruct (Hk eq_refl) as (c & -> & Hl & Hv).
      exists c. repeat split; auto. now apply do_value.
    + destruct e; try discriminate. rewrite Hunk. intros (c & -> & Hl & Hd & ->).
      destruct Hinv as (c' & r' & Ei & Hl' & Hcase); [right; eauto|].
      assert (c' = c) as ->.
      { assert (En : nlen c' = nlen c) by congruence. unfold nlen in En. apply Nat2N.inj in En.
        pose proof (f_equal (firstn (length c')) Ei) as F. rewrite firstn_app_exact in F.
        rewrite En, firstn_app_exact in F. now subst. }
      exists c. repeat split; auto. destruct Hcase as [(_ & _ & Hb)|(H3 & Hc & Hb)].
      * symmetry in Hb. now apply der_bitstring_not_unknown in Hb.
      * symmetry in Hb. apply (content_as_err_unknown L _ c r) in Hb as (_ & _ & Hb); auto.
        eapply do_fallback; eauto.
  - intros (c & -> & Hl & Hv). inv Hv.
    + destruct (Hok k) as [_ Hk]. rewrite Hk by eauto. reflexivity.
    + congruence.
    + rewrite Hl, der_content_as_intro by assumption.
      assert (Hb : ber_read_element_content_as L (c ++ r) (h_tag h) (Definite (nlen c))
                     (h_constructed h) d = Err (Error (UnknownTag t))).
      { apply (content_as_err_unknown L _ c r); auto. repeat split; auto.
        - rewrite Hn in Hl. inv Hl. exact Hmax.
        - unfold plain in H3. rewrite Hl in H3. exact H3. }
      rewrite Hb. apply Hunk. eauto 10.
Qed.

Lemma parse_der_iff L i d r o :
  parse_der_recursive L i d = Ok (r, o)
  <-> exists h c, header_from_der i = Ok (c ++ r, h) /\ h_length h = Definite (nlen c)
        /\ nlen c <= MAX_OBJECT_SIZE /\ der_object L d h c o.
Proof.
  unfold parse_der_recursive, der_read_element_header. split.
  - intros H. bind_inv H. destruct a as [i1 h].
    pose proof (header_from_der_ber _ _ _ E) as [_ [n Hn]]. rewrite Hn in H.
    destruct (MAX_OBJECT_SIZE <? n) eqn:Em; [discriminate|].
    assert (Hm : n <= MAX_OBJECT_SIZE) by lia.
    apply (der_recursive_ok _ _ _ _ _ _ n Hn Hm) in H as (c & -> & Hl & Hv).
    exists h, c. repeat split; auto. rewrite Hn in Hl. inv Hl. exact Hm.
  - intros (h & c & E & Hl & Hm & Hv). rewrite E. cbn [bind]. rewrite Hl.
    destruct (MAX_OBJECT_SIZE <? nlen c) eqn:Em; [lia|].
    apply (der_recursive_ok _ _ _ _ _ _ (nlen c) Hl Hm). eauto.
Qed.

Lemma der_with_tag_iff L i t r o :
  parse_der_with_tag L i t = Ok (r, o)
  <-> exists h c k, header_from_der i = Ok (c ++ r, h) /\ h_length h = Definite (nlen c)
        /\ h_tag h = t /\ o = Obj h k /\ der_value L MAX_RECURSION h c k.
Proof.
  unfold parse_der_with_tag, der_read_element_header. split.
  - intros H. bind_inv H. destruct a as [i1 h]. bind_inv H. apply map_err_ok in E0.
    unfold assert_tag in E0. destruct (h_tag h =? t) eqn:Et; [|discriminate].
    apply N.eqb_eq in Et. bind_inv H. destruct a0 as [i2 k]. inv H.
    apply der_content_ok in E1 as (c & -> & Hl & Hv). exists h, c, k. auto.
  - intros (h & c & k & E & Hl & Ht & -> & Hv). rewrite E. cbn [bind].
    unfold assert_tag. rewrite Ht, N.eqb_refl. cbn [map_err bind]. rewrite <- Ht.
    destruct (der_content_ok L (c ++ r) h MAX_RECURSION r k) as [_ Hk]. rewrite Hk by eauto.
    reflexivity.
Qed.

(** Appending octets, raising the limit. *)
Lemma der_value_mono L d d' h c k : (d <= d')%nat -> der_value L d h c k -> der_value L d' h c k.
Proof.
  intros Hd [k' H3 Hp Hb|k' H3 Hc Hn Hv].
  - now apply dv_bits.
  - apply dv_ber; auto. eapply conv_mono; eauto.
Qed.
Lemma der_object_mono L d d' h c o : (d <= d')%nat -> der_object L d h c o -> der_object L d' h c o.
Proof.
  intros Hd [k Hc Hv|Hc H1|t Hc H3 Hk H1 He].
  - apply do_value; [auto|eapply der_value_mono; eauto].
  - apply do_unknown; [auto|lia].
  - eapply do_fallback; eauto; [lia|]. eapply conv_mono_err; eauto. discriminate.
Qed.

Lemma parse_der_app_mono L i x d d' r o : (d <= d')%nat ->
  parse_der_recursive L i d = Ok (r, o) -> parse_der_recursive L (i ++ x) d' = Ok (r ++ x, o).
Proof.
  intros Hd H. apply parse_der_iff in H as (h & c & E & Hl & Hm & Hv). apply parse_der_iff.
  exists h, c. apply (header_from_der_app _ x) in E. rewrite <- app_assoc in E.
  repeat split; auto. eapply der_object_mono; eauto.
Qed.

Lemma der_with_tag_app L i x t r o :
  parse_der_with_tag L i t = Ok (r, o) -> parse_der_with_tag L (i ++ x) t = Ok (r ++ x, o).
Proof.
  intros H. apply der_with_tag_iff in H as (h & c & k & E & Hl & Ht & Ho & Hv).
  apply der_with_tag_iff. exists h, c, k. apply (header_from_der_app _ x) in E.
  rewrite <- app_assoc in E. auto.
Qed.
