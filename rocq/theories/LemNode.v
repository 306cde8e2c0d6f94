(** * Nodes of the decoded tree: values, slices, nesting. *)

From Verif Require Import Base Asn1rs Ber Der Spec SpecValue LemBase LemHeader LemSkip LemParse LemDer LemText LemTree.

(** ** Nodes are values of elements inside the input *)

Lemma series_in L d c l x : series L d c l -> In x l ->
  exists bs c', subslice bs c /\ element 50 (o_header x) c' bs
    /\ value L d (o_header x) c' (o_content x).
Proof.
  induction 1 as [|d bs h c k rest l He Hv Hs IH]; intros Hin; [destruct Hin|].
  destruct Hin as [<-|Hin].
  - exists bs, c. split; [apply subslice_app_l|]. auto.
  - destruct (IH Hin) as (bs' & c' & Hsub & H). exists bs', c'. split; [|exact H].
    eapply subslice_trans; [exact Hsub|apply subslice_app_r].
Qed.

Lemma element_content_sub d h c bs : element d h c bs -> subslice c bs.
Proof.
  intros (hb & b & -> & _ & _ & ->). eapply subslice_trans; [apply content_octets_sub|].
  apply subslice_app_r.
Qed.

(** Immediate children. *)
Definition child (x : obj) (k : content) : Prop :=
  match k with
  | CSequence l | CSet l => In x l
  | COptional (Some y) => x = y
  | CTagged _ _ y => x = y
  | _ => False
  end.

Lemma node_inv n h k : node n (Obj h k) -> n = Obj h k \/ exists x, child x k /\ node n x.
Proof. intros H. inv H; cbn; eauto. Qed.

Lemma node_child n x h k : child x k -> node n x -> node n (Obj h k).
Proof.
  destruct k as [| | | | | | | | | | | | | | | | [y|] | | ]; cbn; try tauto; intros H Hn; subst; econstructor; eauto.
Qed.

Lemma value_child L d h c k x : value L d h c k -> child x k ->
  exists d' bs c', d = S d' /\ subslice bs c /\ element 50 (o_header x) c' bs
    /\ value L d' (o_header x) c' (o_content x).
Proof.
  intros Hv Hx. inv Hv; cbn in Hx; try (destruct Hx; fail).
  all: match goal with Hs : series _ _ _ _ |- _ =>
         destruct (series_in _ _ _ _ _ Hs Hx) as (bs & c' & H') end; eauto 10.
Qed.

(** Nodes below a content. *)
Lemma value_below L d : forall h c k n x, value L d h c k -> child x k -> node n x ->
  exists bs c' d', subslice bs c /\ element 50 (o_header n) c' bs
    /\ value L d' (o_header n) c' (o_content n) /\ (d' < d)%nat.
Proof.
  induction d as [|d IH]; intros h c k n x Hv Hx Hn; [inv Hv|].
  destruct (value_child _ _ _ _ _ _ Hv Hx) as (d0 & bs & c' & Ed & Hsub & He & Hvx). inv Ed.
  destruct x as [hx kx]. cbn [o_header o_content] in *.
  destruct (node_inv _ _ _ Hn) as [->|(y & Hy & Hny)].
  - exists bs, c', d0. auto.
  - destruct (IH _ _ _ _ _ Hvx Hy Hny) as (bs2 & c2 & d2 & Hs2 & He2 & Hv2 & Hd2).
    exists bs2, c2, d2. split; [|split; [|split]]; auto.
    eapply subslice_trans; [exact Hs2|]. eapply subslice_trans; [|exact Hsub].
    eapply element_content_sub; eauto.
Qed.

Lemma value_nodes L d h c k n : value L d h c k -> node n (Obj h k) ->
  n = Obj h k \/
  exists bs c' d', subslice bs c /\ element 50 (o_header n) c' bs
    /\ value L d' (o_header n) c' (o_content n) /\ (d' < d)%nat.
Proof.
  intros Hv Hn. destruct (node_inv _ _ _ Hn) as [->|(x & Hx & Hnx)]; [auto|].
  right. eapply value_below; eauto.
Qed.

(** ** Slices *)

Lemma element_raw_sub d h c bs s : element d h c bs -> h_raw_tag h = Some s -> subslice s bs.
Proof.
  intros (hb & b & -> & (ib & lb & -> & _ & _ & Hr & _) & _) Hs. rewrite Hs in Hr. inv Hr.
  exists [], (lb ++ b). cbn. now rewrite <- app_assoc.
Qed.

(** Slices of one value: the raw tag, or part of the content octets. *)
Lemma value_slices L d h c k s : value L d h c k -> In s (slices (Obj h k)) ->
  h_raw_tag h = Some s \/ subslice s c.
Proof.
  intros Hv Hin. cbn [slices] in Hin. apply in_app_or in Hin as [Hin|Hin].
  - unfold raw_tag_slices in Hin. destruct (h_raw_tag h); [|destruct Hin].
    destruct Hin as [->|[]]. auto.
  - inv Hv; cbn in Hin; try (destruct Hin; fail).
    all: try (destruct Hin as [<-|[]]; right; apply subslice_refl).
    + destruct Hin as [<-|Hin]; [right; apply subslice_refl|].
      unfold raw_tag_slices in Hin. destruct (h_raw_tag h); [|destruct Hin].
      destruct Hin as [->|[]]. auto.
    + destruct Hin as [<-|Hin]; [right; apply subslice_refl|].
      unfold raw_tag_slices in Hin. destruct (h_raw_tag h); [|destruct Hin].
      destruct Hin as [->|[]]. auto.
    + destruct Hin as [<-|[]]. right. exists [u], []. now rewrite app_nil_r.
Qed.

Lemma element_slices L d D h c k bs s : element D h c bs -> value L d h c k ->
  In s (slices (Obj h k)) -> subslice s bs.
Proof.
  intros He Hv Hin. destruct (value_slices _ _ _ _ _ _ Hv Hin) as [Hr|Hs].
  - eapply element_raw_sub; eauto.
  - eapply subslice_trans; [exact Hs|]. eapply element_content_sub; eauto.
Qed.

Lemma parse_ber_slices L i d r o n s : bytes_ok i -> parse_ber_recursive L i d = Ok (r, o) ->
  node n o -> In s (slices n) -> exists bs, i = bs ++ r /\ subslice s bs.
Proof.
  intros Hok H Hn Hs. apply parse_ber_iff in H as (bs & c & -> & He & Hv); [|assumption].
  exists bs. split; [reflexivity|]. destruct o as [h k]. cbn [o_header o_content] in *.
  destruct (value_nodes _ _ _ _ _ _ Hv Hn) as [->|(bs2 & c2 & d2 & Hs2 & He2 & Hv2 & _)].
  - eapply element_slices; eauto.
  - destruct n as [hn kn]. cbn [o_header o_content] in *.
    eapply subslice_trans; [|eapply subslice_trans; [exact Hs2|eapply element_content_sub; eauto]].
    eapply element_slices; eauto.
Qed.

(** ** DER: the root has its own header, the rest are BER values *)

Lemma definite_makes_element D h c hb : header_octets h hb -> h_length h = Definite (nlen c) ->
  element (S D) h c (hb ++ c).
Proof.
  intros Hh Hl. exists hb, c. repeat split; auto.
  - eapply body_definite; eauto.
  - unfold content_octets. now rewrite Hl.
Qed.

(** Below the root of an object made by the DER reader everything is a BER value. *)
Lemma der_object_below L d h c k n x : bytes_ok c -> h_length h = Definite (nlen c) ->
  der_object L d h c (Obj h k) -> child x k -> node n x ->
  exists bs c' d', subslice bs c /\ element 50 (o_header n) c' bs
    /\ value L d' (o_header n) c' (o_content n) /\ (d' < d)%nat.
Proof.
  intros Hok Hl Ho Hx Hn. inv Ho; try (destruct Hx; fail).
  match goal with Hv : der_value _ _ _ _ _ |- _ => inv Hv end.
  - match goal with Hb : der_bits _ _ |- _ => destruct Hb as (u & data & _ & _ & -> & _) end.
    destruct Hx.
  - match goal with Hv : try_berobject_from_any _ _ _ = _ |- _ => apply conv_value in Hv end;
      [| |exact Hok].
    + eapply value_below; eauto.
    + intros n' E. cbn in *. congruence.
Qed.

Lemma der_object_header L d h c o : der_object L d h c o -> o_header o = h.
Proof. now intros []. Qed.

(** The root: its slices are in the element. *)
Lemma der_object_root_slices L d h c o s : bytes_ok c -> h_length h = Definite (nlen c) ->
  der_object L d h c o -> In s (slices o) -> h_raw_tag h = Some s \/ subslice s c.
Proof.
  intros Hok Hl Ho Hin.
  assert (Hunk : In s (slices (Obj h (CUnknown (mkAny h c)))) -> h_raw_tag h = Some s \/ subslice s c).
  { cbn. unfold raw_tag_slices. destruct (h_raw_tag h); cbn; intros H;
      repeat destruct H as [H|H]; subst; auto using subslice_refl; destruct H. }
  destruct Ho as [k Hc Hv|Hc Hd|t Hc H3 Hk Hd He]; auto.
  destruct Hv as [k H3 Hp (u & data & -> & Hu & -> & Hlast)|k H3 Hck Hm Hv].
  - cbn [slices] in Hin. apply in_app_or in Hin as [Hin|[<-|[]]].
    + unfold raw_tag_slices in Hin. destruct (h_raw_tag h); [|destruct Hin].
      destruct Hin as [->|[]]. auto.
    + right. exists [u], []. now rewrite app_nil_r.
  - apply conv_value in Hv; [| |exact Hok].
    2:{ intros n' E. cbn in *. congruence. }
    cbn [a_header a_data o_content] in Hv.
    cbn [slices] in Hin. apply in_app_or in Hin as [Hin|Hin].
    + unfold raw_tag_slices in Hin. destruct (h_raw_tag h); [|destruct Hin].
      destruct Hin as [->|[]]. auto.
    + destruct (value_slices _ _ _ _ _ s Hv) as [Hr|Hs]; [|discriminate Hr|auto].
      cbn [slices]. apply in_or_app. auto.
Qed.

Lemma parse_der_element L i d r o : bytes_ok i -> parse_der_recursive L i d = Ok (r, o) ->
  exists hb c, i = hb ++ c ++ r /\ header_octets (o_header o) hb
    /\ h_length (o_header o) = Definite (nlen c) /\ nlen c <= MAX_OBJECT_SIZE
    /\ der_object L d (o_header o) c o.
Proof.
  intros Hok H. apply parse_der_iff in H as (h & c & Hh & Hl & Hm & Ho).
  apply header_from_der_ber in Hh as [Hh _].
  apply header_from_ber_sound in Hh as (hb & -> & Hh); [|assumption].
  rewrite (der_object_header _ _ _ _ _ Ho). exists hb, c. auto.
Qed.

Lemma parse_der_slices L i d r o n s : bytes_ok i -> parse_der_recursive L i d = Ok (r, o) ->
  node n o -> In s (slices n) -> exists bs, i = bs ++ r /\ subslice s bs.
Proof.
  intros Hok H Hn Hs. apply parse_der_element in H as (hb & c & -> & Hh & Hl & Hm & Ho); [|assumption].
  exists (hb ++ c). split; [now rewrite app_assoc|].
  apply bytes_ok_app in Hok as [_ Hok]. apply bytes_ok_app in Hok as [Hok _].
  destruct o as [h k]. cbn [o_header] in *.
  destruct (node_inv _ _ _ Hn) as [->|(x & Hx & Hnx)].
  - destruct (der_object_root_slices _ _ _ _ _ _ Hok Hl Ho Hs) as [Hr|Hsub].
    + eapply element_raw_sub; [|exact Hr]. eapply (definite_makes_element 0); eauto.
    + eapply subslice_trans; [exact Hsub|apply subslice_app_r].
  - destruct (der_object_below _ _ _ _ _ _ _ Hok Hl Ho Hx Hnx) as (bs & c' & d' & Hsub & He & Hv & _).
    destruct n as [hn kn]. cbn [o_header o_content] in *.
    eapply subslice_trans; [eapply element_slices; eauto|].
    eapply subslice_trans; [exact Hsub|apply subslice_app_r].
Qed.

(** ** Variants *)

Lemma str_tag_mapped k : In (str_tag k) mapped_tags.
Proof. destruct k; cbn; tauto. Qed.

Lemma value_variant L d h c k : value L d h c k ->
  (h_class h = Universal -> In (h_tag h) mapped_tags -> variant_tag k = Some (h_tag h))
  /\ (~ (h_class h = Universal /\ In (h_tag h) mapped_tags) -> k = CUnknown (mkAny h c)).
Proof.
  intros Hv. inv Hv; split; intros; try tauto; try (cbn [variant_tag]; f_equal; symmetry; assumption).
  all: exfalso; match goal with H : ~ _ |- _ => apply H end; split; auto.
  all: match goal with H : h_tag _ = _ |- _ => rewrite H end; try apply str_tag_mapped; cbn; tauto.
Qed.

(** ** Nesting *)

Lemma list_max_le_Forall l n : Forall (fun x => (x <= n)%nat) l -> (list_max l <= n)%nat.
Proof. apply list_max_le. Qed.

Lemma value_nesting_mut L :
  (forall d h c k, value L d h c k -> (nesting_content k <= d)%nat)
  /\ (forall d c l, series L d c l -> Forall (fun o => (nesting o <= d)%nat) l).
Proof.
  apply value_series_ind; intros; cbn [nesting_content]; try lia.
  - apply le_n_S, list_max_le_Forall. apply Forall_map. assumption.
  - apply le_n_S, list_max_le_Forall. apply Forall_map. assumption.
  - constructor.
  - constructor; [cbn [nesting]; assumption|assumption].
Qed.

Lemma parse_ber_nesting L i d r o : bytes_ok i ->
  parse_ber_recursive L i d = Ok (r, o) -> (nesting o <= d)%nat.
Proof.
  intros Hok H. apply parse_ber_iff in H as (bs & c & _ & _ & Hv); [|assumption].
  destruct o as [h k]. cbn [nesting o_content] in *. eapply value_nesting_mut; eauto.
Qed.

Lemma parse_der_nesting L i d r o : bytes_ok i ->
  parse_der_recursive L i d = Ok (r, o) -> (nesting o <= d)%nat.
Proof.
  intros Hok H. apply parse_der_element in H as (hb & c & -> & Hh & Hl & Hm & Ho); [|assumption].
  apply bytes_ok_app in Hok as [_ Hok]. apply bytes_ok_app in Hok as [Hok _].
  inv Ho; cbn [nesting nesting_content]; try lia.
  match goal with Hv : der_value _ _ _ _ _ |- _ => inv Hv end.
  - match goal with Hb : der_bits _ _ |- _ => destruct Hb as (u & data & _ & _ & -> & _) end.
    cbn; lia.
  - match goal with Hv : try_berobject_from_any _ _ _ = _ |- _ => apply conv_value in Hv end;
      [| |exact Hok].
    + eapply value_nesting_mut; eauto.
    + intros n' E. cbn in *. congruence.
Qed.

(** ** Input nested deeper than the limit *)

Lemma element_first h c bs h' c' bs' rest rest' :
  element 50 h c bs -> element 50 h' c' bs' -> bs ++ rest = bs' ++ rest' ->
  h = h' /\ c = c' /\ bs = bs' /\ rest = rest'.
Proof.
  intros H H' E. pose proof (any_from_ber_complete _ _ _ rest H) as A.
  pose proof (any_from_ber_complete _ _ _ rest' H') as A'. rewrite E, A' in A. inv A.
  apply app_inv_tail in E. auto.
Qed.

Lemma element_nonempty D h c bs : element D h c bs -> bs <> [].
Proof.
  intros (hb & b & -> & Hh & _) E. apply header_octets_len in Hh.
  apply app_eq_nil in E as [-> _]. cbn in Hh. lia.
Qed.

Lemma series_drop L d : forall before, elements before ->
  forall rest l, series L d (before ++ rest) l -> exists l', series L d rest l'.
Proof.
  induction 1 as [|h c bs more He _ IH]; intros rest l Hs; [eauto|].
  rewrite <- app_assoc in Hs. inv Hs.
  - exfalso. match goal with E : [] = bs ++ _ |- _ => symmetry in E; apply app_eq_nil in E as [E _] end.
    now apply (element_nonempty _ _ _ _ He).
  - match goal with H1 : element 50 ?h' ?c' ?bs', E : ?bs' ++ ?r = bs ++ _ |- _ =>
      destruct (element_first _ _ _ _ _ _ _ _ H1 He E) as (-> & -> & -> & ->) end.
    eauto.
Qed.

Lemma nested_value L n : forall d bs h h' c k,
  nested (S n) bs -> element 50 h c bs -> h_class h' = h_class h -> h_tag h' = h_tag h ->
  value L d h' c k -> (S n <= d)%nat.
Proof.
  induction n as [|n IH]; intros d bs h h' c k Hn He Hcl Htg Hv; [inv Hv; lia|].
  inv Hn.
  assert (Hbs : bs ++ [] = bs ++ []) by reflexivity.
  match goal with H1 : element 50 ?h1 ?c1 bs |- _ =>
    destruct (element_first _ _ _ _ _ _ _ _ He H1 Hbs) as (-> & -> & _) end.
  assert (Hs : exists d' l, d = S d' /\ series L d' (before ++ inner ++ after) l).
  { inv Hv; eauto.
    all: exfalso.
    all: try congruence.
    all: repeat match goal with H : _ \/ _ |- _ => destruct H end; try congruence.
    all: try match goal with H : ~ In _ _ |- _ => apply H; rewrite Htg end.
    all: try (match goal with H : h_tag _ = _ |- _ => rewrite H end; cbn; tauto).
    all: match goal with H : h_tag _ = str_tag ?k0 |- _ => destruct k0; cbn [str_tag] in H; congruence end. }
  destruct Hs as (d' & l & -> & Hs).
  match goal with H1 : elements before |- _ => destruct (series_drop _ _ _ H1 _ _ Hs) as (l' & Hs') end.
  match goal with H1 : nested (S n) inner |- _ => pose proof H1 as Hin; inv H1 end.
  inv Hs'.
  - exfalso. match goal with E : [] = inner ++ after |- _ => symmetry in E; apply app_eq_nil in E as [E _] end.
    eapply element_nonempty; eauto.
  - match goal with H1 : element 50 ?ha ?ca ?ba, H2 : element 50 ?hb ?cb inner, E : ?ba ++ _ = inner ++ _ |- _ =>
      destruct (element_first _ _ _ _ _ _ _ _ H1 H2 E) as (-> & -> & -> & _) end.
    apply le_n_S. eapply IH; eauto.
Qed.

Lemma nested_element n bs : nested (S n) bs -> exists h c, element 50 h c bs
  /\ h_class h = Universal /\ (h_tag h = 16 \/ h_tag h = 17).
Proof. intros H. inv H. eauto. Qed.

Lemma parse_ber_nested L d bs x r o : bytes_ok (bs ++ x) ->
  nested (S d) bs -> parse_ber_recursive L (bs ++ x) d <> Ok (r, o).
Proof.
  intros Hok Hn H. apply parse_ber_iff in H as (bs' & c & E & He & Hv); [|assumption].
  destruct (nested_element _ _ Hn) as (h0 & c0 & He0 & _).
  destruct (element_first _ _ _ _ _ _ _ _ He He0 (eq_sym E)) as (<- & <- & <- & _).
  pose proof (nested_value L d d bs' _ _ _ _ Hn He eq_refl eq_refl Hv). lia.
Qed.

(** ** [UnknownTag] never comes out of the conversion *)

Definition errs {E A} (P : E -> Prop) (r : res E A) : Prop := forall e, r = Err e -> P e.

Lemma errs_ok {E A} P (a : A) : errs (E := E) P (Ok a).
Proof. intros e H; discriminate. Qed.
Lemma errs_panic {E A} (P : E -> Prop) : errs (A := A) P Panic.
Proof. intros e H; discriminate. Qed.
Lemma errs_diverge {E A} (P : E -> Prop) : errs (A := A) P Diverge.
Proof. intros e H; discriminate. Qed.
Lemma errs_err {E A} (P : E -> Prop) e : P e -> errs (A := A) P (Err e).
Proof. intros H e' E'. now inv E'. Qed.
Lemma errs_bind {E A B} P (r : res E A) (k : A -> res E B) :
  errs P r -> (forall a, r = Ok a -> errs P (k a)) -> errs P (bind r k).
Proof. intros Hr Hk e. destruct r; cbn [bind]; intros H; try discriminate; [now apply (Hk a)|]. inv H. now apply Hr. Qed.
Lemma errs_map_err {E F A} (P : F -> Prop) (Q : E -> Prop) (f : E -> F) (r : res E A) :
  errs Q r -> (forall e, Q e -> P (f e)) -> errs P (map_err f r).
Proof. intros Hr Hf e H. destruct r; try discriminate. inv H. apply Hf, Hr. reflexivity. Qed.
#[export] Hint Resolve errs_ok errs_err errs_panic errs_diverge : errs.

Definition not_unknown (e : berror) : Prop := forall t, e <> UnknownTag t.
Definition not_unknown_n (e : nerr berror) : Prop := not_unknown (err_of_nerr e).

Ltac nounk := intros ?; discriminate.

Lemma take_streaming_errs l i : errs not_unknown_n (take_streaming (E := berror) l i).
Proof. unfold take_streaming. destruct (nlen i <? l); auto with errs. apply errs_err. nounk. Qed.

Lemma parse_identifier_errs i : errs not_unknown_n (parse_identifier i).
Proof.
  unfold parse_identifier. destruct i as [|b r]; [apply errs_err; nounk|].
  destruct (b mod 32 =? 31); auto with errs.
  destruct (high_tag 1 0 [b] r) as [[[? ?] ?]|]; auto with errs. apply errs_err; nounk.
Qed.

Lemma parse_length_errs indef i : errs not_unknown_n indef -> errs not_unknown_n (parse_length indef i).
Proof.
  intros Hi. unfold parse_length. destruct i as [|b r]; [apply errs_err; nounk|].
  destruct (b <? 128); auto with errs.
  destruct (b =? 128); [apply errs_bind; auto with errs|].
  destruct (b =? 255); [apply errs_err; nounk|].
  apply errs_bind; [apply take_streaming_errs|]. intros [r' s] _.
  destruct (bytes_to_u64 s); auto with errs. apply errs_err; nounk.
Qed.

Lemma header_from_ber_errs i : errs not_unknown_n (header_from_ber i).
Proof.
  unfold header_from_ber. apply errs_bind; [apply parse_identifier_errs|].
  intros [r [[[c pc] t] raw]] _. apply errs_bind; [|intros [] _; auto with errs].
  apply parse_length_errs. destruct pc; auto with errs. apply errs_err; nounk.
Qed.

Lemma skip_errs d : forall i h, errs not_unknown_n (ber_skip_object_content d i h).
Proof.
  induction d as [|d IH]; intros i h; cbn [ber_skip_object_content]; [apply errs_err; nounk|].
  destruct (h_length h).
  - destruct (_ && _); auto with errs. apply errs_bind; [apply take_streaming_errs|].
    intros [] _. auto with errs.
  - destruct (h_constructed h); cbn [negb]; [|apply errs_err; nounk].
    generalize (S (length i)) as fuel. intros fuel. revert i.
    induction fuel as [|fuel IHf]; intros i; cbn [ber_skip_loop]; auto with errs.
    apply errs_bind; [apply header_from_ber_errs|]. intros [i2 h2] _.
    apply errs_bind; [apply IH|]. intros [i3 []] _; auto with errs.
Qed.

Lemma any_from_ber_errs i : errs not_unknown_n (any_from_ber i).
Proof.
  unfold any_from_ber. apply errs_bind; [apply header_from_ber_errs|]. intros [i1 h] _.
  apply errs_bind; [|intros [] _; auto with errs].
  rewrite asn1_get_content_eq. unfold ber_get_object_content.
  apply errs_bind; [apply skip_errs|]. intros [r e] _.
  destruct (h_length h); auto with errs. destruct (_ <? _)%nat; auto with errs.
Qed.

Lemma iter_errs conv : (forall a, errs not_unknown (conv a)) ->
  forall fuel data, errs not_unknown (iter_collect conv fuel data).
Proof.
  intros Hc. induction fuel as [|fuel IH]; intros [|b data]; cbn [iter_collect]; auto with errs.
  apply errs_bind; [eapply errs_map_err; [apply any_from_ber_errs|auto]|]. intros [r a] _.
  apply errs_bind; [apply Hc|]. intros o _. apply errs_bind; [apply IH|]. auto with errs.
Qed.

Lemma conv_errs L : no_unknown_tag L -> forall d a, errs not_unknown (try_berobject_from_any L d a).
Proof.
  intros HL. induction d as [|d IH]; intros a; cbn [try_berobject_from_any]; [apply errs_err; nounk|].
  destruct (class_eqb (h_class (a_header a)) Universal); cbn [negb]; auto with errs.
  destruct (utag_of (h_tag (a_header a))); auto with errs.
  - destruct (a_data a); [apply errs_err; nounk|]. destruct (h_constructed _); auto with errs.
    apply errs_err; nounk.
  - destruct (h_constructed _); [apply errs_err; nounk|].
    destruct (Nat.even _); cbn [negb]; [|apply errs_err; nounk].
    destruct (utf16_valid _); cbn [negb]; auto with errs. apply errs_err; nounk.
  - apply errs_bind; auto with errs. unfold any_bool.
    destruct (h_length _) as [n|]; [|apply errs_err; nounk].
    destruct n as [|[p|p|]]; try (apply errs_err; nounk). destruct (a_data a); auto with errs.
  - apply errs_bind; auto with errs. unfold any_enumerated, assert_primitive.
    destruct (h_constructed _); cbn [bind]; [apply errs_err; nounk|].
    destruct (bytes_to_u64 _); [|apply errs_err; nounk].
    destruct (_ <? _); auto with errs. apply errs_err; nounk.
  - destruct (lf_gentime _ _ _ _) eqn:E; auto with errs. apply errs_err. intros t ->.
    destruct (HL (h_constructed (a_header a)) (h_length (a_header a)) (a_data a) t) as (? & ? & ? & ?). congruence.
  - destruct (lf_oid_check _ _ _ _) eqn:E; auto with errs. apply errs_err. intros t ->.
    destruct (HL (h_constructed (a_header a)) (h_length (a_header a)) (a_data a) t) as (? & ? & ? & ?). congruence.
  - destruct (lf_reloid_check _ _ _ _) eqn:E; auto with errs. apply errs_err. intros t ->.
    destruct (HL (h_constructed (a_header a)) (h_length (a_header a)) (a_data a) t) as (? & ? & ? & ?). congruence.
  - unfold assert_constructed. destruct (h_constructed _); cbn [bind]; [|apply errs_err; nounk].
    apply errs_bind; [now apply iter_errs|auto with errs].
  - unfold assert_constructed. destruct (h_constructed _); cbn [bind]; [|apply errs_err; nounk].
    apply errs_bind; [now apply iter_errs|auto with errs].
  - destruct (lf_utctime _ _ _ _) eqn:E; auto with errs. apply errs_err. intros t ->.
    destruct (HL (h_constructed (a_header a)) (h_length (a_header a)) (a_data a) t) as (? & ? & ? & ?). congruence.
  - destruct (h_constructed _); auto with errs. apply errs_err; nounk.
  - unfold from_obj_string. destruct (h_constructed _); [apply errs_err; nounk|].
    destruct (test_valid_charset _ _ _); cbn [negb]; [|apply errs_err; nounk].
    destruct (utf8_valid _); cbn [negb]; auto with errs. apply errs_err; nounk.
Qed.

(** With such leaves the fallback of the DER reader is unreachable. *)
Lemma der_object_cases L d h c o : no_unknown_tag L -> der_object L d h c o ->
  (exists k, h_class h = Universal /\ der_value L d h c k /\ o = Obj h k)
  \/ (h_class h <> Universal /\ (1 <= d)%nat /\ o = Obj h (CUnknown (mkAny h c))).
Proof.
  intros HL [k Hc Hv|Hc Hd|t Hc H3 Hk Hd He]; eauto.
  exfalso. now apply (conv_errs L HL _ _ _ He t).
Qed.

Lemma der_value_value L d h c k : bytes_ok c -> h_length h = Definite (nlen c) ->
  der_value L d h c k -> der_bits c k /\ h_tag h = 3 /\ h_constructed h = false
    \/ value L d (plain h) c k /\ h_tag h <> 3 /\ der_checked (h_tag h) (h_constructed h) c.
Proof.
  intros Hok Hl [k' H3 Hp Hb|k' H3 Hck Hm Hv]; [auto|right].
  apply conv_value in Hv; [auto| |exact Hok]. intros n E. cbn in *. congruence.
Qed.

Lemma parse_der_nested L d bs x r o : no_unknown_tag L -> bytes_ok (bs ++ x) ->
  nested (S d) bs -> parse_der_recursive L (bs ++ x) d <> Ok (r, o).
Proof.
  intros HL Hok Hn H.
  destruct (nested_element _ _ Hn) as (h0 & c0 & He0 & Hc0 & Ht0).
  apply parse_der_element in H as (hb & c & E & Hh & Hl & Hm & Ho); [|assumption].
  assert (Hokc : bytes_ok c).
  { rewrite E in Hok. apply bytes_ok_app in Hok as [_ Hok]. now apply bytes_ok_app in Hok as [Hok _]. }
  assert (He : element 50 (o_header o) c (hb ++ c)) by (eapply (definite_makes_element 49); eauto).
  rewrite app_assoc in E.
  destruct (element_first _ _ _ _ _ _ _ _ He0 He E) as (E0 & -> & -> & ->).
  remember (o_header o) as h eqn:Eh. clear Eh. subst h0.
  destruct (der_object_cases _ _ _ _ _ HL Ho) as [(k & _ & Hv & _)|(Hc & _)]; [|congruence].
  destruct (der_value_value _ _ _ _ _ Hokc Hl Hv) as [(_ & H3 & _)|(Hv' & _)].
  - destruct Ht0; congruence.
  - pose proof (nested_value L d d (hb ++ c) h (plain h) c k Hn He).
    cbn [plain header_new h_class h_tag] in *. rewrite Hc0 in *.
    specialize (H eq_refl eq_refl Hv'). lia.
Qed.
