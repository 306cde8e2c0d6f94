(** * C89: parsers composed from the combinators read every encoding of their type *)

From Coq Require Import String.
From Verif Require Import Base Asn1rs Ber Der Combinators Typed Conformance Spec SpecValue SpecComb SpecTyped SpecOid SpecAbstract SpecSchema.
From Verif Require Import LemBase LemHeader LemSkip LemParse LemDer LemComb LemTree LemNode LemFrame LemVariant LemAbstract LemUnique.
From Verif Require Import PropComb PropVariant PropTyped PropContent PropAbstract.
Local Open Scope string_scope. Local Open Scope N_scope. Local Open Scope list_scope.

(** ** The parser a program writes for a type

    From the library's combinators, and nom's [alt] for a CHOICE; [kit] is the choice between the BER and
    the DER ones. *)
Record kit := {
  k_value : tag -> bytes -> iresult berror obj;
  k_sequence : (bytes -> iresult berror (list obj)) -> bytes -> iresult berror obj;
  k_sequence_of : (bytes -> iresult berror obj) -> bytes -> iresult berror obj;
  k_set_of : (bytes -> iresult berror obj) -> bytes -> iresult berror obj;
  k_set : (bytes -> iresult berror (list obj)) -> bytes -> iresult berror obj;
  k_explicit : tag -> (bytes -> iresult berror obj) -> bytes -> iresult berror obj;
  k_implicit : tag -> (bytes -> header -> nat -> iresult berror content) -> bytes -> iresult berror obj;
  k_content : tag -> bytes -> header -> nat -> iresult berror content }.

Definition ber_kit (L : leaves) : kit := {|
  k_value t i := parse_ber_with_tag L i t;
  k_sequence := parse_ber_sequence_defined;
  k_sequence_of := parse_ber_sequence_of;
  k_set_of := parse_ber_set_of;
  k_set := parse_ber_set_defined;
  k_explicit := parse_ber_tagged_explicit;
  k_implicit := parse_ber_tagged_implicit;
  k_content := parse_ber_content L |}.

Definition der_kit (L : leaves) : kit := {|
  k_value t i := parse_der_with_tag L i t;
  k_sequence := parse_der_sequence_defined;
  k_sequence_of := parse_der_sequence_of;
  k_set_of := parse_der_set_of;
  k_set := parse_der_set_defined;
  k_explicit := parse_der_tagged_explicit;
  k_implicit := parse_der_tagged_implicit;
  k_content := parse_der_content L |}.

Fixpoint reader (K : kit) (e : ty) : bytes -> iresult berror obj :=
  match e with
  | TValue t => k_value K t
  | TSequence fs => k_sequence K (read_fields K fs)
  | TSequenceOf e => k_sequence_of K (reader K e)
  | TSetOf e => k_set_of K (reader K e)
  | TSet fs => k_set K (read_fields K fs)
  | TExplicit _ t e => k_explicit K t (reader K e)
  | TImplicit _ t u => k_implicit K t (k_content K u)
  | TImplicitSequence _ t fs => k_implicit K t (fun c _ _ =>
      let* (r, os) := read_fields K fs c in Ok (r, CSequence os))
  | TChoice e1 e2 => nom_alt [reader K e1; reader K e2]
  end
with read_fields (K : kit) (fs : fields) : bytes -> iresult berror (list obj) :=
  match fs with
  | FNil => fun i => Ok (i, [])
  | FCons optional e fs => fun i =>
      let* (r, o) := (if optional then parse_ber_optional (reader K e) i else reader K e i) in
      let* (r', os) := read_fields K fs r in
      Ok (r', o :: os)
  end.

(** ** The shape of an encoding *)

Scheme encodes_as_mind := Induction for encodes_as Sort Prop
with encodes_fields_mind := Induction for encodes_fields Sort Prop
with encodes_each_mind := Induction for encodes_each Sort Prop.
Combined Scheme encodes_schema_ind from encodes_as_mind, encodes_fields_mind, encodes_each_mind.

Lemma later ru n h c bs rest : element (S n) h c bs -> ~ ends_contents h ->
  (ru <> SpecAbstract.Der -> until_eoc (S n) (rest ++ [0; 0])) ->
  ru <> SpecAbstract.Der -> until_eoc (S n) ((bs ++ rest) ++ [0; 0]).
Proof.
  intros (hb & b & -> & Hh & Hb & _) Hne Hu Hru. rewrite <- !app_assoc. eapply eoc_later; eauto.
Qed.

Lemma element_len d h c bs : element d h c bs -> (length c <= length bs)%nat /\ (2 <= length bs)%nat.
Proof.
  intros (hb & b & -> & Hh & Hb & ->). split.
  - unfold content_octets. rewrite app_length. destruct (h_length h); [lia|]. pose proof (firstn_le_length (length b - 2) b). lia.
  - destruct Hh as (ib & lb & -> & Hi & Hl & _). rewrite !app_length.
    assert (1 <= length ib)%nat by (inv Hi; cbn [length]; lia).
    assert (1 <= length lb)%nat by (inv Hl; cbn [length]; lia). lia.
Qed.

Lemma encodes_header ru L n v bs : ru <> SpecAbstract.Ber -> accepts_oids L -> encodes ru n v bs ->
  (n <= 49)%nat -> supported v -> universal_value v ->
  exists h c, element 50 h c bs /\ h_class h = Universal /\ h_tag h = value_tag v.
Proof.
  intros Hru HL H Hn Hs Hu. destruct H.
  - pose proof (value_tag_lt v Hu) as Ht. destruct H0 as [Hl _].
    set (ib := [leading_octet Universal false (value_tag v)]).
    exists (mkHeader Universal false (value_tag v) (Definite (N.of_nat (length c))) (Some ib)), c.
    split; [|split; reflexivity]. exists (ib ++ lb), c. split; [reflexivity|]. split.
    { exists ib, lb. cbn. repeat split; auto; try discriminate. apply ident_low. lia. }
    split; [|reflexivity]. eapply body_definite; reflexivity.
  - assert (Hs' : Forall supported l) by (inversion Hs; subst; [assumption|contradiction]).
    destruct (proj2 (encodes_value ru L Hru HL) _ _ _ H ltac:(lia) Hs') as (Hok & Hue & _).
    destruct (wrapped_element _ _ _ _ _ _ H0 ltac:(lia) Hok Hue) as (h' & He' & _ & E1 & E2 & _).
    exists h', c. split; [eapply element_mono; [|exact He']; lia|auto].
  - assert (Hs' : Forall supported l) by (inversion Hs; subst; [assumption|contradiction]).
    destruct (proj2 (encodes_value ru L Hru HL) _ _ _ H ltac:(lia) Hs') as (Hok & Hue & _).
    destruct (wrapped_element _ _ _ _ _ _ H0 ltac:(lia) Hok Hue) as (h' & He' & _ & E1 & E2 & _).
    exists h', c. split; [eapply element_mono; [|exact He']; lia|auto].
  - contradiction.
  - contradiction.
Qed.

Lemma schema_shape ru lim L : ru <> SpecAbstract.Ber -> ru = SpecAbstract.Der \/ lim = true -> accepts_oids L ->
  (forall e n d bs, encodes_as ru lim e n d bs -> (n <= 49)%nat -> proper e ->
     bytes_ok bs /\ exists h c, element (S n) h c bs /\ (ru <> SpecAbstract.Der -> ~ ends_contents h)
       /\ In (h_tag h) (ty_tags e) /\ (ru = SpecAbstract.Der -> definite_element h c bs))
  /\ (forall fs n ds c, encodes_fields ru lim fs n ds c -> (n <= 49)%nat -> proper_fields fs ->
     bytes_ok c /\ (ru <> SpecAbstract.Der -> until_eoc (S n) (c ++ [0; 0]))
     /\ (c = [] \/ exists h x bs rest, c = bs ++ rest /\ element 50 h x bs
           /\ (ru = SpecAbstract.Der -> definite_element h x bs) /\ In (h_tag h) (firsts fs)))
  /\ (forall e n ds c, encodes_each ru lim e n ds c -> (n <= 49)%nat -> proper e ->
     bytes_ok c /\ (ru <> SpecAbstract.Der -> until_eoc (S n) (c ++ [0; 0]))).
Proof.
  intros Hru Hlim HL.
  assert (H0 : forall n, until_eoc (S n) ([] ++ [0; 0])).
  { intros n. eapply (proj2 body_mono_mut); [apply eoc_octets|lia]. }
  assert (Hend : forall n h c bs cl t, wrapped ru cl t c bs -> element (S (S n)) h c bs ->
    (h_length h = Definite (N.of_nat (length c)) \/ h_length h = Indefinite) -> h_tag h = t ->
    (ru <> SpecAbstract.Der -> t = 0 -> c <> []) -> ru <> SpecAbstract.Der -> ~ ends_contents h).
  { intros n h c bs cl t _ _ Hl <- Hc Hr [E1 E2]. specialize (Hc Hr E1).
    destruct Hl as [Hl|Hl]; rewrite Hl in E2; [|discriminate]. destruct c; [now apply Hc|discriminate]. }
  assert (Hl0 : forall t (c : bytes), (lim = true -> t = 0 -> c <> []) -> ru <> SpecAbstract.Der -> t = 0 -> c <> []).
  { intros t c H Hr. apply H. tauto. }
  apply encodes_schema_ind.
  - intros n v bs Hv Hu Hs Hn _.
    destruct (proj1 (encodes_value ru L Hru HL) _ _ _ Hv Hn Hs) as (Hok & h & c & k & He & Hne & Hval & Hd & Hder).
    split; [exact Hok|]. exists h, c. split; [exact He|]. split; [auto|]. split; [|intros E; now apply Hder].
    destruct (encodes_header ru L n v bs Hru HL Hv Hn Hs Hu) as (h' & c' & He' & _ & Ht).
    apply (element_mono _ 50) in He; [|lia].
    destruct (element_first _ _ _ _ _ _ [] [] He He' eq_refl) as (-> & _). left. auto.
  - intros n fs ds c bs Hf IH Hw Hn Hp. destruct IH as (Hok & Hu & _); [lia|exact Hp|].
    destruct (wrapped_node _ _ _ _ _ _ Hw ltac:(lia) Hok Hu) as (h & He & Hb & H1 & H2 & H3 & H4 & H5).
    split; [exact Hb|]. exists h, c. split; [exact He|]. split; [|split; [left; auto|auto]].
    eapply Hend; eauto. intros; lia.
  - intros n e ds c bs Hf IH Hw Hn Hp. destruct IH as (Hok & Hu); [lia|exact Hp|].
    destruct (wrapped_node _ _ _ _ _ _ Hw ltac:(lia) Hok Hu) as (h & He & Hb & H1 & H2 & H3 & H4 & H5).
    split; [exact Hb|]. exists h, c. split; [exact He|]. split; [|split; [left; auto|auto]].
    eapply Hend; eauto. intros; lia.
  - intros n e ds c bs Hf IH Hw Hn Hp. destruct IH as (Hok & Hu); [lia|exact Hp|].
    destruct (wrapped_node _ _ _ _ _ _ Hw ltac:(lia) Hok Hu) as (h & He & Hb & H1 & H2 & H3 & H4 & H5).
    split; [exact Hb|]. exists h, c. split; [exact He|]. split; [|split; [left; auto|auto]].
    eapply Hend; eauto. intros; lia.
  - intros n fs ds c bs Hf IH Hw Hn Hp. destruct IH as (Hok & Hu & _); [lia|exact Hp|].
    destruct (wrapped_node _ _ _ _ _ _ Hw ltac:(lia) Hok Hu) as (h & He & Hb & H1 & H2 & H3 & H4 & H5).
    split; [exact Hb|]. exists h, c. split; [exact He|]. split; [|split; [left; auto|auto]].
    eapply Hend; eauto. intros; lia.
  - intros n cl t e d c bs Hd IH Hw Hn (Hc & Ht & Hp). destruct IH as (Hok & h' & c' & He' & Hne & _); [lia|exact Hp|].
    assert (Hu : ru <> SpecAbstract.Der -> until_eoc (S n) (c ++ [0; 0])).
    { intros Hr. rewrite <- (app_nil_r c). eapply (later ru); eauto. }
    destruct (wrapped_node _ _ _ _ _ _ Hw Ht Hok Hu) as (h & He & Hb & H1 & H2 & H3 & H4 & H5).
    split; [exact Hb|]. exists h, c. split; [exact He|]. split; [|split; [left; auto|auto]].
    eapply Hend; eauto. intros _ _ ->. apply element_len in He' as [_ He']. cbn in He'. lia.
  - intros n cl t v c ib lb Hc Hs Hib [Hlb Hmin] Hz Hn (Hcl & Ht).
    pose proof (contents_ok _ _ _ Hc) as Hok. pose proof (identifier_ok _ _ _ _ Hib) as Hiok. pose proof (length_ok _ _ Hlb).
    apply identifier_octets in Hib; [|exact Ht].
    set (h := mkHeader cl false t (Definite (N.of_nat (length c))) (Some ib)).
    assert (Hh : header_octets h (ib ++ lb)).
    { exists ib, lb. cbn. repeat split; auto; discriminate. }
    split; [rewrite !bytes_ok_app; tauto|]. exists h, c. rewrite app_assoc.
    split; [|split; [|split; [left; reflexivity|]]].
    + exists (ib ++ lb), c. split; [reflexivity|]. split; [exact Hh|]. split; [|reflexivity]. eapply body_definite; reflexivity.
    + intros Hr [E1 E2]. cbn in E1, E2. specialize (Hl0 _ _ Hz Hr E1). destruct c; [now apply Hl0|discriminate].
    + intros _. exists (ib ++ lb). auto.
  - intros n cl t fs ds c bs Hf IH Hw Hz Hn (Hcl & Ht & Hp). destruct IH as (Hok & Hu & _); [lia|exact Hp|].
    destruct (wrapped_node _ _ _ _ _ _ Hw Ht Hok Hu) as (h & He & Hb & H1 & H2 & H3 & H4 & H5).
    split; [exact Hb|]. exists h, c. split; [exact He|]. split; [|split; [left; auto|auto]].
    eapply Hend; eauto.
  - intros n e1 e2 d bs He IH Hn (Hp & _). destruct IH as (Hok & h & c & Hel & Hne & Ht & Hd); auto.
    split; [exact Hok|]. exists h, c. repeat split; auto; try tauto. unfold ty_tags in *. cbn [alternatives].
    rewrite map_app, in_app_iff. auto.
  - intros n e1 e2 d bs He IH Hn (_ & Hp & _). destruct IH as (Hok & h & c & Hel & Hne & Ht & Hd); auto.
    split; [exact Hok|]. exists h, c. repeat split; auto; try tauto. unfold ty_tags in *. cbn [alternatives].
    rewrite map_app, in_app_iff. auto.
  - intros n _ _. split; [constructor|]. auto.
  - intros n o e fs d ds bs rest He IH Hf IHf Hn (Hp & Hps & _).
    destruct IH as (Hok & h & c & Hel & Hne & Ht & Hd); auto. destruct IHf as (Hokr & Hu & _); auto.
    split; [apply bytes_ok_app; auto|]. split; [intros Hr; eapply (later ru); eauto|].
    right. exists h, c, bs, rest. split; [reflexivity|]. split; [eapply element_mono; [|exact Hel]; lia|]. split; [auto|].
    destruct o; cbn [firsts]; [apply in_or_app; left|]; exact Ht.
  - intros n e fs ds rest Hf IHf Hn (Hp & Hps & _). destruct IHf as (Hokr & Hu & Hst); auto.
    split; [auto|]. split; [auto|]. destruct Hst as [->|(h & x & bs & r & -> & Hel & Hd & Hi)]; [auto|].
    right. exists h, x, bs, r. cbn [firsts]. rewrite in_app_iff. auto.
  - intros e n _ _. split; [constructor|]. auto.
  - intros e n d ds bs rest He IH Hf IHf Hn Hp.
    destruct IH as (Hok & h & c & Hel & Hne & Ht & Hd); auto. destruct IHf as (Hokr & Hu); auto.
    split; [apply bytes_ok_app; auto|]. intros Hr; eapply (later ru); eauto.
Qed.

(** ** What is needed of the combinators *)

Definition incomplete (f : bytes -> iresult berror obj) : Prop := exists n, f [] = Err (Incomplete n).

Record kit_ok (ru : rules) (el : header -> bytes -> bytes -> Prop) (K : kit) : Prop := {
  ok_value : forall n v bs r, encodes ru n v bs -> (n <= 49)%nat -> supported v -> universal_value v ->
    N.of_nat (length bs) <= 4294967295 -> bytes_ok r ->
    exists o, k_value K (value_tag v) (bs ++ r) = Ok (r, o) /\ h_tag (o_header o) = value_tag v /\ denotes ru o v /\ (writable v -> stands ru n o v);
  ok_value_end : forall t, incomplete (k_value K t);
  ok_sequence : forall h c bs r f, el h c bs ->
    h_tag h = 16 -> forall u os, f c = Ok (u, os) -> exists h', k_sequence K f (bs ++ r) = Ok (r, Obj h' (CSequence os)) /\ header_is h' Universal true 16;
  ok_sequence_end : forall f, incomplete (k_sequence K f);
  ok_sequence_of : forall h c bs r f, el h c bs -> incomplete f ->
    h_tag h = 16 -> forall os, splits f c os -> exists h', k_sequence_of K f (bs ++ r) = Ok (r, Obj h' (CSequence os)) /\ header_is h' Universal true 16;
  ok_sequence_of_end : forall f, incomplete (k_sequence_of K f);
  ok_set_of : forall h c bs r f, el h c bs -> incomplete f ->
    h_tag h = 17 -> forall os, splits f c os -> exists h', k_set_of K f (bs ++ r) = Ok (r, Obj h' (CSet os)) /\ header_is h' Universal true 17;
  ok_set_of_end : forall f, incomplete (k_set_of K f);
  ok_set : forall h c bs r f, el h c bs ->
    h_tag h = 17 -> forall u os, f c = Ok (u, os) -> exists h', k_set K f (bs ++ r) = Ok (r, Obj h' (CSet os)) /\ header_is h' Universal true 17;
  ok_set_end : forall f, incomplete (k_set K f);
  ok_explicit : forall h c bs r t f, el h c bs ->
    h_tag h = t -> forall u o, h_class h <> Universal -> h_constructed h = true -> f c = Ok (u, o) ->
           k_explicit K t f (bs ++ r) = Ok (r, Obj h (CTagged (h_class h) t o));
  ok_explicit_end : forall t f, incomplete (k_explicit K t f);
  ok_implicit : forall h c bs r t f, el h c bs ->
    h_tag h = t -> forall u k, f c h 50%nat = Ok (u, k) -> k_implicit K t f (bs ++ r) = Ok (r, Obj h k);
  ok_implicit_end : forall t f, incomplete (k_implicit K t f);
  ok_content : forall v c h, contents ru v c -> supported v -> N.of_nat (length c) <= 4294967295 ->
    h_constructed h = false -> h_length h = Definite (N.of_nat (length c)) ->
    exists k, k_content K (value_tag v) c h 50 = Ok ([], k) /\ denotes ru (Obj h k) v /\ (writable v -> stored ru k v) }.

Lemma header_empty_ber {E} (ops : err_ops E) {A} (f : bytes -> header -> iresult E A) :
  exists n, parse_ber_container ops f [] = Err (Incomplete n) /\ parse_der_container ops f [] = Err (Incomplete n).
Proof. eexists. split; reflexivity. Qed.

Lemma of_subparser_ok f c os : incomplete f -> splits f c os -> of_subparser ber_ops f c = Ok ([], os).
Proof.
  intros (n & Hn) Hs. unfold of_subparser, nom_all_consuming, nom_many0.
  rewrite (many0_complete ber_ops f n Hn c os Hs) by lia. reflexivity.
Qed.

Lemma denotes_header ru h h' k v : denotes ru (Obj h k) v -> universal_value v -> denotes ru (Obj h' k) v.
Proof.
  intros H Hu. inversion H; subst; try (econstructor; eassumption); [|contradiction].
  now apply (den_bit_string ru h' _ s l pad).
Qed.

Lemma not_unknown ru h k v : denotes ru (Obj h k) v -> universal_value v -> forall a, k <> CUnknown a.
Proof.
  intros H Hu a ->. inversion H; subst; [|contradiction].
  match goal with E : text_content ?t _ = _ |- _ => destruct t; discriminate end.
Qed.

Lemma ber_kit_ok ru L : ru <> SpecAbstract.Ber -> accepts_oids L -> kit_ok ru (element 50) (ber_kit L).
Proof.
  intros Hru HL. constructor; cbn [ber_kit k_value k_sequence k_sequence_of k_set_of k_set k_explicit k_implicit k_content].
  - intros n v bs r H Hn Hs Hu Hlen Hr.
    destruct (proj1 (encodes_value_full ru L Hru HL) _ _ _ H Hn Hs) as (Hok & h & c & k & He & _ & Hv & Hd & _ & Hst).
    destruct (encodes_header ru L n v bs Hru HL H Hn Hs Hu) as (h' & c' & He' & Hc & Ht).
    apply (element_mono _ 50) in He; [|lia].
    destruct (element_first _ _ _ _ _ _ [] [] He He' eq_refl) as (<- & <- & _).
    exists (Obj h k). split; [|split; [exact Ht|split; [exact Hd|exact Hst]]]. apply with_tag_exact; [apply bytes_ok_app; auto|].
    exists bs, c. cbn [o_header o_content]. split; [reflexivity|]. split; [exact He|]. split; [exact Ht|]. split.
    + intros m Hm. destruct He as (hb & b & -> & Hh & Hb & _). inversion Hb; subst; [|congruence].
      rewrite app_length in Hlen. replace m with (N.of_nat (length b)) by congruence. lia.
    + assert (Hv50 : value L 50 h c k) by (eapply (proj1 (value_mono_mut L)); [exact Hv|lia]).
      destruct (value_to_plain _ _ _ _ _ Hv50 Hc) as [[Hp _]|[-> _]]; [exact Hp|].
      exfalso. eapply not_unknown; eauto.
  - intros t. eexists. reflexivity.
  - intros h c bs r f He. unfold parse_ber_sequence_defined, nom_map.
    rewrite (proj1 (proj1 (C33_defined ber_ops (fun data _ => f data) h c bs r) He)).
    intros Ht; rewrite Ht; cbn [N.eqb Pos.eqb]; intros u os ->. eexists. repeat split.
  - intros f. eexists. reflexivity.
  - intros h c bs r f He Hf. unfold parse_ber_sequence_of, parse_ber_sequence_of_v, nom_map.
    rewrite (proj1 (proj1 (C33_defined ber_ops (fun data _ => of_subparser ber_ops f data) h c bs r) He)).
    intros Ht; rewrite Ht; cbn [N.eqb Pos.eqb]; intros os Hs. rewrite (of_subparser_ok _ _ _ Hf Hs).
    eexists. repeat split.
  - intros f. eexists. reflexivity.
  - intros h c bs r f He Hf. unfold parse_ber_set_of, parse_ber_set_of_v, nom_map.
    rewrite (proj2 (proj1 (C33_defined ber_ops (fun data _ => of_subparser ber_ops f data) h c bs r) He)).
    intros Ht; rewrite Ht; cbn [N.eqb Pos.eqb]; intros os Hs. rewrite (of_subparser_ok _ _ _ Hf Hs).
    eexists. repeat split.
  - intros f. eexists. reflexivity.
  - intros h c bs r f He. unfold parse_ber_set_defined, nom_map.
    rewrite (proj2 (proj1 (C33_defined ber_ops (fun data _ => f data) h c bs r) He)).
    intros Ht; rewrite Ht; cbn [N.eqb Pos.eqb]; intros u os ->. eexists. repeat split.
  - intros f. eexists. reflexivity.
  - intros h c bs r t f He. unfold parse_ber_tagged_explicit, parse_ber_tagged_explicit_g.
    rewrite (ber_container_complete ber_ops _ _ _ _ r He). unfold assert_tag, assert_constructed.
    intros ->; rewrite N.eqb_refl; intros u o Hc -> Hf. unfold tagged_explicit_cb. rewrite Hf. destruct (h_class h); try contradiction; reflexivity.
  - intros t f. eexists. reflexivity.
  - intros h c bs r t f He. unfold parse_ber_tagged_implicit, parse_ber_tagged_implicit_g.
    rewrite (ber_container_complete ber_ops _ _ _ _ r He). unfold assert_tag.
    intros ->; rewrite N.eqb_refl; intros u k Hf. unfold tagged_implicit_cb. change MAX_RECURSION with 50%nat. cbn [map_err bind]. now rewrite Hf.
  - intros t f. eexists. reflexivity.
  - intros v c h Hc Hs Hlen Hp Hl. pose proof (contents_not_explicit _ _ _ Hc) as Hu.
    set (h' := mkHeader Universal (h_constructed h) (value_tag v) (h_length h) None).
    destruct (contents_value_full ru L 49 h' v c HL Hs Hc) as (k & Hv & Hd & Hst); auto.
    exists k. split; [|split; [now apply denotes_header with h'|exact Hst]].
    apply C70_ber_content; [eapply contents_ok; eauto|].
    exists c. rewrite app_nil_r. split; [reflexivity|]. fold h'. split.
    + eapply body_definite; [exact Hl|reflexivity].
    + split; [intros m Hm; rewrite Hl in Hm; now inv Hm|]. unfold content_octets, h'. cbn [h_length]. rewrite Hl.
      rewrite <- Hl. exact Hv.
Qed.

Lemma der_kit_ok L : accepts_oids L -> kit_ok SpecAbstract.Der definite_element (der_kit L).
Proof.
  intros HL. constructor; cbn [der_kit k_value k_sequence k_sequence_of k_set_of k_set k_explicit k_implicit k_content].
  - intros n v bs r H Hn Hs Hu Hlen Hr.
    destruct (proj1 (encodes_value_full SpecAbstract.Der L ltac:(discriminate) HL) _ _ _ H Hn Hs)
      as (Hok & h & c & k & He & _ & Hv & Hd & Hder & Hst).
    destruct (Hder eq_refl) as [Hdef Hel].
    destruct (encodes_header SpecAbstract.Der L n v bs ltac:(discriminate) HL H Hn Hs Hu) as (h' & c' & He' & Hc & Ht).
    apply (element_mono _ 50) in He; [|lia].
    destruct (element_first _ _ _ _ _ _ [] [] He He' eq_refl) as (<- & <- & _).
    exists (Obj h k). split; [|split; [exact Ht|split; [exact Hd|exact Hst]]]. apply der_with_tag_exact; [apply bytes_ok_app; auto|].
    exists bs, c. cbn [o_header o_content]. split; [reflexivity|]. split; [exact Hdef|]. split; [exact Ht|].
    destruct (Hel Hc) as [H1 H2]. rewrite <- Ht. split; [|split; [exact H1|split; [exact H2|]]].
    + intros _. destruct Hdef as (hb & -> & _). rewrite app_length in Hlen. lia.
    + assert (Hv50 : value L 50 h c k) by (eapply (proj1 (value_mono_mut L)); [exact Hv|lia]).
      destruct (value_to_plain _ _ _ _ _ Hv50 Hc) as [[Hp _]|[-> _]]; [exact Hp|].
      exfalso. eapply not_unknown; eauto.
  - intros t. eexists. reflexivity.
  - intros h c bs r f He. unfold parse_der_sequence_defined, nom_map.
    rewrite (proj1 (proj2 (C33_defined ber_ops (fun data _ => f data) h c bs r) He)).
    intros Ht; rewrite Ht; cbn [N.eqb Pos.eqb]; intros u os ->. eexists. repeat split.
  - intros f. eexists. reflexivity.
  - intros h c bs r f He Hf. unfold parse_der_sequence_of, parse_der_sequence_of_v, nom_map.
    rewrite (proj1 (proj2 (C33_defined ber_ops (fun data _ => of_subparser ber_ops f data) h c bs r) He)).
    intros Ht; rewrite Ht; cbn [N.eqb Pos.eqb]; intros os Hs. rewrite (of_subparser_ok _ _ _ Hf Hs).
    eexists. repeat split.
  - intros f. eexists. reflexivity.
  - intros h c bs r f He Hf. unfold parse_der_set_of, parse_der_set_of_v, nom_map.
    rewrite (proj2 (proj2 (C33_defined ber_ops (fun data _ => of_subparser ber_ops f data) h c bs r) He)).
    intros Ht; rewrite Ht; cbn [N.eqb Pos.eqb]; intros os Hs. rewrite (of_subparser_ok _ _ _ Hf Hs).
    eexists. repeat split.
  - intros f. eexists. reflexivity.
  - intros h c bs r f He. unfold parse_der_set_defined, nom_map.
    rewrite (proj2 (proj2 (C33_defined ber_ops (fun data _ => f data) h c bs r) He)).
    intros Ht; rewrite Ht; cbn [N.eqb Pos.eqb]; intros u os ->. eexists. repeat split.
  - intros f. eexists. reflexivity.
  - intros h c bs r t f He. unfold parse_der_tagged_explicit, parse_der_tagged_explicit_g.
    rewrite (der_container_complete ber_ops _ _ _ _ r He). unfold assert_tag.
    intros ->; rewrite N.eqb_refl; intros u o Hc -> Hf. unfold tagged_explicit_cb. rewrite Hf. destruct (h_class h); try contradiction; reflexivity.
  - intros t f. eexists. reflexivity.
  - intros h c bs r t f He. unfold parse_der_tagged_implicit, parse_der_tagged_implicit_g.
    rewrite (der_container_complete ber_ops _ _ _ _ r He). unfold assert_tag.
    intros ->; rewrite N.eqb_refl; intros u k Hf. unfold tagged_implicit_cb. change MAX_RECURSION with 50%nat. cbn [map_err bind]. now rewrite Hf.
  - intros t f. eexists. reflexivity.
  - intros v c h Hc Hs Hlen Hp Hl. pose proof (contents_not_explicit _ _ _ Hc) as Hu.
    set (h' := mkHeader Universal (h_constructed h) (value_tag v) (h_length h) None).
    destruct (contents_value_full SpecAbstract.Der L 49 h' v c HL Hs Hc) as (k & Hv & Hd & Hst); auto.
    exists k. split; [|split; [now apply denotes_header with h'|exact Hst]].
    destruct (contents_der h' v c Hc eq_refl Hp eq_refl) as [H1 H2].
    apply C70_der_content; [eapply contents_ok; eauto|lia|].
    exists c. rewrite app_nil_r. split; [reflexivity|]. split; [exact Hl|]. split; [auto|]. split; [exact H1|].
    split; [exact H2|exact Hv].
Qed.

Definition kit_of (L : leaves) (der : bool) : kit := if der then der_kit L else ber_kit L.

(** An element of another tag number is refused with a recoverable error. *)
Lemma reader_other L (der : bool) e h c bs r : (if der then definite_element h c bs else element 50 h c bs) -> ~ In (h_tag h) (ty_tags e) ->
  exists x, reader (kit_of L der) e (bs ++ r) = Err (Error x).
Proof.
  intros He. unfold ty_tags. induction e; cbn [alternatives map In ty_tag reader]; intros Ht.
  9: { rewrite map_app, in_app_iff in Ht. destruct IHe1 as (x & E1); [tauto|]. destruct IHe2 as (y & E2); [tauto|].
       cbn [nom_alt]. rewrite E1, E2. eexists. reflexivity. }
  1: { assert (Hn : h_tag h <> t) by (intros E; apply Ht; auto). destruct der; cbn in He |- *.
       - destruct He as (hb & -> & Hh & Hl). rewrite <- app_assoc. eexists. apply C12_other_tag; eauto. congruence.
       - destruct He as (hb & b & -> & Hh & _). rewrite <- app_assoc. eexists. apply C12_other_tag; eauto. }
  all: match type of Ht with ~ (?a = _ \/ False) => assert (Hn : (h_tag h =? a) = false) by (apply N.eqb_neq; intros E; apply Ht; auto) end.
  1-4: destruct der; cbn in He |- *;
    unfold parse_der_sequence_defined, parse_der_sequence_of, parse_der_sequence_of_v, parse_der_set_of, parse_der_set_of_v,
      parse_der_set_defined, parse_ber_sequence_defined, parse_ber_sequence_of, parse_ber_sequence_of_v, parse_ber_set_of,
      parse_ber_set_of_v, parse_ber_set_defined, nom_map;
    match goal with
    | |- context [parse_ber_sequence_defined_g ?o ?f] => rewrite (proj1 (proj1 (C33_defined o f h c bs r) He))
    | |- context [parse_ber_set_defined_g ?o ?f] => rewrite (proj2 (proj1 (C33_defined o f h c bs r) He))
    | |- context [parse_der_sequence_defined_g ?o ?f] => rewrite (proj1 (proj2 (C33_defined o f h c bs r) He))
    | |- context [parse_der_set_defined_g ?o ?f] => rewrite (proj2 (proj2 (C33_defined o f h c bs r) He))
    end; rewrite Hn; eexists; reflexivity.
  all: destruct der; cbn in He |- *;
    unfold parse_ber_tagged_explicit, parse_ber_tagged_explicit_g, parse_der_tagged_explicit, parse_der_tagged_explicit_g,
      parse_ber_tagged_implicit, parse_ber_tagged_implicit_g, parse_der_tagged_implicit, parse_der_tagged_implicit_g;
    first [rewrite (ber_container_complete ber_ops _ _ _ _ r He)|rewrite (der_container_complete ber_ops _ _ _ _ r He)];
    unfold assert_tag; rewrite Hn; try destruct (class_eqb _ _); eexists; reflexivity.
Qed.

(** ** Reading *)

Section Reading.
Context (ru : rules) (lim : bool) (L : leaves) (el : header -> bytes -> bytes -> Prop) (K : kit).
Context (Hru : ru <> SpecAbstract.Ber) (Hlim : ru = SpecAbstract.Der \/ lim = true) (HL : accepts_oids L).
Context (HK : kit_ok ru el K).
Context (Hother : forall e h c bs r, el h c bs -> ~ In (h_tag h) (ty_tags e) -> exists x, reader K e (bs ++ r) = Err (Error x)).
Context (Hel : forall h c bs, element 50 h c bs -> (ru = SpecAbstract.Der -> definite_element h c bs) -> el h c bs).

Lemma reader_end e : incomplete (reader K e).
Proof.
  induction e as [| | | | | | | |e1 (m & Hm) e2 _]; cbn [reader]; try apply HK. exists m. cbn [nom_alt]. now rewrite Hm.
Qed.

(** What an encoding is as an element, when it is wrapped. *)
Lemma wrapped_el n cl t c bs : wrapped ru cl t c bs -> t < 2 ^ 32 -> bytes_ok c -> (S n <= 49)%nat ->
  (ru <> SpecAbstract.Der -> until_eoc (S n) (c ++ [0; 0])) ->
  exists h, el h c bs /\ bytes_ok bs /\ h_class h = cl /\ h_tag h = t /\ h_constructed h = true
    /\ (length c <= length bs)%nat.
Proof.
  intros Hw Ht Hok Hn Hu.
  destruct (wrapped_node _ _ _ _ _ _ Hw Ht Hok Hu) as (h & He & Hb & H1 & H2 & H3 & H4 & H5).
  exists h. split; [|repeat split; auto; now apply element_len in He]. apply Hel; [|exact H5].
  eapply element_mono; [|exact He]. lia.
Qed.

Lemma reads :
  (forall e n d bs, encodes_as ru lim e n d bs -> (n <= 49)%nat -> proper e ->
     N.of_nat (length bs) <= 4294967295 -> forall r, bytes_ok r ->
     exists o, reader K e (bs ++ r) = Ok (r, o) /\ decoded ru e d o
       /\ (ru = SpecAbstract.Der -> rewritable e d -> made e n o d))
  /\ (forall fs n ds c, encodes_fields ru lim fs n ds c -> (n <= 49)%nat -> proper_fields fs ->
     N.of_nat (length c) <= 4294967295 ->
     exists os, read_fields K fs c = Ok ([], os) /\ decoded_fields ru fs ds os
       /\ (ru = SpecAbstract.Der -> rewritable_fields fs ds -> made_fields fs n os ds))
  /\ (forall e n ds c, encodes_each ru lim e n ds c -> (n <= 49)%nat -> proper e ->
     N.of_nat (length c) <= 4294967295 ->
     exists os, splits (reader K e) c os /\ decoded_each ru e ds os
       /\ (ru = SpecAbstract.Der -> rewritable_each e ds -> made_each e n os ds)).
Proof.
  destruct (schema_shape ru lim L Hru Hlim HL) as (SA & SF & SE).
  apply encodes_schema_ind.
  - intros n v bs Hv Hu Hs Hn _ Hlen r Hr. cbn [reader].
    destruct (ok_value _ _ _ HK _ _ _ _ Hv Hn Hs Hu Hlen Hr) as (o & Ho & Ht & Hd & Hst).
    exists o. split; [exact Ho|]. split; [now constructor|]. intros E Hrw. apply b_value; auto. rewrite <- E. inv Hrw. auto.
  - intros n fs ds c bs Hf IH Hw Hn Hp Hlen r Hr. cbn [proper reader] in *.
    destruct (SF _ _ _ _ Hf ltac:(lia) Hp) as (Hok & Hu & _).
    destruct (wrapped_el _ _ _ _ _ Hw ltac:(lia) Hok Hn Hu) as (h & He & _ & _ & Ht & _ & Hlc).
    destruct IH as (os & Hos & Hd & Hm); [lia|exact Hp|lia|].
    pose proof (ok_sequence _ _ _ HK h c bs r (read_fields K fs) He Ht) as H.
    destruct (H _ _ Hos) as (h' & E & Hh').
    exists (Obj h' (CSequence os)). split; [exact E|]. split; [constructor; [apply Hh'|exact Hd]|]. intros Er Hrw. inv Hrw. constructor; auto.
  - intros n e ds c bs Hf IH Hw Hn Hp Hlen r Hr. cbn [proper reader] in *.
    destruct (SE _ _ _ _ Hf ltac:(lia) Hp) as (Hok & Hu).
    destruct (wrapped_el _ _ _ _ _ Hw ltac:(lia) Hok Hn Hu) as (h & He & _ & _ & Ht & _ & Hlc).
    destruct IH as (os & Hos & Hd & Hm); [lia|exact Hp|lia|].
    pose proof (ok_sequence_of _ _ _ HK h c bs r (reader K e) He (reader_end e) Ht) as H.
    destruct (H _ Hos) as (h' & E & Hh').
    exists (Obj h' (CSequence os)). split; [exact E|]. split; [constructor; [apply Hh'|exact Hd]|]. intros Er Hrw. inv Hrw. constructor; auto.
  - intros n e ds c bs Hf IH Hw Hn Hp Hlen r Hr. cbn [proper reader] in *.
    destruct (SE _ _ _ _ Hf ltac:(lia) Hp) as (Hok & Hu).
    destruct (wrapped_el _ _ _ _ _ Hw ltac:(lia) Hok Hn Hu) as (h & He & _ & _ & Ht & _ & Hlc).
    destruct IH as (os & Hos & Hd & Hm); [lia|exact Hp|lia|].
    pose proof (ok_set_of _ _ _ HK h c bs r (reader K e) He (reader_end e) Ht) as H.
    destruct (H _ Hos) as (h' & E & Hh').
    exists (Obj h' (CSet os)). split; [exact E|]. split; [constructor; [apply Hh'|exact Hd]|]. intros Er Hrw. inv Hrw. constructor; auto.
  - intros n fs ds c bs Hf IH Hw Hn Hp Hlen r Hr. cbn [proper reader] in *.
    destruct (SF _ _ _ _ Hf ltac:(lia) Hp) as (Hok & Hu & _).
    destruct (wrapped_el _ _ _ _ _ Hw ltac:(lia) Hok Hn Hu) as (h & He & _ & _ & Ht & _ & Hlc).
    destruct IH as (os & Hos & Hd & Hm); [lia|exact Hp|lia|].
    pose proof (ok_set _ _ _ HK h c bs r (read_fields K fs) He Ht) as H.
    destruct (H _ _ Hos) as (h' & E & Hh').
    exists (Obj h' (CSet os)). split; [exact E|]. split; [constructor; [apply Hh'|exact Hd]|]. intros Er Hrw. inv Hrw. constructor; auto.
  - intros n cl t e d c bs Hd IH Hw Hn Hp Hlen r Hr. cbn [proper reader] in *. destruct Hp as (Hc & Ht & Hp).
    destruct (SA _ _ _ _ Hd ltac:(lia) Hp) as (Hok & h' & c' & He' & Hne & _).
    assert (Hu : ru <> SpecAbstract.Der -> until_eoc (S n) (c ++ [0; 0])).
    { intros Hr'. rewrite <- (app_nil_r c). eapply (later ru); eauto.
      intros _. eapply (proj2 body_mono_mut); [apply eoc_octets|lia]. }
    destruct (wrapped_el _ _ _ _ _ Hw Ht Hok Hn Hu) as (h & He & _ & H1 & H2 & H3 & Hlc).
    destruct (IH ltac:(lia) Hp ltac:(lia) [] ltac:(constructor)) as (o & Ho & Hdo & Hm). rewrite app_nil_r in Ho.
    pose proof (ok_explicit _ _ _ HK h c bs r t (reader K e) He H2) as H.
    exists (Obj h (CTagged (h_class h) t o)). split; [eapply H; eauto; congruence|]. rewrite H1. split; [now constructor|].
    intros Er Hrw. inv Hrw. constructor; auto. now repeat split.
  - intros n cl t v c ib lb Hc Hs Hib [Hlb Hmin] Hz Hn Hp Hlen r Hr. cbn [proper reader] in *. destruct Hp as (Hcl & Ht).
    pose proof (identifier_ok _ _ _ _ Hib) as Hiok. pose proof (length_ok _ _ Hlb).
    apply identifier_octets in Hib; [|exact Ht].
    set (h := mkHeader cl false t (Definite (N.of_nat (length c))) (Some ib)).
    assert (Hh : header_octets h (ib ++ lb)).
    { exists ib, lb. cbn. repeat split; auto; discriminate. }
    assert (Hdef : definite_element h c (ib ++ lb ++ c)).
    { exists (ib ++ lb). rewrite app_assoc. auto. }
    assert (He : el h c (ib ++ lb ++ c)) by (apply Hel; [now apply definite_is_element|auto]).
    destruct (ok_content _ _ _ HK v c h Hc Hs) as (k & Hk & Hd & Hst); auto.
    { rewrite !app_length in Hlen. lia. }
    pose proof (ok_implicit _ _ _ HK h c (ib ++ lb ++ c) r t (k_content K (value_tag v)) He eq_refl) as H1.
    exists (Obj h k). split; [eapply H1; eauto|]. split; [now constructor|].
    intros Er Hrw. inversion Hrw; subst. constructor; auto. repeat split.
  - intros n cl t fs ds c bs Hf IH Hw Hz Hn Hp Hlen r Hr. cbn [proper reader] in *. destruct Hp as (Hcl & Ht & Hp).
    destruct (SF _ _ _ _ Hf ltac:(lia) Hp) as (Hok & Hu & _).
    destruct (wrapped_el _ _ _ _ _ Hw Ht Hok Hn Hu) as (h & He & _ & H1 & H2 & H3 & Hlc).
    destruct IH as (os & Hos & Hd & Hm); [lia|exact Hp|lia|].
    pose proof (ok_implicit _ _ _ HK h c bs r t (fun c _ _ =>
      let* (r, os) := read_fields K fs c in Ok (r, CSequence os)) He H2) as H.
    exists (Obj h (CSequence os)). split; [eapply H; now rewrite Hos|]. split; [now constructor|].
    intros Er Hrw. inv Hrw. constructor; auto. now repeat split.
  - intros n e1 e2 d bs He IH Hn (Hp & _) Hlen r Hr. destruct (IH Hn Hp Hlen r Hr) as (o & Ho & Hd & Hm).
    exists o. cbn [reader nom_alt]. rewrite Ho. split; [reflexivity|]. split; [now constructor|].
    intros Er Hrw. inv Hrw. constructor. auto.
  - intros n e1 e2 d bs He IH Hn (_ & Hp & Hap) Hlen r Hr. destruct (IH Hn Hp Hlen r Hr) as (o & Ho & Hd & Hm).
    destruct (SA _ _ _ _ He Hn Hp) as (_ & h & c & He1 & _ & Ht & Hdef).
    destruct (Hother e1 h c bs r) as (x & Hx).
    { apply Hel; [eapply element_mono; [|exact He1]; lia|exact Hdef]. }
    { intros Hin. exact (Hap _ Hin Ht). }
    exists o. cbn [reader nom_alt]. rewrite Hx, Ho. split; [reflexivity|]. split; [now constructor|].
    intros Er Hrw. inv Hrw. constructor. auto.
  - intros n _ _ _. exists []. split; [reflexivity|split; constructor].
  - intros n o e fs d ds bs rest He IH Hf IHf Hn Hp Hlen. cbn [proper_fields] in Hp. destruct Hp as (Hp & Hps & _).
    rewrite app_length in Hlen.
    destruct (SF _ _ _ _ Hf Hn Hps) as (Hokr & _ & _).
    destruct (IH Hn Hp ltac:(lia) rest Hokr) as (ob & Hob & Hd & Hm).
    destruct (IHf Hn Hps ltac:(lia)) as (os & Hos & Hds & Hms).
    cbn [read_fields]. destruct o.
    + unfold parse_ber_optional. rewrite Hob. cbn [bind]. rewrite Hos. eexists. split; [reflexivity|]. split; [now constructor|].
      intros Er Hrw. inv Hrw. destruct ob as [h' k']. apply b_optional; auto. repeat split.
    + rewrite Hob. cbn [bind]. rewrite Hos. eexists. split; [reflexivity|]. split; [now constructor|].
      intros Er Hrw. inv Hrw. apply b_component; auto.
  - intros n e fs ds rest Hf IHf Hn Hp Hlen. cbn [proper_fields] in Hp. destruct Hp as (Hp & Hps & Hin). specialize (Hin eq_refl).
    destruct (IHf Hn Hps Hlen) as (os & Hos & Hds & Hms).
    destruct (SF _ _ _ _ Hf Hn Hps) as (_ & _ & Hst).
    assert (Herr : exists x, reader K e rest = Err x).
    { destruct Hst as [->|(h & x & bs & r & -> & Hx & Hdx & Hi)].
      - destruct (reader_end e) as (m & Hm). eauto.
      - destruct (Hother e h x bs r) as (y & Hy); [apply Hel; eauto| |eauto]. intros E. exact (Hin _ E Hi). }
    destruct Herr as (x & Hx). cbn [read_fields]. unfold parse_ber_optional. rewrite Hx. cbn [bind]. rewrite Hos.
    eexists. split; [reflexivity|]. split; [now constructor|]. intros Er Hrw. inv Hrw.
  - intros e n _ _ _. exists []. repeat split; constructor.
  - intros e n d ds bs rest He IH Hf IHf Hn Hp Hlen. rewrite app_length in Hlen.
    destruct (SE _ _ _ _ Hf Hn Hp) as (Hokr & _).
    destruct (SA _ _ _ _ He Hn Hp) as (_ & h & c & He1 & _).
    destruct (IH Hn Hp ltac:(lia) rest Hokr) as (ob & Hob & Hd & Hm).
    destruct (IHf Hn Hp ltac:(lia)) as (os & Hos & Hds & Hms).
    exists (ob :: os). split; [|split; [now constructor|intros Er Hrw; inv Hrw; constructor; auto]]. constructor; auto.
    intros ->. apply element_len in He1 as [_ He1]. cbn in He1. lia.
Qed.

End Reading.

(** ** C89 *)

Theorem C89_ber : forall L e n d bs r, accepts_oids L -> proper e -> (n <= 49)%nat -> bytes_ok r ->
  N.of_nat (length bs) <= 4294967295 ->
  (encodes_as Whole true e n d bs ->
     exists o, reader (ber_kit L) e (bs ++ r) = Ok (r, o) /\ decoded Whole e d o)
  /\ (encodes_as SpecAbstract.Der false e n d bs ->
     exists o, reader (ber_kit L) e (bs ++ r) = Ok (r, o) /\ decoded SpecAbstract.Der e d o).
Proof.
  intros L e n d bs r HL Hp Hn Hr Hlen. split; intros H.
  - destruct (proj1 (reads Whole true L (element 50) (ber_kit L) ltac:(discriminate) ltac:(auto) HL (ber_kit_ok Whole L ltac:(discriminate) HL) (reader_other L false) ltac:(auto)) _ _ _ _ H Hn Hp Hlen r Hr) as (o & Ho & Hd & _); eauto.
  - destruct (proj1 (reads SpecAbstract.Der false L (element 50) (ber_kit L) ltac:(discriminate) ltac:(auto) HL (ber_kit_ok SpecAbstract.Der L ltac:(discriminate) HL) (reader_other L false) ltac:(auto)) _ _ _ _ H Hn Hp Hlen r Hr) as (o & Ho & Hd & _); eauto.
Qed.
Print Assumptions C89_ber.

Theorem C89_der : forall L e n d bs r, accepts_oids L -> proper e -> (n <= 49)%nat -> bytes_ok r ->
  N.of_nat (length bs) <= 4294967295 -> encodes_as SpecAbstract.Der false e n d bs ->
  exists o, reader (der_kit L) e (bs ++ r) = Ok (r, o) /\ decoded SpecAbstract.Der e d o.
Proof.
  intros L e n d bs r HL Hp Hn Hr Hlen H.
  destruct (proj1 (reads SpecAbstract.Der false L definite_element (der_kit L) ltac:(discriminate) ltac:(auto) HL (der_kit_ok L HL) (reader_other L true) ltac:(auto)) _ _ _ _ H Hn Hp Hlen r Hr) as (o & Ho & Hd & _); eauto.
Qed.
Print Assumptions C89_der.

(** The object holds one value only, so octets are an encoding of one value only. *)
Scheme decoded_mind := Induction for decoded Sort Prop
with decoded_fields_mind := Induction for decoded_fields Sort Prop
with decoded_each_mind := Induction for decoded_each Sort Prop.
Combined Scheme decoded_schema_ind from decoded_mind, decoded_fields_mind, decoded_each_mind.

Lemma decoded_tag ru e d o : decoded ru e d o -> In (h_tag (o_header o)) (ty_tags e).
Proof.
  unfold ty_tags. induction 1; cbn [alternatives map ty_tag o_header In]; auto;
    rewrite map_app, in_app_iff; auto.
Qed.

Lemma decoded_unique ru : ru <> SpecAbstract.Ber ->
  (forall e d o, decoded ru e d o -> proper e -> forall d', decoded ru e d' o -> d = d')
  /\ (forall fs ds os, decoded_fields ru fs ds os -> proper_fields fs -> forall ds', decoded_fields ru fs ds' os -> ds = ds')
  /\ (forall e ds os, decoded_each ru e ds os -> proper e -> forall ds', decoded_each ru e ds' os -> ds = ds').
Proof.
  intros Hru. pose proof (proj1 (denotes_unique ru Hru)) as HD. apply decoded_schema_ind; intros;
    (match goal with H : _ _ _ ?x _ |- _ = ?x => inversion H; subst end);
    repeat match goal with H : proper (_ _) |- _ => cbn [proper] in H | H : proper (_ _ _) |- _ => cbn [proper] in H
      | H : proper (_ _ _ _) |- _ => cbn [proper] in H | H : proper_fields _ |- _ => cbn [proper_fields] in H
      | H : _ /\ _ |- _ => destruct H end;
    try (exfalso; match goal with
      H : decoded ru ?a _ ?o, H' : decoded ru ?b _ ?o, Hap : apart (ty_tags ?a) (ty_tags ?b) |- _ =>
        exact (Hap _ (decoded_tag _ _ _ _ H) (decoded_tag _ _ _ _ H')) end);
    f_equal; eauto.
  all: f_equal; eauto.
Qed.

Theorem C89_one_value : forall L e n n' d d' bs bs' r r', accepts_oids L -> proper e ->
  (n <= 49)%nat -> (n' <= 49)%nat -> bytes_ok r -> bytes_ok r' ->
  N.of_nat (length bs) <= 4294967295 -> N.of_nat (length bs') <= 4294967295 -> bs ++ r = bs' ++ r' ->
  (encodes_as Whole true e n d bs -> encodes_as Whole true e n' d' bs' -> d = d' /\ bs = bs')
  /\ (encodes_as SpecAbstract.Der false e n d bs -> encodes_as SpecAbstract.Der false e n' d' bs' -> d = d' /\ bs = bs').
Proof.
  intros L e n n' d d' bs bs' r r' HL Hp Hn Hn' Hr Hr' Hl Hl' E. split; intros H H'.
  - destruct (proj1 (C89_ber L e n d bs r HL Hp Hn Hr Hl) H) as (o & Ho & Hd).
    destruct (proj1 (C89_ber L e n' d' bs' r' HL Hp Hn' Hr' Hl') H') as (o' & Ho' & Hd').
    rewrite E, Ho' in Ho. injection Ho as <- <-. split; [|now apply app_inv_tail in E].
    exact (proj1 (decoded_unique Whole ltac:(discriminate)) _ _ _ Hd Hp _ Hd').
  - destruct (C89_der L e n d bs r HL Hp Hn Hr Hl H) as (o & Ho & Hd).
    destruct (C89_der L e n' d' bs' r' HL Hp Hn' Hr' Hl' H') as (o' & Ho' & Hd').
    rewrite E, Ho' in Ho. injection Ho as <- <-. split; [|now apply app_inv_tail in E].
    exact (proj1 (decoded_unique SpecAbstract.Der ltac:(discriminate)) _ _ _ Hd Hp _ Hd').
Qed.
Print Assumptions C89_one_value.

(** Distinct tags in the sense of X.680 are not enough: SEQUENCE { a INTEGER
    OPTIONAL, b [2] IMPLICIT OCTET STRING }, with [a] absent.  The octet string is
    taken for the INTEGER, since the class is not compared, and then [b] is missed. *)
Definition same_number : ty :=
  TSequence (FCons true (TValue 2) (FCons false (TImplicit ContextSpecific 2 4) FNil)).

Lemma der_short n : n < 128 -> definite_length SpecAbstract.Der n [n].
Proof. intros H. split; [now apply length_short|]. intros _ lb' Hl. inv Hl; cbn [length]; lia. Qed.

Lemma any_short ru n : n < 128 -> definite_length ru n [n].
Proof. intros H. destruct (der_short n H) as [H1 H2]. split; auto. Qed.

Theorem C89_class_refuted : exists d bs, encodes_as SpecAbstract.Der true same_number 2 d bs
  /\ (exists x, reader (der_kit SL) same_number bs = Err x)
  /\ (exists x, reader (ber_kit SL) same_number bs = Err x).
Proof.
  exists (DRecord [None; Some (DValue (AOctetString [5; 0]))]), [48; 4; 130; 2; 5; 0]. split.
  - refine (as_sequence _ _ 1 _ _ [130; 2; 5; 0] _ _ _).
    + apply as_absent. refine (as_present _ _ 1 false _ FNil _ [] [130; 2; 5; 0] [] _ _); [|constructor].
      refine (as_implicit _ _ 0 ContextSpecific 2 (AOctetString [5; 0]) [5; 0] [130] [2] _ _ _ _ _).
      * apply c_octet_string. repeat constructor.
      * apply sup_other. exact I.
      * left. split; reflexivity.
      * now apply any_short.
      * discriminate.
    + exists [48]. split; [left; split; reflexivity|]. left. exists [4]. split; [now apply any_short|reflexivity].
  - split; eexists; vm_compute; reflexivity.
Qed.
Print Assumptions C89_class_refuted.

Ltac is_proper := cbn; unfold apart; repeat split; try discriminate; try (intros; cbn in *; intuition congruence).

(** An empty value under an implicit tag [0], in a SEQUENCE of indefinite length,
    is taken for the end of the SEQUENCE. *)
Definition zero_tag : ty := TSequence (FCons false (TImplicit ContextSpecific 0 5) FNil).

Theorem C89_zero_refuted : exists d bs, proper zero_tag /\ encodes_as Whole false zero_tag 2 d bs
  /\ exists x, reader (ber_kit SL) zero_tag bs = Err x.
Proof.
  exists (DRecord [Some (DValue ANull)]), [48; 128; 128; 0; 0; 0]. split; [|split].
  - cbn. repeat split; discriminate.
  - refine (as_sequence _ _ 1 _ _ [128; 0] _ _ _).
    + refine (as_present _ _ 1 false _ FNil _ [] [128; 0] [] _ _); [|constructor].
      refine (as_implicit _ _ 0 ContextSpecific 0 ANull [] [128] [0] _ _ _ _ _).
      * constructor.
      * apply sup_other. exact I.
      * left. split; reflexivity.
      * now apply any_short.
      * discriminate.
    + exists [48]. split; [left; split; reflexivity|]. right. split; [discriminate|reflexivity].
  - eexists. vm_compute. reflexivity.
Qed.
Print Assumptions C89_zero_refuted.

(** The converse does not hold: octets that encode no value of the type are
    accepted, since what a callback leaves of the contents is dropped and an
    OPTIONAL component that cannot be parsed counts as absent.  Here a SEQUENCE
    { a INTEGER OPTIONAL } whose INTEGER is cut short. *)
Definition one_optional : ty := TSequence (FCons true (TValue 2) FNil).

Theorem C89_only_refuted : exists bs, (forall n d, ~ encodes_as Whole false one_optional n d bs)
  /\ exists h h', reader (ber_kit SL) one_optional bs = Ok ([], Obj h (CSequence [Obj h' (COptional None)]))
       /\ reader (der_kit SL) one_optional bs = Ok ([], Obj h (CSequence [Obj h' (COptional None)])).
Proof.
  exists [48; 2; 2; 1]. split.
  - intros n d H. inversion H as [|n' fs ds c bs Hf Hw| | | | | | | |]; subst.
    destruct Hw as (ib & Hib & Hw).
    assert (Eib : ib = [48] /\ (exists lb, definite_length Whole (N.of_nat (length c)) lb /\ lb ++ c = [2; 2; 1])).
    { destruct Hib as [(_ & ->)|(Hl & _)]; [|lia]. split; [reflexivity|].
      destruct Hw as [(lb & Hlb & E)|(_ & E)]; cbn [app] in E.
      - exists lb. split; [exact Hlb|]. apply (f_equal (@tl N)) in E. now symmetry.
      - apply (f_equal (fun l => nth 1 l 0)) in E. discriminate. }
    destruct Eib as (-> & lb & [Hlb _] & E).
    assert (Ec : c = [2; 1]).
    { inversion Hlb as [x Hx|ds' Hl Hd Hu|]; subst.
      - apply (f_equal (@tl N)) in E. exact E.
      - apply (f_equal (hd 0)) in E. cbn [app hd] in E. lia. }
    subst c. clear - Hf.
    inversion Hf as [|m o e fs' d ds' b rest Hb Hr|m e fs' ds' rest Hr]; subst.
    + inversion Hr; subst. rewrite app_nil_r in *. inversion Hb; subst.
      match goal with H : encodes _ _ _ _ |- _ => rename H into He end.
      inversion He as [n0 v0 c lb Hc [Hlb _] E1 E2 E3| | | |]; subst; try discriminate.
      2: contradiction.
      match goal with E : lb ++ c = [1] |- _ => rename E into Es end.
      inversion Hlb as [x Hx|ds' Hl Hd Hu|]; subst.
      * assert (E0 : c = []) by (apply (f_equal (@tl N)) in Es; exact Es). subst c. discriminate.
      * apply (f_equal (hd 0)) in Es. cbn [app hd] in Es. lia.
    + inversion Hr.
  - do 2 eexists. split; vm_compute; reflexivity.
Qed.
Print Assumptions C89_only_refuted.

(** A type with every kind of component but one, an encoding of one of its values
    with indefinite lengths, and the distinguished one. *)
Definition sample_schema : ty :=
  TSequence (FCons true (TExplicit ContextSpecific 0 (TValue 2)) (FCons false (TValue 2)
    (FCons true (TImplicit ContextSpecific 1 1) (FCons false (TSequenceOf (TValue 12)) FNil)))).

Definition sample_data : data :=
  DRecord [Some (DInside (DValue (AInteger (twos_complement [2])))); Some (DValue (AInteger (twos_complement [5])));
    None; Some (DList [DValue (AText TUtf8 [233])])].

Lemma sample_encodes ru lim w ex bs : wrapped ru ContextSpecific 0 [2; 1; 2] ex ->
  w = ex ++ [2; 1; 5; 48; 4; 12; 2; 195; 169] -> wrapped ru Universal 16 w bs ->
  encodes_as ru lim sample_schema 3 sample_data bs.
Proof.
  assert (Hint : forall n x, x < 128 -> encodes_as ru lim (TValue 2) (S n) (DValue (AInteger (twos_complement [x]))) [2; 1; x]).
  { intros n x Hx. refine (as_value ru lim (S n) (AInteger (twos_complement [x])) [2; 1; x] _ I _); [|now apply sup_other].
    refine (e_primitive ru n (AInteger (twos_complement [x])) [x] [1] _ _); [|now apply any_short].
    apply c_integer; [constructor; [lia|constructor]|exact I]. }
  intros Hx -> Hw. refine (as_sequence ru lim 2 _ _ (ex ++ [2; 1; 5; 48; 4; 12; 2; 195; 169]) bs _ Hw).
  apply as_present; [eapply as_explicit; [exact (Hint 0%nat 2 eq_refl)|exact Hx]|].
  refine (as_present ru lim 2 false _ _ _ _ [2; 1; 5] [48; 4; 12; 2; 195; 169] (Hint 1%nat 5 eq_refl) _).
  apply as_absent. refine (as_present ru lim 2 false _ FNil _ [] [48; 4; 12; 2; 195; 169] [] _ (as_no_field _ _ _)).
  refine (as_sequence_of ru lim 1 _ _ [12; 2; 195; 169] _ _ _).
  - refine (as_element ru lim (TValue 12) 1 _ [] [12; 2; 195; 169] [] _ (as_no_element _ _ _ _)).
    refine (as_value ru lim 1 (AText TUtf8 [233]) _ _ I _); [|now apply sup_other].
    refine (e_primitive ru 0 (AText TUtf8 [233]) [195; 169] [2] _ _); [|now apply any_short].
    refine (c_text ru TUtf8 [233] _). constructor; [|constructor]. left. reflexivity.
  - exists [48]. split; [left; split; reflexivity|]. left. exists [4]. split; [now apply any_short|reflexivity].
Qed.

Example C89_ex : accepts_oids SL /\ proper sample_schema
  /\ encodes_as Whole true sample_schema 3 sample_data
       (hx "30 80 a0 80 02 01 02 00 00 02 01 05 30 04 0c 02 c3 a9 00 00")
  /\ encodes_as SpecAbstract.Der false sample_schema 3 sample_data (hx "30 0e a0 03 02 01 02 02 01 05 30 04 0c 02 c3 a9")
  /\ (exists h h0 h1 h2 h3 h4 h5 h6, reader (ber_kit SL) sample_schema
         (hx "30 80 a0 80 02 01 02 00 00 02 01 05 30 04 0c 02 c3 a9 00 00 aa")
       = Ok ([170], Obj h (CSequence [
           Obj h0 (COptional (Some (Obj h1 (CTagged ContextSpecific 0 (Obj h2 (CInteger [2]))))));
           Obj h3 (CInteger [5]); Obj h4 (COptional None);
           Obj h5 (CSequence [Obj h6 (CStr KUTF8 [195; 169])])])))
  /\ exists o, reader (der_kit SL) sample_schema (hx "30 0e a0 03 02 01 02 02 01 05 30 04 0c 02 c3 a9 aa") = Ok ([170], o).
Proof.
  split; [exact SL_accepts_oids|]. split.
  { is_proper. }
  split; [|split; [|split]].
  - eapply (sample_encodes _ _ _ [160; 128; 2; 1; 2; 0; 0]); [|reflexivity|].
    + exists [160]. split; [left; split; reflexivity|]. right. split; [discriminate|reflexivity].
    + exists [48]. split; [left; split; reflexivity|]. right. split; [discriminate|reflexivity].
  - eapply (sample_encodes _ _ _ [160; 3; 2; 1; 2]); [|reflexivity|].
    + exists [160]. split; [left; split; reflexivity|]. left. exists [3]. split; [now apply any_short|reflexivity].
    + exists [48]. split; [left; split; reflexivity|]. left. exists [14]. split; [now apply any_short|reflexivity].
  - do 8 eexists. vm_compute. reflexivity.
  - eexists. vm_compute. reflexivity.
Qed.
