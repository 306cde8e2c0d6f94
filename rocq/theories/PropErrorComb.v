(** * Property C104: the errors of the combinators. *)

From Coq Require Import String.
From Verif Require Import Base Asn1rs Ber Der Combinators Spec SpecValue SpecError SpecComb
  LemBase LemHeader LemSkip LemParse LemDer LemComb PropFraming PropError PropTotal Conformance.
Local Open Scope string_scope.
Local Open Scope N_scope.
Local Open Scope list_scope.

Section combinators.
Context {E A : Type} (ops : err_ops E).
Let into := from_ber_error ops.
Let kind := from_error_kind ops.

Lemma convert_passed e : err_convert ops e = passed into e.
Proof. destruct e; reflexivity. Qed.

Lemma take_complete_err l i e :
  take_complete ops l i = Err e <-> N.of_nat (length i) < l /\ e = Error (kind i EkEof).
Proof.
  unfold take_complete, nlen. destruct (N.of_nat (length i) <? l) eqn:El.
  - split; [intros H; inv H; split; [lia|reflexivity]|intros [_ ->]; reflexivity].
  - split; [discriminate|lia].
Qed.

Definition container (der : bool) (f : bytes -> header -> iresult E A) : bytes -> iresult E A :=
  if der then parse_der_container ops f else parse_ber_container ops f.

Lemma container_framed der f h c bs r : framed der h c bs ->
  container der f (bs ++ r) = (let* (_, v) := f c h in Ok (r, v)).
Proof. destruct der; [apply der_container_complete|apply ber_container_complete]. Qed.

Lemma container_split der i : bytes_ok i ->
  (exists h c bs r, i = bs ++ r /\ framed der h c bs)
  \/ exists e, container_fault into kind der i e /\ forall f, container der f i = Err e.
Proof.
  intros Hok. destruct der.
  - unfold container, parse_der_container, der_read_element_header.
    destruct (header_from_der i) as [[i1 h]|e| |] eqn:Eh.
    + pose proof (header_from_der_ber _ _ _ Eh) as [Hb [n Hn]].
      apply header_from_ber_sound in Hb as (hb & -> & Hh); [|exact Hok]. cbn [map_err bind]. rewrite Hn.
      destruct (take_complete ops n i1) as [[r c]|e| |] eqn:Et.
      * apply take_complete_ok in Et as [-> Et]. left. exists h, c, (hb ++ c), r. rewrite app_assoc. split; [reflexivity|].
        exists hb. repeat split; auto. rewrite Hn. unfold nlen in Et. now rewrite Et.
      * right. apply take_complete_err in Et as [Et ->]. eexists. split; [eapply kf_short; eauto|reflexivity].
      * exfalso. now apply (take_complete_total ops n i1) in Et.
      * exfalso. now apply (take_complete_total ops n i1) in Et.
    + right. exists (passed into e). split; [apply kf_header; now apply der_header_err|].
      intros f. cbn [map_err bind]. now rewrite convert_passed.
    + exfalso. now apply (header_from_der_total i) in Eh.
    + exfalso. now apply (header_from_der_total i) in Eh.
  - unfold container, parse_ber_container, ber_read_element_header.
    destruct (header_from_ber i) as [[i1 h]|e| |] eqn:Eh.
    + apply header_from_ber_sound in Eh as (hb & -> & Hh); [|exact Hok]. apply bytes_ok_app in Hok as [_ Hok].
      cbn [map_err bind]. destruct (h_length h) as [n|] eqn:Hn.
      * destruct (take_complete ops n i1) as [[r c]|e| |] eqn:Et.
        -- apply take_complete_ok in Et as [-> Et]. left. exists h, c, (hb ++ c), r. rewrite app_assoc. split; [reflexivity|].
           apply definite_is_element. exists hb. repeat split; auto. rewrite Hn. unfold nlen in Et. now rewrite Et.
        -- right. apply take_complete_err in Et as [Et ->]. eexists. split; [eapply kf_short; eauto|reflexivity].
        -- exfalso. now apply (take_complete_total ops n i1) in Et.
        -- exfalso. now apply (take_complete_total ops n i1) in Et.
      * destruct (ber_get_object_content i1 h MAX_RECURSION) as [[r c]|e| |] eqn:Eg.
        -- left. apply get_content_sound in Eg as (b & -> & Hb & ->); [|exact Hok].
           exists h, (content_octets h b), (hb ++ b), r. rewrite app_assoc. split; [reflexivity|].
           exists hb, b. auto.
        -- right. exists (passed into e). split; [eapply kf_body; eauto; now apply content_err in Eg|].
           intros f. cbn [map_err bind]. now rewrite convert_passed.
        -- exfalso. now apply (get_content_total MAX_RECURSION i1 h) in Eg.
        -- exfalso. now apply (get_content_total MAX_RECURSION i1 h) in Eg.
    + right. exists (passed into e). split; [apply kf_header; now apply ber_header_err|].
      intros f. cbn [map_err bind]. now rewrite convert_passed.
    + exfalso. now apply (header_from_ber_total i) in Eh.
    + exfalso. now apply (header_from_ber_total i) in Eh.
Qed.

Lemma container_fault_err der f i e : bytes_ok i -> container_fault into kind der i e ->
  container der f i = Err e.
Proof.
  intros Hok H. destruct H as [i e H|h hb n i Hh Hn Hlt|h hb i e Hd Hh Hn Hb].
  - destruct der; unfold container, parse_ber_container, parse_der_container, ber_read_element_header,
      der_read_element_header; [apply der_header_err in H|apply ber_header_err in H]; auto;
      rewrite H; cbn [map_err bind]; now rewrite convert_passed.
  - destruct der; unfold container, parse_ber_container, parse_der_container, ber_read_element_header,
      der_read_element_header;
      [rewrite (header_from_der_complete _ _ _ Hh) by congruence|rewrite (header_from_ber_complete _ _ _ Hh)];
      cbn [map_err bind]; rewrite Hn; rewrite (proj2 (take_complete_err _ _ _) (conj Hlt eq_refl)); reflexivity.
  - subst der. unfold container, parse_ber_container, ber_read_element_header.
    rewrite (header_from_ber_complete _ _ _ Hh). cbn [map_err bind]. rewrite Hn.
    apply bytes_ok_app in Hok as [_ Hok]. apply content_err in Hb; auto.
    change MAX_RECURSION with 50%nat. rewrite Hb. cbn [map_err bind]. now rewrite convert_passed.
Qed.

Lemma container_err der (wants : header -> berror -> Prop) chk f g i e : bytes_ok i ->
  (forall h x, wants h x <-> chk h = Some x) ->
  (forall c h, g c h = match chk h with Some x => Err (Error (into x)) | None => f c h end) ->
  container der g i = Err e <-> combinator_fault into kind der wants (fun c h e => f c h = Err e) i e.
Proof.
  intros Hok Hw Hg. split.
  - intros H. destruct (container_split der i Hok) as [(h & c & bs & r & -> & Hf)|(x & Hx & Hall)].
    + rewrite (container_framed _ _ _ _ _ r Hf), Hg in H. destruct (chk h) as [x|] eqn:Ec.
      * cbn in H. inv H. eapply xf_header; eauto. now apply Hw.
      * apply bind_err in H as [H|([u v] & _ & H)]; [|discriminate].
        eapply xf_callback; eauto. intros x Hx. apply Hw in Hx. congruence.
    + rewrite Hall in H. inv H. now apply xf_container.
  - intros H. destruct H as [i e H|h c bs r x Hf Hx|h c bs r e Hf Hx He].
    + now apply container_fault_err.
    + rewrite (container_framed _ _ _ _ _ r Hf), Hg. apply Hw in Hx. now rewrite Hx.
    + rewrite (container_framed _ _ _ _ _ r Hf), Hg.
      destruct (chk h) as [x|] eqn:Ec; [apply Hw in Ec; now apply Hx in Ec|]. now rewrite He.
Qed.

(** The checks of the program, as functions. *)
Definition tag_check (t : tag) (h : header) : option berror :=
  if h_tag h =? t then None else Some (UnexpectedTag (Some t) (h_tag h)).
Definition explicit_check (t : tag) (h : header) : option berror :=
  if class_eqb (h_class h) Universal then Some (UnexpectedClass None Universal)
  else match tag_check t h with
       | Some e => Some e
       | None => if h_constructed h then None else Some ConstructExpected
       end.

Lemma wants_tag_iff t h x : wants_tag t h x <-> tag_check t h = Some x.
Proof.
  unfold wants_tag, tag_check. destruct (N.eqb_spec (h_tag h) t) as [Eq|Ne]; split; intros H.
  - now destruct H.
  - discriminate.
  - destruct H as [_ ->]. reflexivity.
  - inv H. auto.
Qed.

Lemma class_eqb_spec a b : class_eqb a b = true <-> a = b.
Proof. destruct a, b; cbn; split; congruence. Qed.

Lemma wants_explicit_iff t h x : wants_explicit t h x <-> explicit_check t h = Some x.
Proof.
  unfold explicit_check. destruct (class_eqb (h_class h) Universal) eqn:Ec.
  - apply class_eqb_spec in Ec. split; intros H.
    + destruct H; congruence.
    + inv H. now apply we_class.
  - assert (Hc : h_class h <> Universal) by (intros Hc; apply class_eqb_spec in Hc; congruence).
    split; intros H.
    + destruct H as [H|e _ H|_ Ht Hp]; [congruence| |].
      * apply wants_tag_iff in H. now rewrite H.
      * unfold tag_check. rewrite Ht, N.eqb_refl, Hp. reflexivity.
    + destruct (tag_check t h) as [y|] eqn:Et.
      * inv H. apply we_tag; [exact Hc|]. now apply wants_tag_iff.
      * unfold tag_check in Et. destruct (N.eqb_spec (h_tag h) t); [|discriminate].
        destruct (h_constructed h) eqn:Ep; [discriminate|]. inv H. now apply we_form.
Qed.

(** ** SEQUENCE OF and SET OF *)

Lemma many0_err f : nom_parser f ->
  forall fuel acc c e, (length c < fuel)%nat ->
  (let* (r, o) := nom_many0_loop ops (nom_complete ops (nom_cut f)) fuel acc c in
   match r with [] => Ok (r, o) | _ :: _ => Err (Error (kind r EkEof)) end) = Err e ->
  elements_fault (A := A) kind f c e.
Proof.
  intros Hf. induction fuel as [|fuel IH]; intros acc c e Hlt H; [lia|]. cbn [nom_many0_loop] in H.
  destruct (f c) as [[i1 o]|x| |] eqn:Ef.
  - rewrite (proj2 (cc_ok ops f c i1 o) Ef) in H. destruct (Hf _ _ _ Ef) as [p ->].
    destruct (length i1 =? length (p ++ i1))%nat eqn:El.
    + cbn in H. inv H. apply Nat.eqb_eq in El. rewrite app_length in El.
      assert (p = []) by (destruct p; [reflexivity|cbn in El; lia]). subst p. cbn [app] in *.
      eapply lf_stuck; [apply reaches_here|exact Ef].
    + apply Nat.eqb_neq in El. rewrite app_length in *.
      assert (Hp : p <> []) by (intros ->; cbn in El; lia).
      apply IH in H; [|lia].
      destruct H as [c' y Hr Hy|c' y Hr Hy|c' n Hr Hy Hn|c' v Hr Hy].
      * eapply lf_error; [|exact Hy]. eapply reaches_next; eauto.
      * eapply lf_failure; [|exact Hy]. eapply reaches_next; eauto.
      * eapply lf_left; [|exact Hy|exact Hn]. eapply reaches_next; eauto.
      * eapply lf_stuck; [|exact Hy]. eapply reaches_next; eauto.
  - unfold nom_complete, nom_cut in H. rewrite Ef in H. cbn [map_err] in H.
    destruct x as [n|y|y]; cbn [bind] in H.
    + destruct c as [|b c]; [discriminate|]. inv H. eapply lf_left; [apply reaches_here|exact Ef|discriminate].
    + inv H. eapply lf_error; [apply reaches_here|exact Ef].
    + inv H. eapply lf_failure; [apply reaches_here|exact Ef].
  - unfold nom_complete, nom_cut in H. rewrite Ef in H. discriminate.
  - unfold nom_complete, nom_cut in H. rewrite Ef in H. discriminate.
Qed.

Lemma of_err f c e : nom_parser f ->
  of_subparser ops f c = Err e <-> elements_fault (A := A) kind f c e.
Proof.
  intros Hf. split.
  - intros H. unfold of_subparser, nom_all_consuming, nom_many0 in H. eapply many0_err; eauto.
  - intros H. destruct H as [c' y Hr Hy|c' y Hr Hy|c' n Hr Hy Hn|c' v Hr Hy].
    1-3: destruct (of_subparser_error ops f _ _ Hr) as (H1 & H2 & H3); eauto.
    unfold of_subparser, nom_all_consuming, nom_many0.
    destruct (many0_error ops f _ _ Hr (S (length c)) []) as (acc & fuel & Hl & ->); [lia|].
    destruct fuel as [|fuel]; [lia|]. cbn [nom_many0_loop].
    rewrite (proj2 (cc_ok ops f _ _ _) Hy), Nat.eqb_refl. reflexivity.
Qed.
End combinators.

(** ** The theorems *)

Lemma assert_tag_check {E A} (ops : err_ops E) t h (k : iresult E A) :
  (let* _ := map_err (err_into ops) (assert_tag h t) in k)
  = match tag_check t h with Some x => Err (Error (from_ber_error ops x)) | None => k end.
Proof. unfold tag_check, assert_tag. destruct (h_tag h =? t); reflexivity. Qed.

Lemma fault_fails_ext {E} (into : berror -> E) kind der wants (P Q : bytes -> header -> nerr E -> Prop) i e :
  (forall c h e, P c h e <-> Q c h e) ->
  combinator_fault into kind der wants P i e <-> combinator_fault into kind der wants Q i e.
Proof.
  intros H. split; intros [j x Hx|h c bs r x Hf Hx|h c bs r x Hf Hx He];
    [now apply xf_container|eapply xf_header; eauto|eapply xf_callback; eauto; now apply H
    |now apply xf_container|eapply xf_header; eauto|eapply xf_callback; eauto; now apply H].
Qed.

Section theorems.
Context {E A : Type} (ops : err_ops E).
Let fault := combinator_fault (from_ber_error ops) (from_error_kind ops).

Theorem C104_container (f : bytes -> header -> iresult E A) i e : bytes_ok i ->
  (parse_ber_container ops f i = Err e
   <-> fault false (fun _ _ => False) (fun c h e => f c h = Err e) i e)
  /\ (parse_der_container ops f i = Err e
   <-> fault true (fun _ _ => False) (fun c h e => f c h = Err e) i e).
Proof.
  intros Hok.
  split; [apply (container_err ops false _ (fun _ => None))|apply (container_err ops true _ (fun _ => None))];
    auto; split; now intros.
Qed.

Theorem C104_defined (f : bytes -> header -> iresult E A) i e : bytes_ok i ->
  (parse_ber_sequence_defined_g ops f i = Err e
   <-> fault false (wants_tag 16) (fun c h e => f c h = Err e) i e)
  /\ (parse_ber_set_defined_g ops f i = Err e
   <-> fault false (wants_tag 17) (fun c h e => f c h = Err e) i e)
  /\ (parse_der_sequence_defined_g ops f i = Err e
   <-> fault true (wants_tag 16) (fun c h e => f c h = Err e) i e)
  /\ (parse_der_set_defined_g ops f i = Err e
   <-> fault true (wants_tag 17) (fun c h e => f c h = Err e) i e).
Proof.
  intros Hok. repeat split;
  [apply (container_err ops false _ (tag_check 16))|apply (container_err ops false _ (tag_check 16))
  |apply (container_err ops false _ (tag_check 17))|apply (container_err ops false _ (tag_check 17))
  |apply (container_err ops true _ (tag_check 16))|apply (container_err ops true _ (tag_check 16))
  |apply (container_err ops true _ (tag_check 17))|apply (container_err ops true _ (tag_check 17))];
  auto using wants_tag_iff; intros c h; apply assert_tag_check.
Qed.

Theorem C104_explicit (f : bytes -> header -> iresult E A) t i e : bytes_ok i ->
  (parse_ber_tagged_explicit_g ops t f i = Err e
   <-> fault false (wants_explicit t) (fun c h e => f c h = Err e) i e)
  /\ (parse_der_tagged_explicit_g ops t f i = Err e
   <-> fault true (wants_explicit t) (fun c h e => f c h = Err e) i e).
Proof.
  intros Hok.
  split; [apply (container_err ops false _ (explicit_check t))|apply (container_err ops true _ (explicit_check t))];
    auto using wants_explicit_iff; intros c h; unfold explicit_check;
    destruct (class_eqb (h_class h) Universal) eqn:Ec;
    try (apply class_eqb_spec in Ec; rewrite Ec; reflexivity);
    rewrite assert_tag_check; destruct (tag_check t h); try reflexivity;
    unfold assert_constructed; destruct (h_constructed h); reflexivity.
Qed.

Theorem C104_implicit (f : bytes -> header -> nat -> iresult E A) t i e : bytes_ok i ->
  (parse_ber_tagged_implicit_g ops t f i = Err e
   <-> fault false (wants_tag t) (fun c h e => f c h 50%nat = Err e) i e)
  /\ (parse_der_tagged_implicit_g ops t f i = Err e
   <-> fault true (wants_tag t) (fun c h e => f c h 50%nat = Err e) i e).
Proof.
  intros Hok.
  split; [apply (container_err ops false _ (tag_check t) (fun c h => f c h 50%nat))
         |apply (container_err ops true _ (tag_check t) (fun c h => f c h 50%nat))];
    auto using wants_tag_iff; intros c h; apply assert_tag_check.
Qed.

Theorem C104_of (f : bytes -> iresult E A) i e : bytes_ok i -> nom_parser f ->
  (parse_ber_sequence_of_v ops f i = Err e
   <-> fault false (wants_tag 16) (fun c _ => elements_fault (from_error_kind ops) f c) i e)
  /\ (parse_ber_set_of_v ops f i = Err e
   <-> fault false (wants_tag 17) (fun c _ => elements_fault (from_error_kind ops) f c) i e)
  /\ (parse_der_sequence_of_v ops f i = Err e
   <-> fault true (wants_tag 16) (fun c _ => elements_fault (from_error_kind ops) f c) i e)
  /\ (parse_der_set_of_v ops f i = Err e
   <-> fault true (wants_tag 17) (fun c _ => elements_fault (from_error_kind ops) f c) i e).
Proof.
  intros Hok Hf.
  assert (Hext : forall der w, fault der w (fun c h e => of_subparser ops f c = Err e) i e
      <-> fault der w (fun c _ => elements_fault (from_error_kind ops) f c) i e).
  { intros der w. apply fault_fails_ext. intros c _ x. now apply of_err. }
  split; [|split; [|split]]; rewrite <- Hext;
  [apply (container_err ops false _ (tag_check 16) (fun c _ => of_subparser ops f c))
  |apply (container_err ops false _ (tag_check 17) (fun c _ => of_subparser ops f c))
  |apply (container_err ops true _ (tag_check 16) (fun c _ => of_subparser ops f c))
  |apply (container_err ops true _ (tag_check 17) (fun c _ => of_subparser ops f c))];
  auto using wants_tag_iff; intros c h; apply assert_tag_check.
Qed.
End theorems.

(** The versions that build objects, where the error type is [BerError]. *)

Definition ber_kind (i : bytes) (k : error_kind) : berror := ENomError k.
Definition object_fault := combinator_fault (fun e => e) ber_kind.

Lemma nom_map_err {E A B} (g : A -> B) (p : bytes -> iresult E A) i e :
  nom_map g p i = Err e <-> p i = Err e.
Proof. unfold nom_map. destruct (p i) as [[]|x| |]; cbn; split; congruence. Qed.

Lemma wrap_err {E A B} (r : iresult E A) (g : A -> B) e :
  (let* (u, o) := r in Ok (u, g o)) = Err e <-> r = Err e.
Proof. destruct r as [[]|x| |]; cbn; split; congruence. Qed.

Theorem C104_objects i e : bytes_ok i ->
  (forall f : bytes -> iresult berror obj, nom_parser f ->
    (parse_ber_sequence_of f i = Err e
     <-> object_fault false (wants_tag 16) (fun c _ => elements_fault ber_kind f c) i e)
    /\ (parse_ber_set_of f i = Err e
     <-> object_fault false (wants_tag 17) (fun c _ => elements_fault ber_kind f c) i e)
    /\ (parse_der_sequence_of f i = Err e
     <-> object_fault true (wants_tag 16) (fun c _ => elements_fault ber_kind f c) i e)
    /\ (parse_der_set_of f i = Err e
     <-> object_fault true (wants_tag 17) (fun c _ => elements_fault ber_kind f c) i e))
  /\ (forall f : bytes -> iresult berror (list obj),
    (parse_ber_sequence_defined f i = Err e
     <-> object_fault false (wants_tag 16) (fun c _ e => f c = Err e) i e)
    /\ (parse_ber_set_defined f i = Err e
     <-> object_fault false (wants_tag 17) (fun c _ e => f c = Err e) i e)
    /\ (parse_der_sequence_defined f i = Err e
     <-> object_fault true (wants_tag 16) (fun c _ e => f c = Err e) i e)
    /\ (parse_der_set_defined f i = Err e
     <-> object_fault true (wants_tag 17) (fun c _ e => f c = Err e) i e))
  /\ (forall t (f : bytes -> iresult berror obj),
    (parse_ber_tagged_explicit t f i = Err e
     <-> object_fault false (wants_explicit t) (fun c _ e => f c = Err e) i e)
    /\ (parse_der_tagged_explicit t f i = Err e
     <-> object_fault true (wants_explicit t) (fun c _ e => f c = Err e) i e))
  /\ (forall t (f : bytes -> header -> nat -> iresult berror content),
    (parse_ber_tagged_implicit t f i = Err e
     <-> object_fault false (wants_tag t) (fun c h e => f c h 50%nat = Err e) i e)
    /\ (parse_der_tagged_implicit t f i = Err e
     <-> object_fault true (wants_tag t) (fun c h e => f c h 50%nat = Err e) i e)
    /\ (parse_ber_implicit i t f = Err e
     <-> object_fault false (wants_tag t) (fun c h e => f c h 50%nat = Err e) i e)
    /\ (parse_der_implicit i t f = Err e
     <-> object_fault false (wants_tag t) (fun c h e => f c h 50%nat = Err e) i e))
  /\ (forall t,
    (parse_ber_slice t i = Err e <-> object_fault false (wants_tag t) (fun _ _ _ => False) i e)
    /\ (parse_der_slice t i = Err e <-> object_fault true (wants_tag t) (fun _ _ _ => False) i e)).
Proof.
  intros Hok. split; [|split; [|split; [|split]]].
  - intros f Hf. unfold parse_ber_sequence_of, parse_ber_set_of, parse_der_sequence_of, parse_der_set_of.
    rewrite !nom_map_err. exact (C104_of ber_ops f i e Hok Hf).
  - intros f. unfold parse_ber_sequence_defined, parse_ber_set_defined, parse_der_sequence_defined,
      parse_der_set_defined. rewrite !nom_map_err.
    exact (C104_defined ber_ops (fun c _ => f c) i e Hok).
  - intros t f. unfold parse_ber_tagged_explicit, parse_der_tagged_explicit.
    destruct (C104_explicit ber_ops (tagged_explicit_cb t f) t i e Hok) as [H1 H2]. rewrite H1, H2.
    split; apply fault_fails_ext; intros c h x; apply wrap_err.
  - intros t f. unfold parse_der_implicit, parse_ber_implicit, parse_ber_tagged_implicit, parse_der_tagged_implicit.
    destruct (C104_implicit ber_ops (tagged_implicit_cb f) t i e Hok) as [H1 H2]. rewrite H1, H2.
    repeat match goal with |- _ /\ _ => split end; apply fault_fails_ext; intros c h x; apply wrap_err.
  - intros t.
    assert (Hext : forall der, object_fault der (wants_tag t) (fun c h e => @Ok (nerr berror) (bytes * bytes) ([], c) = Err e) i e
        <-> object_fault der (wants_tag t) (fun _ _ _ => False) i e).
    { intros der. apply fault_fails_ext. intros c _ x. split; [discriminate|tauto]. }
    rewrite <- !Hext.
    split; [apply (container_err ber_ops false _ (tag_check t) (fun c _ => Ok ([], c)))
           |apply (container_err ber_ops true _ (tag_check t) (fun c _ => Ok ([], c)))];
      auto using wants_tag_iff; intros c h;
      unfold tag_check, assert_tag; destruct (h_tag h =? t); reflexivity.
Qed.

(** An incomplete last element of a SEQUENCE OF is "Eof" in an element that is complete,
    an element with another error is a Failure, missing octets are "Eof" too. *)
Example C104_ex : nom_parser (parse_ber SL)
  /\ parse_ber_sequence_of (parse_ber SL) (hx "3005 020101 0202") = Err (Error (ENomError EkEof))
  /\ parse_ber_sequence_of (parse_ber SL) (hx "3005 020101 0280") = Err (Failure ConstructExpected)
  /\ parse_ber_sequence_of (parse_ber SL) (hx "3006 020101") = Err (Error (ENomError EkEof))
  /\ parse_ber_sequence_of (parse_ber SL) (hx "30") = Err (Incomplete (Some 1))
  /\ parse_ber_sequence_of (parse_ber SL) (hx "3180 020101") = Err (Incomplete (Some 1))
  /\ parse_ber_sequence_of (parse_ber SL) (hx "3103 020101") = Err (Error (UnexpectedTag (Some 16) 17)).
Proof. split; [apply C01_ex_callback|]. repeat split; vm_compute; reflexivity. Qed.

Example C104_ex2 :
  parse_der_tagged_explicit 1 (parse_der SL) (hx "2103 020101") = Err (Error (UnexpectedClass None Universal))
  /\ parse_der_tagged_explicit 1 (parse_der SL) (hx "A203 020101") = Err (Error (UnexpectedTag (Some 1) 2))
  /\ parse_der_tagged_explicit 1 (parse_der SL) (hx "8103 020101") = Err (Error ConstructExpected)
  /\ parse_der_tagged_explicit 1 (parse_der SL) (hx "A180 020101 0000")
     = Err (Error (DerConstraintFailed DcIndefiniteLength))
  /\ parse_der_tagged_explicit 1 (parse_der SL) (hx "A102 0201") = Err (Incomplete (Some 1))
  /\ object_fault true (wants_explicit 1) (fun c _ e => parse_der SL c = Err e)
       (hx "8103 020101") (Error ConstructExpected).
Proof.
  repeat match goal with |- _ /\ _ => split end; 
    [vm_compute; reflexivity ..|].
  assert (Hok : bytes_ok (hx "8103 020101")) by bok.
  apply (proj1 (proj2 (proj2 (C104_objects _ (Error ConstructExpected) Hok))) 1 (parse_der SL)).
  vm_compute. reflexivity.
Qed.

Print Assumptions C104_container.
Print Assumptions C104_defined.
Print Assumptions C104_explicit.
Print Assumptions C104_implicit.
Print Assumptions C104_of.
Print Assumptions C104_objects.
