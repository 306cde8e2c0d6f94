(** * C111: parsers made of the combinators, fed from a stream *)

From Coq Require Import String.
From Verif Require Import Base Asn1rs Ber Der Combinators Conformance Spec SpecValue SpecComb SpecError.
From Verif Require Import LemBase LemHeader LemSkip LemParse LemDer LemComb LemTree LemNode LemFrame.
From Verif Require Import PropTotal PropFraming PropIndef PropComb PropTyped PropError PropErrorComb PropPrograms PropStream.
Local Open Scope string_scope. Local Open Scope N_scope. Local Open Scope list_scope.

(** ** The other readers behave like [parse_ber] *)

Lemma settled_bind {A B} (f : bytes -> iresult berror A) (k : bytes * A -> iresult berror B) :
  settled f -> extends f ->
  (forall r v x e, k (r, v) = Err (Error e) -> k (r ++ x, v) = Err (Error e)) ->
  settled (fun i => bind (f i) k).
Proof.
  intros Hs He Hk i x e Hok H. apply bind_err in H as [H|([r v] & H & H')].
  - destruct (Hs _ _ _ Hok H) as [Hx|Hx]; [left; now rewrite Hx|now right].
  - left. rewrite (He _ x _ _ H). cbn [bind]. now apply Hk.
Qed.

Lemma settled_header : settled ber_read_element_header /\ settled der_read_element_header.
Proof.
  split; eapply stays_settled; [intros i e; apply ber_header_err|apply (header_fault_stays false)
    |intros i e; apply der_header_err|apply (header_fault_stays true)].
Qed.

Lemma settled_any : settled parse_ber_any.
Proof. eapply stays_settled; [intros i e; apply C102_element|apply element_fault_stays]. Qed.

Lemma settled_any_der : settled any_from_der.
Proof.
  apply (settled_bind header_from_der); [apply settled_header|intros i x r v; apply header_from_der_app|].
  intros r h x e H. apply bind_err in H as [H|(n & H & H')]; [now rewrite H|]. rewrite H. cbn [bind].
  apply bind_err in H' as [H'|([] & _ & H')]; [|discriminate].
  unfold take_streaming in H'. destruct (_ <? _); discriminate.
Qed.

Lemma settled_on_any {A} (f : bytes -> iresult berror any) (g : any -> res berror A) :
  settled f -> extends f ->
  settled (fun i => let* (r, a) := f i in let* v := map_err nerr_of_err (g a) in Ok (r, v)).
Proof.
  intros Hs He. apply settled_bind; auto. intros r v x e H. destruct (g v); cbn in *; congruence.
Qed.

Theorem C111_readers :
  chunks_agree ber_read_element_header /\ chunks_agree der_read_element_header /\ chunks_agree parse_ber_any
  /\ chunks_agree parse_ber_u32 /\ chunks_agree parse_ber_u64 /\ chunks_agree parse_ber_i32 /\ chunks_agree parse_ber_i64
  /\ chunks_agree parse_der_u32 /\ chunks_agree parse_der_u64 /\ chunks_agree parse_der_i32 /\ chunks_agree parse_der_i64.
Proof.
  assert (Hh := settled_header). assert (Ha := settled_any). assert (Hd := settled_any_der).
  assert (Ea : extends parse_ber_any) by (intros i x r v; apply any_from_ber_app).
  assert (Ed : extends any_from_der) by (intros i x r v; apply any_from_der_app).
  assert (Hs := fun i Hok => C109_readers SL i 0 0 (Definite 0) false Hok).
  repeat split; apply chunks_agree_of;
    try (intros i Hok; apply (Hs i Hok)); try (intros i _; apply C01_integers); try (intros i x r v; apply C03_integers);
    try (intros i _; apply (C01_readers SL i 0 (Definite 0) false 0 (mkHeader Universal false 0 (Definite 0) None)));
    try apply Hh; auto;
    try (intros i x r v; first [apply header_from_ber_app|apply header_from_der_app]);
    try (intros i _; apply (C01_any SL i 0 0)); now apply settled_on_any.
Qed.
Print Assumptions C111_readers.

(** ** What a combinator says of an element that is not all there

    [cut_answer h p]: the answer for the octets [p], which are less than an element with
    the header [h].  Contents of definite length are not asked for. *)
Inductive cut_answer {E} (into : berror -> E) (kind : bytes -> error_kind -> E) (h : header) (p : bytes) : nerr E -> Prop :=
| ca_content hb m n :
    p = hb ++ m -> header_octets h hb -> h_length h = Definite n -> N.of_nat (length m) < n ->
    cut_answer into kind h p (Error (kind m EkEof))
| ca_more n :
    h_length h = Indefinite \/ (exists q, q <> [] /\ header_octets h (p ++ q)) ->
    cut_answer into kind h p (Incomplete n)
| ca_tag :
    h_length h = Indefinite \/ (~ short_tag p /\ exists q, q <> [] /\ header_octets h (p ++ q)) -> cut_tag p ->
    cut_answer into kind h p (Error (into InvalidTag)).

(** What is said of an element does not depend on the octets behind it, not even the error. *)
Definition then_more {E A} (x : iresult E A) (y : bytes) : iresult E A :=
  match x with
  | Ok (r, v) => Ok (r ++ y, v)
  | e => e
  end.

(** [g] reads one element by its header first. *)
Definition needs_element {E A} (into : berror -> E) (kind : bytes -> error_kind -> E) (der : bool)
    (g : bytes -> iresult E A) : Prop :=
  (forall h c p q, bytes_ok (p ++ q) -> framed der h c (p ++ q) -> q <> [] ->
     exists e, g p = Err e /\ cut_answer into kind h p e)
  /\ (forall h c bs r, element 50 h c bs -> g (bs ++ r) = then_more (g bs) r).

Lemma element_definite d h c bs n : element d h c bs -> h_length h = Definite n -> definite_element h c bs.
Proof.
  intros (hb & b & -> & Hh & Hb & ->) Hl. exists hb. unfold content_octets. rewrite Hl. repeat split; auto.
  inversion Hb; subst; congruence.
Qed.

Section generic.
Context {E A : Type} (ops : err_ops E).
Let into := from_ber_error ops.
Let kind := from_error_kind ops.

Lemma container_header (der : bool) (f : bytes -> header -> iresult E A) p e :
  (if der then header_from_der else header_from_ber) p = Err e -> container ops der f p = Err (passed into e).
Proof.
  intros H. destruct der; unfold container; [unfold parse_der_container, der_read_element_header|unfold parse_ber_container, ber_read_element_header];
    rewrite H; cbn [map_err bind]; now rewrite convert_passed.
Qed.

Lemma container_cut_definite (der : bool) (f : bytes -> header -> iresult E A) h c p q :
  definite_element h c (p ++ q) -> q <> [] ->
  exists e, container ops der f p = Err e /\ cut_answer into kind h p e.
Proof.
  intros (hb & Eb & Hh & Hl) Hq.
  destruct (prefix_cases _ _ _ _ Eb) as [(m & -> & Ec)|(m & Em & _ & Hm)].
  - assert (Hlt : N.of_nat (length m) < N.of_nat (length c)).
    { rewrite Ec, app_length. destruct q; [easy|]. cbn [length]. lia. }
    exists (Error (kind m EkEof)). split; [|eapply ca_content; eauto].
    assert (Ht : take_complete ops (N.of_nat (length c)) m = Err (Error (kind m EkEof))) by (apply take_complete_err; auto).
    destruct der; unfold container; [unfold parse_der_container, der_read_element_header|unfold parse_ber_container, ber_read_element_header];
      [rewrite (header_from_der_complete _ _ m Hh) by congruence|rewrite (header_from_ber_complete _ _ m Hh)];
      cbn [map_err bind]; rewrite Hl, Ht; reflexivity.
  - destruct (header_asks (if der then header_from_der else header_from_ber) h hb p m) as [(n & H & _)|(H & Hc & Hs)]; auto.
    { destruct der; [right; split; [reflexivity|congruence]|now left]. }
    + exists (Incomplete (Some n)). split; [exact (container_header der f _ _ H)|]. apply ca_more. right. exists m. split; [exact Hm|congruence].
    + exists (Error (into InvalidTag)). split; [exact (container_header der f _ _ H)|]. apply ca_tag; [right|exact Hc]. split.
      * intros Hp. apply Hs. rewrite Em. destruct Hp as (b & i' & -> & Hb). now exists b, (i' ++ m).
      * exists m. split; [exact Hm|congruence].
Qed.

Lemma container_cut_indefinite (f : bytes -> header -> iresult E A) h c p q :
  bytes_ok (p ++ q) -> element 50 h c (p ++ q) -> h_length h = Indefinite -> q <> [] ->
  exists e, container ops false f p = Err e /\ cut_answer into kind h p e.
Proof.
  intros Hok He Hl Hq.
  pose proof (any_from_ber_complete _ _ _ [] He) as Ha. rewrite app_nil_r in Ha.
  assert (Hp : bytes_ok p) by now apply bytes_ok_app in Hok.
  destruct (any_ber_cut _ _ _ _ Ha) as [(r' & H)|H].
  { exfalso. rewrite (any_from_ber_app _ q _ _ H) in Ha. injection Ha as Ha. apply app_eq_nil in Ha as [_ Ha]. contradiction. }
  assert (Hx : exists e, any_from_ber p = Err e /\ cut_answer into kind h p (passed into e)
     /\ ((exists n, e = Incomplete n) \/ e = Error InvalidTag)).
  { destruct H as [(n & H & _)|(H & Hc)]; eexists; (split; [exact H|]); (split; [|eauto]);
      [apply ca_more; now left|apply ca_tag; auto]. }
  destruct Hx as (e & Hx & Hc & Hk). exists (passed into e). split; [|exact Hc].
  destruct (@container_split E A ops false p Hp) as [(h' & c' & bs' & r' & -> & Hf)|(e' & Hf & Hall)].
  { exfalso. cbn [framed] in Hf. change 50%nat with ASN1_MAX_RECURSION in Hf. rewrite (any_from_ber_complete _ _ _ r' Hf) in Hx. discriminate. }
  rewrite Hall. f_equal. inversion Hf as [i e0 Hf0 Hi He0|h0 hb n i Hh Hn Hlt Hi He0|h0 hb i e0 _ Hh Hi0 Hb Hi He0]; subst.
  - f_equal. apply ef_header in Hf0. apply any_err in Hf0; [|exact Hp]. congruence.
  - exfalso. destruct He as (hb1 & b1 & Eb & Hh1 & _).
    pose proof (header_from_ber_complete _ _ (i ++ q) Hh) as H1. pose proof (header_from_ber_complete _ _ b1 Hh1) as H2.
    rewrite <- app_assoc in Eb. rewrite Eb, H2 in H1. injection H1 as _ ->. congruence.
  - f_equal. assert (He0 : element_fault (hb ++ i) e0) by (eapply ef_body; eauto). apply any_err in He0; [|exact Hp]. congruence.
Qed.

Lemma needs_container (der : bool) (f : bytes -> header -> iresult E A) : needs_element into kind der (container ops der f).
Proof.
  split.
  - intros h c p q Hok Hf Hq. destruct der; cbn [framed] in Hf; [eapply container_cut_definite; eauto|].
    destruct (h_length h) as [n|] eqn:Hl; [|eapply container_cut_indefinite; eauto].
    eapply container_cut_definite; [|exact Hq]. eapply element_definite; eauto.
  - intros h c bs r He.
    assert (Hf : framed der h c bs -> container ops der f (bs ++ r) = then_more (container ops der f bs) r).
    { intros Hf. rewrite (container_framed ops der f _ _ _ r Hf). rewrite <- (app_nil_r bs) at 1.
      rewrite (container_framed ops der f _ _ _ [] Hf). destruct (f c h) as [[]|e| |]; reflexivity. }
    destruct der; [|now apply Hf]. destruct (h_length h) as [n|] eqn:Hl.
    + apply Hf. eapply element_definite; eauto.
    + destruct He as (hb & b & -> & Hh & _).
      assert (Hd : forall x, header_from_der (hb ++ x) = Err (Error (DerConstraintFailed DcIndefiniteLength))).
      { intros x. destruct Hh as (ib & lb & -> & Hi & Hlo & _). rewrite <- app_assoc.
        rewrite Hl in Hlo. inversion Hlo; subst lb. cbn [app]. eapply der_header_indefinite, Hi. }
      rewrite <- app_assoc. rewrite !(container_header true f _ _ (Hd _)). reflexivity.
Qed.
End generic.

Lemma needs_map {E A B} into kind der (g : A -> B) (f : bytes -> iresult E A) :
  needs_element into kind der f -> needs_element into kind der (nom_map g f).
Proof.
  intros [H1 H2]. split.
  - intros h c p q Hok Hf Hq. destruct (H1 _ _ _ _ Hok Hf Hq) as (e & E1 & E2). exists e.
    split; [unfold nom_map; now rewrite E1|exact E2].
  - intros h c bs r He. unfold nom_map. rewrite (H2 _ _ _ r He). destruct (f bs) as [[]|e| |]; reflexivity.
Qed.

Theorem C111_combinators : forall E A (ops : err_ops E) t,
  let R {A} := @needs_element E A (from_ber_error ops) (from_error_kind ops) in
  (forall f : bytes -> header -> iresult E A,
     R false (parse_ber_container ops f) /\ R true (parse_der_container ops f)
     /\ R false (parse_ber_sequence_defined_g ops f) /\ R false (parse_ber_set_defined_g ops f)
     /\ R true (parse_der_sequence_defined_g ops f) /\ R true (parse_der_set_defined_g ops f)
     /\ R false (parse_ber_tagged_explicit_g ops t f) /\ R true (parse_der_tagged_explicit_g ops t f))
  /\ (forall f : bytes -> header -> nat -> iresult E A,
     R false (parse_ber_tagged_implicit_g ops t f) /\ R true (parse_der_tagged_implicit_g ops t f))
  /\ (forall f : bytes -> iresult E A,
     R false (parse_ber_sequence_of_v ops f) /\ R false (parse_ber_set_of_v ops f)
     /\ R true (parse_der_sequence_of_v ops f) /\ R true (parse_der_set_of_v ops f)).
Proof.
  intros E A ops t R. unfold R. repeat match goal with |- _ /\ _ => split | |- forall _, _ => intro end; try apply (needs_container ops false); apply (needs_container ops true).
Qed.
Print Assumptions C111_combinators.

Theorem C111_objects : forall t,
  let R {A} := @needs_element berror A (fun e => e) ber_kind in
  R false (parse_ber_slice t) /\ R true (parse_der_slice t)
  /\ (forall f : bytes -> iresult berror obj,
     R false (parse_ber_sequence_of f) /\ R false (parse_ber_set_of f)
     /\ R true (parse_der_sequence_of f) /\ R true (parse_der_set_of f)
     /\ R false (parse_ber_tagged_explicit t f) /\ R true (parse_der_tagged_explicit t f))
  /\ (forall f : bytes -> iresult berror (list obj),
     R false (parse_ber_sequence_defined f) /\ R false (parse_ber_set_defined f)
     /\ R true (parse_der_sequence_defined f) /\ R true (parse_der_set_defined f))
  /\ (forall f : bytes -> header -> nat -> iresult berror content,
     R false (parse_ber_tagged_implicit t f) /\ R true (parse_der_tagged_implicit t f)
     /\ R false (fun i => parse_ber_implicit i t f) /\ R false (fun i => parse_der_implicit i t f)).
Proof.
  intros t R. unfold R.
  repeat match goal with |- _ /\ _ => split | |- forall _, _ => intro end; try apply (needs_map _ _ false); try apply (needs_map _ _ true);
    try apply (needs_container ber_ops false); apply (needs_container ber_ops true).
Qed.
Print Assumptions C111_objects.

(** ** Waiting for the element first

    A program that lets [parse_ber_any] decide when the element is there and calls the
    parser then gets what it would get for the whole stream. *)
Theorem C111_wait : forall E A into kind der (g : bytes -> iresult E A) chunks r a unread,
  bytes_ok (concat chunks) -> needs_element into kind der g ->
  by_chunks parse_ber_any [] chunks = Answer (Ok (r, a)) unread ->
  exists read, chunks = read ++ unread /\ g (concat chunks) = then_more (g (concat read)) (concat unread).
Proof.
  intros E A into kind der g chunks r a unread Hok [_ Hg] H.
  pose proof (proj1 (proj2 (proj2 C111_readers)) chunks Hok) as Hc. rewrite H in Hc.
  destruct Hc as (read & -> & Hx & _). exists read. split; [reflexivity|].
  rewrite concat_app in *. apply bytes_ok_app in Hok as [Hok _].
  apply any_from_ber_sound in Hx as (bs & Eb & He); [|exact Hok]. rewrite Eb. rewrite <- app_assoc.
  rewrite (Hg _ _ _ _ He), (Hg _ _ _ r He). destruct (g bs) as [[]|e| |]; cbn [then_more]; try reflexivity.
  now rewrite app_assoc.
Qed.
Print Assumptions C111_wait.

(** ** What goes wrong

    Without waiting, a parser made of the combinators gives up on an element that is on
    its way, and an optional one takes it for absent. *)
Theorem C111_refuted : exists chunks r o,
  parse_ber_sequence_of (parse_ber SL) (concat chunks) = Ok (r, o)
  /\ parse_der_sequence_of (parse_der SL) (concat chunks) = Ok (r, o)
  /\ by_chunks (parse_ber_sequence_of (parse_ber SL)) [] chunks = Answer (Err (Error (ENomError EkEof))) (tl chunks)
  /\ by_chunks (parse_der_sequence_of (parse_der SL)) [] chunks = Answer (Err (Error (ENomError EkEof))) (tl chunks).
Proof.
  exists [[48; 3]; [2; 1; 5]], []. eexists. split; [vm_compute; reflexivity|]. split; [vm_compute; reflexivity|].
  split; vm_compute; reflexivity.
Qed.
Print Assumptions C111_refuted.

Theorem C111_optional : forall t f h c p q,
  bytes_ok (p ++ q) -> element 50 h c (p ++ q) -> q <> [] ->
  parse_ber_explicit_optional p t f = Ok (p, from_obj (COptional None))
  /\ parse_der_explicit_optional p t f = Ok (p, from_obj (COptional None))
  /\ by_chunks (fun i => parse_ber_explicit_optional i t f) [] [p; q] = Answer (Ok ([], from_obj (COptional None))) [p; q].
Proof.
  intros t f h c p q Hok He Hq.
  assert (H : forall p q, bytes_ok (p ++ q) -> element 50 h c (p ++ q) -> q <> [] ->
    parse_ber_explicit_optional p t f = Ok (p, from_obj (COptional None))).
  { intros p' q' Hok' He' Hq'. unfold parse_ber_explicit_optional, parse_ber_optional.
    destruct (proj1 (needs_container ber_ops false (fun c hdr =>
      if class_eqb (h_class hdr) Universal then Err (err_into ber_ops (UnexpectedClass None (h_class hdr)))
      else let* _ := map_err (err_into ber_ops) (assert_tag hdr t) in
           let* _ := map_err (err_into ber_ops) (assert_constructed hdr) in
           let* (r, o) := f c in Ok (r, Obj hdr (CTagged (h_class hdr) (h_tag hdr) o)))) h c p' q' Hok' He' Hq') as (e & E1 & _).
    unfold parse_ber_tagged_explicit_g. unfold container in E1. now rewrite E1. }
  split; [now apply H with q|]. split; [now apply H with q|].
  cbn [by_chunks]. rewrite (H [] (p ++ q) Hok He); [reflexivity|]. destruct p; [exact Hq|discriminate].
Qed.
Print Assumptions C111_optional.

Example C111_ex : let cs := [[48]; [6; 2; 1]; [5; 2; 1; 7; 255]; [255]] in
  bytes_ok (concat cs)
  /\ (exists a, by_chunks parse_ber_any [] cs = Answer (Ok ([255], a)) [[255]])
  /\ parse_der_sequence_of_v ber_ops parse_der_u32 (concat cs) = Ok ([255; 255], [5; 7])
  /\ parse_der_sequence_of_v ber_ops parse_der_u32 [48; 6; 2; 1; 5; 2; 1; 7; 255] = Ok ([255], [5; 7])
  /\ parse_der_sequence_of_v ber_ops parse_der_u32 [48] = Err (Incomplete (Some 1))
  /\ parse_der_sequence_of_v ber_ops parse_der_u32 [48; 6; 2; 1] = Err (Error (ENomError EkEof))
  /\ parse_ber_sequence_of_v ber_ops parse_ber_u32 [48; 128; 2; 1] = Err (Incomplete (Some 1))
  /\ by_chunks parse_der_u32 [] [[2]; [1]; [5; 9]] = Answer (Ok ([9], 5)) [].
Proof.
  cbv zeta. split; [bok|]. split; [eexists; vm_compute; reflexivity|]. repeat apply conj; vm_compute; reflexivity.
Qed.
