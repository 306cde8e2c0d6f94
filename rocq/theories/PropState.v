(** * C72-C74: callbacks with state *)

From Coq Require Import String.
From Verif Require Import Base Asn1rs Ber Der Combinators Stateful Conformance Spec SpecValue SpecComb SpecState.
From Verif Require Import LemBase LemHeader LemSkip LemParse LemDer LemComb.
From Verif Require Import PropComb.
Local Open Scope string_scope.
Local Open Scope N_scope.
Local Open Scope list_scope.

(** ** C72: containers call the callback once or not at all *)

Section Containers.
Context {S E A : Type} (ops : err_ops E).
Implicit Type f : callback_of_element S E A.

Lemma s_ber_container_pure f s i :
  s_ber_container ops f s i
  = match parse_ber_container ops (fun c h => Ok ([], (c, h))) i with
    | Ok (r, (c, h)) => (fst (f s c h), followed_by (value_of (snd (f s c h))) r)
    | Err e => (s, Err e) | Panic => (s, Panic) | Diverge => (s, Diverge)
    end.
Proof.
  unfold s_ber_container, parse_ber_container.
  destruct (map_err (err_convert ops) (ber_read_element_header i)) as [[i1 h]| | |]; cbn [sbind bind]; try reflexivity.
  destruct (h_length h) as [len|];
    [destruct (take_complete ops len i1) as [[i2 d]| | |]|destruct (map_err (err_convert ops) (ber_get_object_content i1 h MAX_RECURSION)) as [[i2 d]| | |]];
    cbn [sbind bind]; try reflexivity.
  all: destruct (f s d h) as [s' [[u v]| | |]]; reflexivity.
Qed.

Lemma s_der_container_pure f s i :
  s_der_container ops f s i
  = match parse_der_container ops (fun c h => Ok ([], (c, h))) i with
    | Ok (r, (c, h)) => (fst (f s c h), followed_by (value_of (snd (f s c h))) r)
    | Err e => (s, Err e) | Panic => (s, Panic) | Diverge => (s, Diverge)
    end.
Proof.
  unfold s_der_container, parse_der_container.
  destruct (map_err (err_convert ops) (der_read_element_header i)) as [[i1 h]| | |]; cbn [sbind bind]; try reflexivity.
  destruct (h_length h) as [len|];
    [destruct (take_complete ops len i1) as [[i2 d]| | |]|];
    cbn [sbind bind]; try reflexivity.
  all: destruct (f s d h) as [s' [[u v]| | |]]; reflexivity.
Qed.

Lemma s_with_tag_eq f t s c h :
  s_with_tag ops t f s c h
  = if h_tag h =? t then f s c h else (s, Err (Error (from_ber_error ops (UnexpectedTag (Some t) (h_tag h))))).
Proof.
  unfold s_with_tag, assert_tag. destruct (h_tag h =? t); cbn [map_err sbind]; [|reflexivity].
  reflexivity.
Qed.

(** [once tags elem run]: [run f s] finds an element whose tag number is
    allowed, calls [f] once on its contents and its header in state [s], and
    returns the state [f] left with the value of [f] and what follows the
    element; otherwise [f] is not called. *)
Definition once (tags : tag -> Prop) (elem : header -> bytes -> bytes -> Prop) (i : bytes)
    (run : callback_of_element S E A -> S -> S * iresult E A) : Prop :=
  (exists h c bs r, i = bs ++ r /\ elem h c bs /\ tags (h_tag h)
     /\ forall f s, run f s = (fst (f s c h), followed_by (value_of (snd (f s c h))) r))
  \/ ((forall h c bs r, i = bs ++ r -> elem h c bs -> ~ tags (h_tag h))
      /\ exists e, forall f s, run f s = (s, Err e)).

Theorem C72_called_once : forall i, bytes_ok i ->
  let any := fun _ : tag => True in
  once any (element 50) i (fun f s => s_ber_container ops f s i)
  /\ once any definite_element i (fun f s => s_der_container ops f s i)
  /\ once (eq 16) (element 50) i (fun f s => s_ber_sequence_defined_g ops f s i)
  /\ once (eq 17) (element 50) i (fun f s => s_ber_set_defined_g ops f s i)
  /\ once (eq 16) definite_element i (fun f s => s_der_sequence_defined_g ops f s i)
  /\ once (eq 17) definite_element i (fun f s => s_der_set_defined_g ops f s i).
Proof.
  intros i Hok any.
  assert (HB : forall t (tags : tag -> Prop), (forall x, tags x <-> t = None \/ t = Some x) ->
    once tags (element 50) i (fun f s => s_ber_container ops
      (match t with None => f | Some t => s_with_tag ops t f end) s i)).
  { intros t tags Ht.
    destruct (C33_ber_container (A := bytes * header) ops i Hok) as [(h & c & bs & r & Ei & He & H)|(Hno & e & H)].
    - assert (Hu : forall h' c' bs' r', i = bs' ++ r' -> element 50 h' c' bs' -> h' = h).
      { intros h' c' bs' r' E' He'. pose proof (ber_container_complete ops (fun c h => Ok ([], (c, h))) h' c' bs' r' He') as H1.
        rewrite <- E', H in H1. cbn in H1. congruence. }
      destruct t as [t|].
      + destruct (h_tag h =? t) eqn:Et.
        * left. exists h, c, bs, r. repeat split; auto; [apply Ht; right; f_equal; lia|].
          intros f s. rewrite s_ber_container_pure, H. cbn [outcome]. rewrite s_with_tag_eq, Et. reflexivity.
        * right. split.
          { intros h' c' bs' r' E' He' Hx. apply Ht in Hx as [Hx|Hx]; [discriminate|]. inv Hx.
            rewrite (Hu _ _ _ _ E' He') in Et. lia. }
          eexists. intros f s. rewrite s_ber_container_pure, H. cbn [outcome]. rewrite s_with_tag_eq, Et. reflexivity.
      + left. exists h, c, bs, r. repeat split; auto; [apply Ht; auto|].
        intros f s. rewrite s_ber_container_pure, H. reflexivity.
    - right. split; [intros h c bs r E' He' _; exact (Hno _ _ _ _ E' He')|].
      exists e. intros f s. rewrite s_ber_container_pure, H. reflexivity. }
  assert (HD : forall t (tags : tag -> Prop), (forall x, tags x <-> t = None \/ t = Some x) ->
    once tags definite_element i (fun f s => s_der_container ops
      (match t with None => f | Some t => s_with_tag ops t f end) s i)).
  { intros t tags Ht.
    destruct (C33_der_container (A := bytes * header) ops i Hok) as [(h & c & bs & r & Ei & He & H)|(Hno & e & H)].
    - assert (Hu : forall h' c' bs' r', i = bs' ++ r' -> definite_element h' c' bs' -> h' = h).
      { intros h' c' bs' r' E' He'. pose proof (der_container_complete ops (fun c h => Ok ([], (c, h))) h' c' bs' r' He') as H1.
        rewrite <- E', H in H1. cbn in H1. congruence. }
      destruct t as [t|].
      + destruct (h_tag h =? t) eqn:Et.
        * left. exists h, c, bs, r. repeat split; auto; [apply Ht; right; f_equal; lia|].
          intros f s. rewrite s_der_container_pure, H. cbn [outcome]. rewrite s_with_tag_eq, Et. reflexivity.
        * right. split.
          { intros h' c' bs' r' E' He' Hx. apply Ht in Hx as [Hx|Hx]; [discriminate|]. inv Hx.
            rewrite (Hu _ _ _ _ E' He') in Et. lia. }
          eexists. intros f s. rewrite s_der_container_pure, H. cbn [outcome]. rewrite s_with_tag_eq, Et. reflexivity.
      + left. exists h, c, bs, r. repeat split; auto; [apply Ht; auto|].
        intros f s. rewrite s_der_container_pure, H. reflexivity.
    - right. split; [intros h c bs r E' He' _; exact (Hno _ _ _ _ E' He')|].
      exists e. intros f s. rewrite s_der_container_pure, H. reflexivity. }
  assert (Hany : forall x, any x <-> @None tag = None \/ None = Some x) by (intros; unfold any; tauto).
  assert (Heq : forall t x : tag, t = x <-> Some t = None \/ Some t = Some x).
  { intros t x. split; [intros ->; auto|]. intros [H|H]; congruence. }
  repeat split.
  - exact (HB None any Hany).
  - exact (HD None any Hany).
  - exact (HB (Some 16) (eq 16) (Heq 16)).
  - exact (HB (Some 17) (eq 17) (Heq 17)).
  - exact (HD (Some 16) (eq 16) (Heq 16)).
  - exact (HD (Some 17) (eq 17) (Heq 17)).
Qed.

End Containers.
Print Assumptions C72_called_once.

(** The four functions that return objects. *)
Definition object_once {S} (t : tag) (mk : list obj -> content) (elem : header -> bytes -> bytes -> Prop)
    (i : bytes) (run : callback_of_octets S berror (list obj) -> S -> S * iresult berror obj) : Prop :=
  (exists h c bs r, i = bs ++ r /\ elem h c bs /\ h_tag h = t
     /\ forall f s, run f s = (fst (f s c), match snd (f s c) with
          | Ok (_, l) => Ok (r, Obj (universal_header t) (mk l))
          | Err e => Err e | Panic => Panic | Diverge => Diverge end))
  \/ ((forall h c bs r, i = bs ++ r -> elem h c bs -> h_tag h <> t)
      /\ exists e, forall f s, run f s = (s, Err e)).

Theorem C72_objects : forall S i, bytes_ok i ->
  object_once (S := S) 16 CSequence (element 50) i (fun f s => s_ber_sequence_defined f s i)
  /\ object_once (S := S) 17 CSet (element 50) i (fun f s => s_ber_set_defined f s i)
  /\ object_once (S := S) 16 CSequence definite_element i (fun f s => s_der_sequence_defined f s i)
  /\ object_once (S := S) 17 CSet definite_element i (fun f s => s_der_set_defined f s i).
Proof.
  intros S i Hok.
  destruct (C72_called_once (S := S) (A := list obj) ber_ops i Hok) as (_ & _ & H1 & H2 & H3 & H4).
  assert (G : forall t mk mk' elem (run : callback_of_element S berror (list obj) -> S -> S * iresult berror (list obj)), (forall l, mk' l = Obj (universal_header t) (mk l)) ->
    once (eq t) elem i run ->
    object_once t mk elem i (fun f s => sbind (run (fun s data _ => f s data) s)
      (fun s ro => let (r, o) := ro in (s, Ok (r, mk' o))))).
  { intros t mk mk' elem run Hmk [(h & c & bs & r & Ei & He & Ht & H)|(Hno & e & H)].
    - left. exists h, c, bs, r. repeat (split; [now auto|]). intros f s. rewrite H.
      destruct (f s c) as [s' [[u l]| | |]]; cbn [fst snd value_of followed_by sbind]; try reflexivity.
      now rewrite Hmk.
    - right. split; [intros h c bs r E1 E2 E3; exact (Hno _ _ _ _ E1 E2 (eq_sym E3))|].
      exists e. intros f s. now rewrite H. }
  split; [|split; [|split]].
  - exact (G 16 CSequence from_seq _ _ (fun _ => eq_refl) H1).
  - exact (G 17 CSet from_set _ _ (fun _ => eq_refl) H2).
  - exact (G 16 CSequence from_seq _ _ (fun _ => eq_refl) H3).
  - exact (G 17 CSet from_set _ _ (fun _ => eq_refl) H4).
Qed.
Print Assumptions C72_objects.

(** [parse_ber_optional]: one call, whose state is kept whether the value is
    present or not. *)
Theorem C72_optional : forall S (f : callback_of_octets S berror obj) s i,
  fst (s_ber_optional f s i) = fst (f s i)
  /\ ((exists e, snd (f s i) = Err e) \/ (exists r o, snd (f s i) = Ok (r, o)) ->
      (exists r o, snd (f s i) = Ok (r, o)
         /\ snd (s_ber_optional f s i) = Ok (r, Obj (o_header o) (COptional (Some o))))
      \/ (exists e h, snd (f s i) = Err e /\ snd (s_ber_optional f s i) = Ok (i, Obj h (COptional None))))
  /\ (snd (f s i) = Panic -> snd (s_ber_optional f s i) = Panic).
Proof.
  intros S f s i. unfold s_ber_optional. destruct (f s i) as [s1 x]. cbn [fst snd] in *.
  split; [destruct x as [[]| | |]; reflexivity|]. split; [|intros ->; reflexivity].
  intros [[e ->]|(r & o & ->)]; cbn [snd].
  - right. exists e. eexists. split; reflexivity.
  - left. exists r, o. auto.
Qed.
Print Assumptions C72_optional.

(** ** C73: the element loop *)

Section Loop.
Context {S E A : Type} (ops : err_ops E) (f : callback_of_octets S E A).

Lemma s_step s i : s_complete ops (s_cut f) s i
  = (fst (f s i), match snd (f s i) with
       | Err (Incomplete _) => Err (Error (from_error_kind ops i EkComplete))
       | Err (Error e) => Err (Failure e)
       | x => x
       end).
Proof. unfold s_complete, s_cut. destruct (f s i) as [s' [a|[]| |]]; reflexivity. Qed.

Lemma s_loop_exhaustive : nom_callback f -> forall n s c, (length c < n)%nat ->
  exists vs s1 c1 s2 x, calls f s c vs s1 c1 /\ f s1 c1 = (s2, x) /\ last_call c1 x.
Proof.
  intros Hf. induction n as [|n IH]; intros s c Hn; [lia|].
  destruct (f s c) as [s1 x] eqn:Ef.
  destruct x as [[r v]|e| |].
  - destruct (Hf _ _ _ _ _ Ef) as [p ->]. destruct p as [|b p].
    + exists [], s, r, s1, (Ok (r, v)). split; [constructor|]. split; [exact Ef|]. intros r' v' H. congruence.
    + destruct (IH s1 r) as (vs & s' & c' & s2 & x & Hc & Hx & Hl).
      { rewrite app_length in Hn. cbn [length] in Hn. lia. }
      exists (v :: vs), s', c', s2, x. split; [|auto]. eapply calls_next; [discriminate|exact Ef|exact Hc].
  - exists [], s, c, s1, (Err e). split; [constructor|]. split; [exact Ef|]. discriminate.
  - exists [], s, c, s1, Panic. split; [constructor|]. split; [exact Ef|]. discriminate.
  - exists [], s, c, s1, Diverge. split; [constructor|]. split; [exact Ef|]. discriminate.
Qed.

Lemma s_loop_run s c vs s1 c1 s2 x : calls f s c vs s1 c1 -> f s1 c1 = (s2, x) -> last_call c1 x ->
  forall fuel acc, (length c < fuel)%nat ->
  s_many0_loop ops (s_complete ops (s_cut f)) fuel acc s c
  = (s2, match x with
         | Ok _ => Err (Error (from_error_kind ops c1 EkMany0))
         | Err (Incomplete _) => Ok (c1, rev acc ++ vs)
         | Err (Error e) | Err (Failure e) => Err (Failure e)
         | Panic => Panic
         | Diverge => Diverge
         end).
Proof.
  induction 1 as [s c|s p rest v s1 vs s' c' Hp Hs Hc IH]; intros Hx Hl fuel acc Hn.
  - destruct fuel as [|fuel]; [lia|]. cbn [s_many0_loop]. rewrite s_step, Hx. cbn [fst snd].
    destruct x as [[r v]|[]| |]; try reflexivity.
    + rewrite (Hl _ _ eq_refl), Nat.eqb_refl. reflexivity.
    + now rewrite app_nil_r.
  - destruct fuel as [|fuel]; [lia|]. cbn [s_many0_loop]. rewrite s_step, Hs. cbn [fst snd].
    rewrite app_length in *. assert (0 < length p)%nat by (destruct p; [congruence|cbn; lia]).
    replace (length rest =? length p + length rest)%nat with false by (symmetry; apply Nat.eqb_neq; lia).
    rewrite IH by (auto; lia). cbn [rev]. rewrite <- app_assoc. reflexivity.
Qed.

Lemma s_subparser_run s c vs s1 c1 s2 x : calls f s c vs s1 c1 -> f s1 c1 = (s2, x) -> last_call c1 x ->
  s_of_subparser ops f s c = (s2, followed_by (verdict ops vs c1 x) []).
Proof.
  intros Hc Hx Hl. unfold s_of_subparser, s_all_consuming, s_many0.
  rewrite (s_loop_run _ _ _ _ _ _ _ Hc Hx Hl) by lia.
  destruct x as [a|[]| |]; cbn [sbind]; try reflexivity.
  destruct c1; reflexivity.
Qed.

(** [series t elem i run]: the element is found, the callback is called from left
    to right for every value of the series and one last time; state and verdict
    are those of the last call.  Otherwise the callback is not called. *)
Definition series_of (t : tag) (elem : header -> bytes -> bytes -> Prop) (i : bytes)
    (run : S -> S * iresult E (list A)) : Prop :=
  (exists h c bs r, i = bs ++ r /\ elem h c bs /\ h_tag h = t
     /\ forall s, exists vs s1 c1 s2 x,
          calls f s c vs s1 c1 /\ f s1 c1 = (s2, x) /\ last_call c1 x
          /\ run s = (s2, followed_by (verdict ops vs c1 x) r))
  \/ ((forall h c bs r, i = bs ++ r -> elem h c bs -> h_tag h <> t)
      /\ exists e, forall s, run s = (s, Err e)).

Theorem C73_elements : nom_callback f -> forall i, bytes_ok i ->
  series_of 16 (element 50) i (fun s => s_ber_sequence_of_v ops f s i)
  /\ series_of 17 (element 50) i (fun s => s_ber_set_of_v ops f s i)
  /\ series_of 16 definite_element i (fun s => s_der_sequence_of_v ops f s i)
  /\ series_of 17 definite_element i (fun s => s_der_set_of_v ops f s i).
Proof.
  intros Hf i Hok.
  destruct (C72_called_once (S := S) (A := list A) ops i Hok) as (_ & _ & H1 & H2 & H3 & H4).
  assert (G : forall t elem run, once (eq t) elem i run ->
    series_of t elem i (fun s => run (fun s data _ => s_of_subparser ops f s data) s)).
  { intros t elem run [(h & c & bs & r & Ei & He & Ht & H)|(Hno & e & H)].
    - left. exists h, c, bs, r. repeat (split; [now auto|]). intros s.
      destruct (s_loop_exhaustive Hf (Datatypes.S (length c)) s c) as (vs & s1 & c1 & s2 & x & Hc & Hx & Hl); [lia|].
      exists vs, s1, c1, s2, x. repeat (split; [assumption|]).
      rewrite H, (s_subparser_run _ _ _ _ _ _ _ Hc Hx Hl). cbn [fst snd].
      destruct (verdict ops vs c1 x); reflexivity.
    - right. split; [intros h c bs r E1 E2 E3; exact (Hno _ _ _ _ E1 E2 (eq_sym E3))|].
      exists e. intros s. apply H. }
  split; [exact (G _ _ _ H1)|]. split; [exact (G _ _ _ H2)|]. split; [exact (G _ _ _ H3)|exact (G _ _ _ H4)].
Qed.

End Loop.
Print Assumptions C73_elements.

(** The inputs of a stateless callback, in the order of the calls: what is left of
    the contents before each element, and the empty rest. *)
Lemma calls_logged {E A} (g : bytes -> iresult E A) log c vs log' c' :
  calls (fun l i => (l ++ [i], g i)) log c vs log' c' ->
  exists pieces, length pieces = length vs /\ Forall (fun p => p <> []) pieces /\ c = concat pieces ++ c'
    /\ log' = log ++ map (fun k => concat (skipn k pieces) ++ c') (seq 0 (length vs)).
Proof.
  induction 1 as [l c|l p rest v l1 vs l' c' Hp Hs Hc (pieces & Hn & Hf & -> & ->)].
  - exists []. cbn. rewrite app_nil_r. auto.
  - injection Hs as <- Hg. exists (p :: pieces). split; [cbn; now rewrite Hn|]. split; [now constructor|].
    split; [cbn [concat]; now rewrite <- app_assoc|].
    cbn [length seq map skipn concat]. rewrite <- !app_assoc. f_equal. cbn [app]. f_equal.
    rewrite <- seq_shift, map_map. reflexivity.
Qed.

Lemma series_trace {E A} (ops : err_ops E) (g : bytes -> iresult E A) t elem i (run : list bytes -> list bytes * iresult E (list A)) log r vs :
  series_of ops (fun l j => (l ++ [j], g j)) t elem i run -> run [] = (log, Ok (r, vs)) ->
  exists h pieces bs, i = bs ++ r /\ elem h (concat pieces) bs /\ h_tag h = t
    /\ length pieces = length vs /\ Forall (fun p => p <> []) pieces
    /\ log = map (fun k => concat (skipn k pieces)) (seq 0 (length vs + 1)).
Proof.
  intros [(h & c & bs & r0 & -> & He & Ht & Hrun)|(_ & e & He)] H; [|rewrite He in H; discriminate].
  destruct (Hrun []) as (vs' & s1 & c1 & s2 & x & Hc & Hx & _ & E1). rewrite H in E1.
  injection E1 as -> E1. injection Hx as <- <-.
  destruct (g c1) as [a|[]| |]; try discriminate; destruct c1; try discriminate.
  injection E1 as -> ->. destruct (calls_logged _ _ _ _ _ _ Hc) as (pieces & Hn & Hp & -> & ->).
  rewrite app_nil_r in He. exists h, pieces, bs. repeat (split; [assumption || reflexivity|]).
  rewrite Nat.add_1_r, seq_S, map_app. cbn [map app Nat.add].
  rewrite skipn_all2 by lia. cbn [concat]. f_equal. apply map_ext. intros k. apply app_nil_r.
Qed.

Theorem C73_trace : forall E A (ops : err_ops E) (g : bytes -> iresult E A) i log r vs,
  bytes_ok i -> nom_parser g ->
  let f l j := (l ++ [j], g j) in
  let traced (elem : header -> bytes -> bytes -> Prop) t := exists h pieces bs,
    i = bs ++ r /\ elem h (concat pieces) bs /\ h_tag h = t
    /\ length pieces = length vs /\ Forall (fun p => p <> []) pieces
    /\ log = map (fun k => concat (skipn k pieces)) (seq 0 (length vs + 1)) in
  (s_ber_sequence_of_v ops f [] i = (log, Ok (r, vs)) -> traced (element 50) 16)
  /\ (s_ber_set_of_v ops f [] i = (log, Ok (r, vs)) -> traced (element 50) 17)
  /\ (s_der_sequence_of_v ops f [] i = (log, Ok (r, vs)) -> traced definite_element 16)
  /\ (s_der_set_of_v ops f [] i = (log, Ok (r, vs)) -> traced definite_element 17).
Proof.
  intros E A ops g i log r vs Hok Hg f traced.
  assert (Hf : nom_callback f).
  { intros l j l' r' v' H'. injection H' as _ H'. exact (Hg _ _ _ H'). }
  destruct (C73_elements ops _ Hf i Hok) as (H1 & H2 & H3 & H4).
  repeat split; intros H; eapply series_trace; [exact H1|exact H|exact H2|exact H|exact H3|exact H|exact H4|exact H].
Qed.
Print Assumptions C73_trace.

(** ** C74: without state, the functions of Combinators.v *)

Section Pure.
Context {S E A : Type} (ops : err_ops E).

Lemma pure_loop (f : callback_of_octets S E A) g : (forall s i, snd (f s i) = g i) ->
  forall fuel acc s i, snd (s_many0_loop ops (s_complete ops (s_cut f)) fuel acc s i)
    = nom_many0_loop ops (nom_complete ops (nom_cut g)) fuel acc i.
Proof.
  intros H. induction fuel as [|fuel IH]; intros acc s i; [reflexivity|].
  cbn [s_many0_loop nom_many0_loop]. rewrite s_step, H. unfold nom_complete, nom_cut.
  destruct (g i) as [[r v]|[]| |]; cbn [map_err snd]; try reflexivity.
  destruct (length r =? length i)%nat; [reflexivity|]. apply IH.
Qed.

Lemma pure_ber_container (f : callback_of_element S E A) g : (forall s c h, snd (f s c h) = g c h) ->
  forall s i, snd (s_ber_container ops f s i) = parse_ber_container ops g i.
Proof.
  intros H s i. unfold s_ber_container, parse_ber_container.
  destruct (map_err (err_convert ops) (ber_read_element_header i)) as [[i1 h]| | |]; cbn [sbind bind]; try reflexivity.
  destruct (h_length h) as [len|];
    [destruct (take_complete ops len i1) as [[i2 d]| | |]|destruct (map_err (err_convert ops) (ber_get_object_content i1 h MAX_RECURSION)) as [[i2 d]| | |]];
    cbn [sbind bind]; try reflexivity.
  all: rewrite <- (H s); destruct (f s d h) as [s' [[u v]| | |]]; reflexivity.
Qed.

Lemma pure_der_container (f : callback_of_element S E A) g : (forall s c h, snd (f s c h) = g c h) ->
  forall s i, snd (s_der_container ops f s i) = parse_der_container ops g i.
Proof.
  intros H s i. unfold s_der_container, parse_der_container.
  destruct (map_err (err_convert ops) (der_read_element_header i)) as [[i1 h]| | |]; cbn [sbind bind]; try reflexivity.
  destruct (h_length h) as [len|];
    [destruct (take_complete ops len i1) as [[i2 d]| | |]|];
    cbn [sbind bind]; try reflexivity.
  all: rewrite <- (H s); destruct (f s d h) as [s' [[u v]| | |]]; reflexivity.
Qed.

Lemma pure_with_tag t (f : callback_of_element S E A) g : (forall s c h, snd (f s c h) = g c h) ->
  forall s c h, snd (s_with_tag ops t f s c h)
    = (let* _ := map_err (err_into ops) (assert_tag h t) in g c h).
Proof.
  intros H s c h. unfold s_with_tag, assert_tag. destruct (h_tag h =? t); cbn [map_err sbind bind snd]; auto.
Qed.

End Pure.

Lemma pure_subparser {S E A} (ops : err_ops E) (f : callback_of_octets S E A) g :
  (forall s i, snd (f s i) = g i) -> forall s i, snd (s_of_subparser ops f s i) = of_subparser ops g i.
Proof.
  intros H s i. unfold s_of_subparser, of_subparser, s_all_consuming, nom_all_consuming, s_many0, nom_many0.
  rewrite <- (pure_loop ops f g H _ _ s i).
  destruct (s_many0_loop _ _ _ _ s i) as [s' [[[|] v]| | |]]; reflexivity.
Qed.

(** If the answers of the callback do not depend on its state, the answers of the
    combinators are those of the functions without state. *)
Theorem C74_refines : forall S E A (ops : err_ops E)
    (f : callback_of_octets S E A) g (F : callback_of_element S E A) G s i,
  (forall s c, snd (f s c) = g c) -> (forall s c h, snd (F s c h) = G c h) ->
  snd (s_ber_container ops F s i) = parse_ber_container ops G i
  /\ snd (s_der_container ops F s i) = parse_der_container ops G i
  /\ snd (s_ber_sequence_defined_g ops F s i) = parse_ber_sequence_defined_g ops G i
  /\ snd (s_ber_set_defined_g ops F s i) = parse_ber_set_defined_g ops G i
  /\ snd (s_der_sequence_defined_g ops F s i) = parse_der_sequence_defined_g ops G i
  /\ snd (s_der_set_defined_g ops F s i) = parse_der_set_defined_g ops G i
  /\ snd (s_ber_sequence_of_v ops f s i) = parse_ber_sequence_of_v ops g i
  /\ snd (s_ber_set_of_v ops f s i) = parse_ber_set_of_v ops g i
  /\ snd (s_der_sequence_of_v ops f s i) = parse_der_sequence_of_v ops g i
  /\ snd (s_der_set_of_v ops f s i) = parse_der_set_of_v ops g i.
Proof.
  intros S E A ops f g F G s i Hf HF. repeat split.
  1: now apply pure_ber_container. 1: now apply pure_der_container.
  all: unfold s_ber_sequence_of_v, s_ber_set_of_v, s_der_sequence_of_v, s_der_set_of_v.
  1,2,5,6: apply pure_ber_container. 5-8: apply pure_der_container.
  1,2,5,6: intros s0 c h; apply (pure_with_tag ops _ _ G HF).
  all: intros s0 c h; apply (pure_with_tag ops _ _ (fun data _ => of_subparser ops g data)); intros; now apply pure_subparser.
Qed.
Print Assumptions C74_refines.

Theorem C74_refines_objects : forall S (f : callback_of_octets S berror (list obj)) g
    (o : callback_of_octets S berror obj) p s i,
  (forall s c, snd (f s c) = g c) -> (forall s c, snd (o s c) = p c) ->
  snd (s_ber_sequence_defined f s i) = parse_ber_sequence_defined g i
  /\ snd (s_ber_set_defined f s i) = parse_ber_set_defined g i
  /\ snd (s_der_sequence_defined f s i) = parse_der_sequence_defined g i
  /\ snd (s_der_set_defined f s i) = parse_der_set_defined g i
  /\ snd (s_ber_optional o s i) = parse_ber_optional p i.
Proof.
  intros S f g o p s i Hf Ho.
  destruct (C74_refines S berror (list obj) ber_ops (fun s c => (s, Panic)) (fun _ => Panic)
    (fun s c _ => f s c) (fun c _ => g c) s i ltac:(reflexivity) (fun s c _ => Hf s c))
    as (_ & _ & H1 & H2 & H3 & H4 & _).
  unfold s_ber_sequence_defined, s_ber_set_defined, s_der_sequence_defined, s_der_set_defined, s_map,
    parse_ber_sequence_defined, parse_ber_set_defined, parse_der_sequence_defined, parse_der_set_defined, nom_map.
  rewrite <- H1, <- H2, <- H3, <- H4. clear H1 H2 H3 H4.
  split; [|split; [|split; [|split]]].
  1-4: match goal with |- snd (sbind ?x _) = _ => destruct x as [s' [[r l]| | |]] end; reflexivity.
  unfold s_ber_optional, parse_ber_optional. rewrite <- (Ho s).
  destruct (o s i) as [s1 [[r v]| | |]]; reflexivity.
Qed.
Print Assumptions C74_refines_objects.

(** ** Examples *)

(** A callback that counts its calls and accepts only as many octets as its
    budget allows. *)
Definition budget : callback_of_octets N berror N := fun s i =>
  match i with
  | [] => (s, Err (Incomplete None))
  | b :: r => if s =? 0 then (s, Err (Error InvalidLength)) else (s - 1, Ok (r, b))
  end.
Example C73_ex : nom_callback budget
  /\ s_ber_sequence_of_v ber_ops budget 5 (hx "30 03 07 08 09 ff") = (2, Ok ([255], [7; 8; 9]))
  /\ s_ber_sequence_of_v ber_ops budget 2 (hx "30 03 07 08 09 ff") = (0, Err (Failure InvalidLength))
  /\ s_ber_sequence_of_v ber_ops budget 5 (hx "31 03 07 08 09 ff") = (5, Err (Error (UnexpectedTag (Some 16) 17))).
Proof.
  split; [|repeat split].
  intros s [|b i] s' r v H; cbn in H; [congruence|]. destruct (s =? 0); [congruence|]. inv H. now exists [v].
Qed.
Example C73_ex_trace :
  s_ber_sequence_of_v ber_ops (fun l j => (l ++ [j], match j with [] => Err (Incomplete None) | b :: r => Ok (r, b) end))
    [] (hx "30 03 07 08 09 ff")
  = ([[7; 8; 9]; [8; 9]; [9]; []], Ok ([255], [7; 8; 9])).
Proof. reflexivity. Qed.
Example C72_ex :
  s_der_container ber_ops (fun s c h => (s + 1, Ok ([], nlen c))) 4 (hx "04 02 07 08 ff") = (5, Ok ([255], 2))
  /\ s_der_container ber_ops (fun s c h => (s + 1, Ok ([], nlen c))) 4 (hx "04 03 07 08") = (4, Err (Error (ENomError EkEof)))
  /\ fst (s_ber_optional (fun s i => (s + 1, Err (Error InvalidTag))) 4 (hx "04")) = 5.
Proof. repeat split. Qed.
Example C74_ex : forall s c, snd ((fun (s : N) (c : bytes) => (s + 1, parse_ber SL c)) s c) = parse_ber SL c.
Proof. reflexivity. Qed.
