(** * C96: the pretty printer and writers that fail *)

From Coq Require Import String.
From Verif Require Import Base Asn1rs Ber Print PrintText PrintWrite Conformance Spec SpecPrint.
From Verif Require Import LemBase PropPrint.
Local Open Scope string_scope.
Local Open Scope N_scope.
Local Open Scope list_scope.

(** [fed write s l s' ok]: the texts [l] are handed to [write] in order, up to the first that
    it refuses; [ok] says whether it refused none. *)
Inductive fed {S} (write : S -> bytes -> S * bool) : S -> list bytes -> S -> bool -> Prop :=
| fed_end s : fed write s [] s true
| fed_next s c s1 r s' ok : write s c = (s1, true) -> fed write s1 r s' ok -> fed write s (c :: r) s' ok
| fed_stop s c s1 r : write s c = (s1, false) -> fed write s (c :: r) s1 false.

Section Fed.
  Context {S : Type} (write : S -> bytes -> S * bool) (cut : bytes -> list bytes).
  Context (Hcut : forall t, concat (cut t) = t).

  Lemma fed_all l : forall s, fed write s l (fst (write_all write l s)) (snd (write_all write l s)).
  Proof.
    induction l as [|c l IH]; intros s; cbn [write_all]; [constructor|].
    destruct (write s c) as [s1 [|]] eqn:E; [now apply fed_next with s1|now apply fed_stop].
  Qed.

  Lemma fed_app l l' s s1 s' ok : fed write s l s1 true -> fed write s1 l' s' ok -> fed write s (l ++ l') s' ok.
  Proof.
    intros H. remember true as t eqn:Et. induction H; intros H'; [assumption| |discriminate].
    cbn [app]. eapply fed_next; eauto.
  Qed.
  Lemma fed_cut l l' s s1 : fed write s l s1 false -> fed write s (l ++ l') s1 false.
  Proof.
    intros H. remember false as t eqn:Et. induction H; [discriminate| |].
    - cbn [app]. eapply fed_next; eauto.
    - cbn [app]. now apply fed_stop.
  Qed.

  (** [m] hands over [text], in some pieces that do not depend on the writer's state. *)
  Definition hands (m : S -> S * bool) (text : bytes) : Prop :=
    exists l, concat l = text /\ forall s, fed write s l (fst (m s)) (snd (m s)).

  Lemma hands_wr t : hands (wr write cut t) t.
  Proof. exists (cut t). split; [apply Hcut|]. intros s. apply fed_all. Qed.
  Lemma hands_done : hands done [].
  Proof. exists []. split; [reflexivity|]. intros s. constructor. Qed.
  Lemma hands_next a b ta tb : hands a ta -> hands b tb -> hands (next a b) (ta ++ tb).
  Proof.
    intros (la & Ea & Ha) (lb & Eb & Hb). exists (la ++ lb). split; [rewrite concat_app; congruence|].
    intros s. unfold next. specialize (Ha s). destruct (a s) as [s1 [|]]; cbn [fst snd] in *.
    - eapply fed_app; [exact Ha|apply Hb].
    - now apply fed_cut.
  Qed.
  Lemma hands_pad n : hands (wr_pad write cut n) (pad n).
  Proof.
    unfold wr_pad. destruct (0 <? n) eqn:E; [apply hands_wr|].
    assert (n = 0) as -> by lia. apply hands_done.
  Qed.
  Lemma hands_each f g l : (forall x, In x l -> hands (f x) (g x)) -> hands (wr_each f l) (flat_map g l).
  Proof.
    induction l as [|x l IH]; intros H; [apply hands_done|].
    apply hands_next; [apply H; now left|]. apply IH. intros y Hy. apply H. now right.
  Qed.

  Lemma hands_fmt T flags inc : forall o indent,
    hands (fmt_write write cut T flags indent inc o) (fmt_obj T flags indent inc o).
  Proof.
    fix IH 1. intros [h c] indent. cbn [fmt_write fmt_obj].
    apply hands_next; [apply hands_pad|]. apply hands_next.
    { destruct (existsb _ flags); [apply hands_next; apply hands_wr|apply hands_done]. }
    assert (Hl : forall l ty, hands
      (if existsb (flag_eqb Recursive) flags then
         next (wr write cut (ty ++ str "[" ++ [10]))
           (next (wr_each (fmt_write write cut T flags (indent + inc) inc) l)
              (next (wr_pad write cut indent) (wr write cut (str "]"))))
       else wr write cut ty)
      (if existsb (flag_eqb Recursive) flags then
         ty ++ str "[" ++ [10] ++ flat_map (fmt_obj T flags (indent + inc) inc) l ++ pad indent ++ str "]"
       else ty)).
    { intros l ty. destruct (existsb _ flags); [|apply hands_wr].
      replace (ty ++ str "[" ++ [10] ++ flat_map (fmt_obj T flags (indent + inc) inc) l ++ pad indent ++ str "]")
        with ((ty ++ str "[" ++ [10]) ++ flat_map (fmt_obj T flags (indent + inc) inc) l ++ pad indent ++ str "]")
        by (now rewrite <- !app_assoc).
      apply hands_next; [apply hands_wr|]. apply hands_next; [|apply hands_next; [apply hands_pad|apply hands_wr]].
      induction l as [|x l IHl]; [apply hands_done|]. apply (hands_next (fmt_write write cut T flags (indent + inc) inc x)
        (wr_each (fmt_write write cut T flags (indent + inc) inc) l)); [apply IH|exact IHl]. }
    destruct c; try exact (hands_wr _); try exact (Hl _ _).
    all: try match goal with o : option obj |- _ => destruct o; exact (hands_wr _) end.
    rename o into x, c into cl.
    replace (str "ContextSpecific [" ++ tx_class T cl ++ str " " ++ dec t ++ str "] {" ++ [10] ++
        fmt_obj T flags (indent + inc) inc x ++ pad indent ++ str "}")
      with ((str "ContextSpecific [" ++ tx_class T cl ++ str " " ++ dec t ++ str "] {" ++ [10]) ++
        fmt_obj T flags (indent + inc) inc x ++ pad indent ++ str "}") by (now rewrite <- !app_assoc).
    apply hands_next; [apply hands_wr|]. apply hands_next; [apply IH|].
    apply hands_next; [apply hands_pad|apply hands_wr].
  Qed.
End Fed.

(** Printing to any writer: the text of the printer in pieces, handed over in order until
    the writer refuses one; the answer is [Ok] exactly if it refuses none. *)
Theorem C96_writer : forall S (write : S -> bytes -> S * bool) cut T p,
  (forall t, concat (cut t) = t) ->
  exists l, concat l = pretty_text T p
    /\ forall s, fed write s l (fst (pretty_write write cut T p s)) (snd (pretty_write write cut T p s)).
Proof. intros S write cut T [o indent inc flags] Hcut. exact (hands_fmt write cut Hcut T flags inc o indent). Qed.
Print Assumptions C96_writer.

(** A buffer of limited size: it takes a text if it fits, and keeps what it has otherwise. *)
Definition bounded_write (size : nat) (s c : bytes) : bytes * bool :=
  if (length s + length c <=? size)%nat then (s ++ c, true) else (s, false).

(** What is in the buffer afterwards is a beginning of the text, and all of it if the answer
    is [Ok], which is the case exactly if it fits. *)
Theorem C96_buffer : forall size cut T p s, (forall t, concat (cut t) = t) ->
  let (s', ok) := pretty_write (bounded_write size) cut T p s in
  (exists a b, pretty_text T p = a ++ b /\ s' = s ++ a /\ (ok = true -> b = []))
  /\ ((length s <= size)%nat -> ok = true <-> (length s + length (pretty_text T p) <= size)%nat).
Proof.
  intros size cut T p s Hcut. destruct (C96_writer _ (bounded_write size) cut T p Hcut) as (l & E & H).
  specialize (H s). destruct (pretty_write _ _ _ _ s) as [s' ok]. cbn [fst snd] in H. rewrite <- E. clear E.
  induction H as [s|s c s1 r s' ok Hw _ IH|s c s1 r Hw].
  - split; [exists [], []; rewrite (app_nil_r s); auto|]. cbn [concat length]. intros Hs. split; [lia|reflexivity].
  - unfold bounded_write in Hw. destruct (_ <=? _)%nat eqn:E; [|discriminate]. inv Hw.
    destruct IH as ((a & b & Ea & Es & Hb) & Hi). split.
    + exists (c ++ a), b. cbn [concat]. rewrite Ea, <- app_assoc. split; [reflexivity|].
      split; [rewrite Es; now rewrite app_assoc|assumption].
    + intros Hs. cbn [concat]. rewrite app_length in *. rewrite Hi by lia. lia.
  - unfold bounded_write in Hw. destruct (_ <=? _)%nat eqn:E; [discriminate|]. inv Hw.
    split; [exists [], (concat (c :: r)); rewrite (app_nil_r s1); split; [reflexivity|split; [reflexivity|discriminate]]|].
    intros Hs. cbn [concat]. rewrite app_length. split; [discriminate|lia].
Qed.
Print Assumptions C96_buffer.

(** A SEQUENCE of two NULLs in a buffer of twelve octets, each text in one piece. *)
Example C96_ex :
  pretty_write (bounded_write 12) (fun t => [t]) ST (pretty_new (from_seq [from_obj CNull; from_obj CNull]) [Recursive] 0 1) []
  = (str "Sequence[" ++ [10; 32], false)
  /\ pretty_write (bounded_write 21) (fun t => [t]) ST (pretty_new (from_seq [from_obj CNull; from_obj CNull]) [Recursive] 0 1) []
  = (str "Sequence[" ++ [10] ++ str " Null Null]", true).
Proof. split; vm_compute; reflexivity. Qed.
