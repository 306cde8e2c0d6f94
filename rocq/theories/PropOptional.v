(** * C99: the DER and the BER parser of a type with OPTIONAL components *)

From Coq Require Import String.
From Verif Require Import Base Asn1rs Ber Der Combinators Typed Conformance Spec SpecValue SpecComb SpecTyped SpecOid SpecAbstract SpecSchema.
From Verif Require Import LemBase LemHeader LemSkip LemParse LemDer LemComb LemTree LemNode.
From Verif Require Import PropTotal PropComb PropTyped PropContent PropSchema PropAccept.
From Verif Require Import SpecAccept SpecOptional.
Local Open Scope string_scope. Local Open Scope N_scope. Local Open Scope list_scope.

Lemma proper_distinct :
  (forall e, proper e -> distinct e) /\ (forall fs, proper_fields fs -> distinct_fields fs).
Proof.
  apply ty_fields_ind; cbn [proper distinct proper_fields distinct_fields]; intros; auto;
    repeat match goal with H : _ /\ _ |- _ => destruct H end; auto.
Qed.

Lemma same_start h c bs r h' c' bs' r' :
  element 50 h c bs -> element 50 h' c' bs' -> bs ++ r = bs' ++ r' -> h = h'.
Proof.
  intros H H' E. pose proof (any_from_ber_complete _ _ _ r H) as A.
  pose proof (any_from_ber_complete _ _ _ r' H') as A'. rewrite E in A. rewrite A in A'. now inv A'.
Qed.

Lemma an_element_50 der h c bs : an_element der h c bs -> element 50 h c bs.
Proof. destruct der; [apply definite_is_element|auto]. Qed.

(** Whether an element of a type is there can be decided. *)
Lemma there_or_not L der e i : distinct e -> bytes_ok i ->
  (exists r o, accepted L der e i r o) \/ (forall r o, ~ accepted L der e i r o).
Proof.
  intros Hd Hok. destruct (reader (kit_of L der) e i) as [[r o]|x| |] eqn:E.
  - left. exists r, o. now apply (proj1 (reader_exact L der)).
  - right. intros r o H. apply (proj1 (reader_exact L der)) in H; [congruence|exact Hd|exact Hok].
  - right. intros r o H. apply (proj1 (reader_exact L der)) in H; [congruence|exact Hd|exact Hok].
  - right. intros r o H. apply (proj1 (reader_exact L der)) in H; [congruence|exact Hd|exact Hok].
Qed.

Inductive all_optional : fields -> Prop :=
| ao_nil : all_optional FNil
| ao_cons e fs : all_optional fs -> all_optional (FCons true e fs).

(** Components that cannot begin here are all absent. *)
Lemma not_here L der h c bs m : element 50 h c bs ->
  forall fs r os, ~ In (h_tag h) (firsts fs) -> accepted_fields L der fs (bs ++ m) r os ->
  all_optional fs /\ Forall (eq absent) os /\ r = bs ++ m.
Proof.
  intros He. induction fs as [|[] e fs IH]; intros r os Ht; cbn [firsts accepted_fields] in *.
  - intros [-> ->]. repeat constructor.
  - rewrite in_app_iff in Ht. intros [(m' & o & os' & Ha & _)|(_ & os' & Hf & ->)].
    + apply accepted_starts in Ha as (bs' & h' & c' & E & He' & Ht'). apply an_element_50 in He'.
      rewrite (same_start _ _ _ _ _ _ _ _ He He' E) in Ht. tauto.
    + apply IH in Hf as (Hao & Hab & ->); [|tauto]. repeat split; constructor; auto.
  - intros (m' & o & os' & Ha & _).
    apply accepted_starts in Ha as (bs' & h' & c' & E & He' & Ht'). apply an_element_50 in He'.
    rewrite (same_start _ _ _ _ _ _ _ _ He He' E) in Ht. tauto.
Qed.

(** A record of OPTIONAL components is always accepted. *)
Lemma all_optional_accepted L der fs : all_optional fs -> forall i, distinct_fields fs -> bytes_ok i ->
  exists r os, accepted_fields L der fs i r os
    /\ Forall (fun o => o = absent \/ exists y, o = present y) os.
Proof.
  induction 1 as [|e fs _ IH]; intros i Hd Hok; cbn [distinct_fields accepted_fields] in *.
  - exists i, []. repeat constructor.
  - destruct Hd as [Hd Hds]. destruct (there_or_not L der e i Hd Hok) as [(m & o & Ha)|Hn].
    + assert (Hok' : bytes_ok m).
      { apply accepted_suffix in Ha as (p & ->). now apply bytes_ok_app in Hok. }
      destruct (IH m Hds Hok') as (r & os & Hf & Hos). exists r, (present o :: os). split.
      * left. exists m, o, os. auto.
      * constructor; eauto.
    + destruct (IH i Hds Hok) as (r & os & Hf & Hos). exists r, (absent :: os). split.
      * right. split; [exact Hn|]. exists os. auto.
      * constructor; eauto.
Qed.

Lemma accepted_fields_length L der fs : forall i r os, accepted_fields L der fs i r os ->
  length os = (fix len fs := match fs with FNil => O | FCons _ _ fs => S (len fs) end) fs.
Proof.
  induction fs as [|[] e fs IH]; intros i r os; cbn [accepted_fields].
  - intros [_ ->]. reflexivity.
  - intros [(m & o & os' & _ & Hf & ->)|(_ & os' & Hf & ->)]; cbn; f_equal; eauto.
  - intros (m & o & os' & _ & Hf & ->). cbn. f_equal. eauto.
Qed.

Lemma pieces_fuller (P Q : bytes -> bytes -> obj -> Prop) c os : short c -> bytes_ok c ->
  (forall i r o, P i r o -> exists p, i = p ++ r) ->
  (forall i r o, short i -> bytes_ok i -> P i r o -> exists o', Q i r o' /\ fuller o o') ->
  pieces P c os -> exists os', pieces Q c os' /\ fuller_list os os'.
Proof.
  intros Hs Hok Hsuf H. induction 1 as [|c rest o os Hp Hl _ IH]; [exists []; repeat constructor|].
  destruct (Hsuf _ _ _ Hp) as (p & ->). destruct (short_app _ _ Hs) as [_ Hs'].
  pose proof Hok as Hok'. apply bytes_ok_app in Hok' as [_ Hok'].
  destruct (IH Hs' Hok') as (os' & Hq & Hf). destruct (H _ _ _ Hs Hok Hp) as (o' & Ho & Hfo).
  exists (o' :: os'). split; [econstructor; eauto|constructor; auto].
Qed.

Lemma accepted_fuller L :
  (forall e i r o, proper e -> short i -> bytes_ok i -> accepted L true e i r o ->
     exists o', accepted L false e i r o' /\ fuller o o')
  /\ (forall fs i r os, proper_fields fs -> short i -> bytes_ok i -> accepted_fields L true fs i r os ->
     exists r' os', accepted_fields L false fs i r' os' /\ fuller_list os os').
Proof.
  assert (HB : forall h c bs r, definite_element h c bs -> bytes_ok (bs ++ r) -> bytes_ok c).
  { intros h c bs r (hb & -> & _) Hok. rewrite <- app_assoc in Hok.
    apply bytes_ok_app in Hok as [_ Hok]. now apply bytes_ok_app in Hok as [Hok _]. }
  apply ty_fields_ind.
  - intros t i r o _ Hs Hok Ha. exists o. split; [|constructor].
    exact (proj1 (accepted_der_ber L) (TValue t) i r o I Hs Ha).
  - intros fs IH i r o Hm Hs Hok (bs & h & c & rest & os & -> & He & Ht & Hf & ->).
    destruct (short_content _ _ _ _ He Hs) as [Hs' He'].
    destruct (IH _ _ _ Hm Hs' (HB _ _ _ _ He Hok) Hf) as (r' & os' & Hf' & Hfu).
    eexists. split; [exists bs, h, c, r', os'; auto 8|constructor; exact Hfu].
  - intros e IH i r o Hm Hs Hok (bs & h & c & os & -> & He & Ht & Hf & ->).
    destruct (short_content _ _ _ _ He Hs) as [Hs' He'].
    apply (pieces_fuller _ (accepted L false e)) in Hf as (os' & Hf' & Hfu);
      [|exact Hs'|exact (HB _ _ _ _ He Hok)|apply accepted_suffix|auto].
    eexists. split; [exists bs, h, c, os'; auto 8|constructor; exact Hfu].
  - intros e IH i r o Hm Hs Hok (bs & h & c & os & -> & He & Ht & Hf & ->).
    destruct (short_content _ _ _ _ He Hs) as [Hs' He'].
    apply (pieces_fuller _ (accepted L false e)) in Hf as (os' & Hf' & Hfu);
      [|exact Hs'|exact (HB _ _ _ _ He Hok)|apply accepted_suffix|auto].
    eexists. split; [exists bs, h, c, os'; auto 8|constructor; exact Hfu].
  - intros fs IH i r o Hm Hs Hok (bs & h & c & rest & os & -> & He & Ht & Hf & ->).
    destruct (short_content _ _ _ _ He Hs) as [Hs' He'].
    destruct (IH _ _ _ Hm Hs' (HB _ _ _ _ He Hok) Hf) as (r' & os' & Hf' & Hfu).
    eexists. split; [exists bs, h, c, r', os'; auto 8|constructor; exact Hfu].
  - intros cl t e IH i r o (_ & _ & Hm) Hs Hok (bs & h & c & rest & x & -> & He & Hcl & Ht & Hc & Hf & ->).
    destruct (short_content _ _ _ _ He Hs) as [Hs' He'].
    destruct (IH _ _ _ Hm Hs' (HB _ _ _ _ He Hok) Hf) as (x' & Hf' & Hfu).
    eexists. split; [exists bs, h, c, rest, x'; auto 8|constructor; exact Hfu].
  - intros cl t u i r o _ Hs Hok Ha. exists o. split; [|constructor].
    exact (proj1 (accepted_der_ber L) (TImplicit cl t u) i r o I Hs Ha).
  - intros cl t fs IH i r o (_ & _ & Hm) Hs Hok (bs & h & c & rest & os & -> & He & Ht & Hf & ->).
    destruct (short_content _ _ _ _ He Hs) as [Hs' He'].
    destruct (IH _ _ _ Hm Hs' (HB _ _ _ _ He Hok) Hf) as (r' & os' & Hf' & Hfu).
    eexists. split; [exists bs, h, c, r', os'; auto 8|constructor; exact Hfu].
  - intros e1 IH1 e2 IH2 i r o (Hm1 & Hm2 & _) Hs Hok [H|H];
      [apply IH1 in H as (o' & H & Hf)|apply IH2 in H as (o' & H & Hf)]; auto;
      exists o'; (split; [|exact Hf]); [left|right]; exact H.
  - intros i r os _ _ _ [-> ->]. exists i, []. repeat constructor.
  - intros optional e IHe fs IHf i r os (Hm & Hms & Hap) Hs Hok.
    assert (Hrest : forall m o, accepted L true e i m o -> short m /\ bytes_ok m).
    { intros m o Ha. apply accepted_suffix in Ha as (p & ->).
      apply short_app in Hs. apply bytes_ok_app in Hok. tauto. }
    destruct optional; cbn [accepted_fields].
    + intros [(m & o & os' & Ha & Hf & ->)|(Hn & os' & Hf & ->)].
      * destruct (Hrest _ _ Ha) as [Hs' Hok']. apply IHe in Ha as (o' & Ha & Hfu); auto.
        apply IHf in Hf as (r' & l & Hf & Hfl); auto.
        exists r', (present o' :: l). split; [left; exists m, o', l; auto|].
        constructor; [now apply (fu_present o o')|exact Hfl].
      * destruct (there_or_not L false e i (proj1 proper_distinct _ Hm) Hok) as [(m & x & Ha)|Hn'].
        -- pose proof Ha as Hst. apply accepted_starts in Hst as (bs & h & c & -> & He & Ht).
           apply an_element_50 in He.
           pose proof (accepted_fields_length _ _ _ _ _ _ Hf) as Hlen.
           apply (not_here _ _ h c bs m He) in Hf as (Hao & Hab & ->); [|exact (Hap eq_refl _ Ht)].
           apply bytes_ok_app in Hok as [_ Hok].
           destruct (all_optional_accepted L false fs Hao m (proj2 proper_distinct _ Hms) Hok)
             as (r' & l & Hf & Hl).
           exists r', (present x :: l). split; [left; exists m, x, l; auto|].
           apply fu_rest; [exact Hab| |exact Hl].
           now rewrite Hlen, (accepted_fields_length _ _ _ _ _ _ Hf).
        -- apply IHf in Hf as (r' & l & Hf & Hfl); auto.
           exists r', (absent :: l). split; [right; split; [exact Hn'|exists l; auto]|].
           constructor; [constructor|exact Hfl].
    + intros (m & o & os' & Ha & Hf & ->).
      destruct (Hrest _ _ Ha) as [Hs' Hok']. apply IHe in Ha as (o' & Ha & Hfu); auto.
      apply IHf in Hf as (r' & l & Hf & Hfl); auto.
      exists r', (o' :: l). split; [exists m, o', l; auto|]. constructor; auto.
Qed.

(** For every type with distinct tags where X.680 asks for them: what the DER parser
    accepts, the BER parser accepts, leaving the same octets, and its result
    differs at most in having OPTIONAL components present at the end of a record, where the
    result of the DER parser has none but absent ones. *)
Theorem C99_optional : forall L e i r o, proper e -> bytes_ok i -> N.of_nat (length i) <= 4294967295 ->
  reader (der_kit L) e i = Ok (r, o) ->
  exists o', reader (ber_kit L) e i = Ok (r, o') /\ fuller o o'.
Proof.
  intros L e i r o Hp Hok Hs H. pose proof (proj1 proper_distinct e Hp) as Hd.
  apply C98_exact in H; [|exact Hd|exact Hok].
  apply accepted_fuller in H as (o' & H & Hf); [|exact Hp|exact Hs|exact Hok].
  exists o'. split; [now apply C98_exact|exact Hf].
Qed.
Print Assumptions C99_optional.

Scheme fuller_mind := Induction for fuller Sort Prop with fuller_list_mind := Induction for fuller_list Sort Prop.
Combined Scheme fuller_both_ind from fuller_mind, fuller_list_mind.

Lemma all_absent_last l : Forall (eq absent) l -> ~ last_present (absent :: l).
Proof.
  induction l as [|x l IH]; intros Hf H.
  - inversion H; subst; congruence.
  - inv Hf. inversion H; subst. now apply IH in H3.
Qed.

Lemma ends_inside :
  (forall h l, ends_present (Obj h (CSequence l)) -> last_present l)
  /\ (forall h l, ends_present (Obj h (CSet l)) -> last_present l)
  /\ (forall h cl t o, ends_present (Obj h (CTagged cl t o)) -> ends_present o)
  /\ (forall h o, ends_present (Obj h (COptional (Some o))) -> ends_present o).
Proof.
  split; [|split; [|split]]; intros; match goal with H : ends_present _ |- _ => inversion H; subst end; auto; exfalso.
  - match goal with H : forall l, _ /\ _ |- _ => now apply (proj1 (H l)) end.
  - match goal with H : forall l, _ /\ _ |- _ => now apply (proj2 (H l)) end.
  - match goal with H : forall cl t o, CTagged _ _ _ <> _ |- _ => now apply (H cl t o) end.
  - match goal with H : forall x, COptional _ <> _ |- _ => now apply (H (Some o)) end.
Qed.

Lemma fuller_same :
  (forall o o', fuller o o' -> ends_present o -> o = o')
  /\ (forall l l', fuller_list l l' -> last_present l -> l = l').
Proof.
  destruct ends_inside as (E1 & E2 & E3 & E4).
  apply fuller_both_ind.
  - reflexivity.
  - intros h l l' _ IH H. now rewrite (IH (E1 _ _ H)).
  - intros h l l' _ IH H. now rewrite (IH (E2 _ _ H)).
  - intros h cl t o o' _ IH H. now rewrite (IH (E3 _ _ _ _ H)).
  - intros o o' _ IH H. now rewrite (IH (E4 _ _ H)).
  - reflexivity.
  - intros o o' l l' _ IHo Hl IHl H. inversion H; subst.
    + inversion Hl; subst. now rewrite IHo.
    + now rewrite IHo, IHl.
  - intros l x l' Hf _ _ H. exfalso. exact (all_absent_last _ Hf H).
Qed.

(** If in the result of the DER parser no record ends with an absent component, the BER
    parser gives the same result. *)
Theorem C99_present : forall L e i r o, proper e -> bytes_ok i -> N.of_nat (length i) <= 4294967295 ->
  reader (der_kit L) e i = Ok (r, o) -> ends_present o -> reader (ber_kit L) e i = Ok (r, o).
Proof.
  intros L e i r o Hp Hok Hs H He. destruct (C99_optional _ _ _ _ _ Hp Hok Hs H) as (o' & H' & Hf).
  now rewrite (proj1 fuller_same _ _ Hf He).
Qed.
Print Assumptions C99_present.

(** SEQUENCE { a BOOLEAN OPTIONAL, b INTEGER, c NULL OPTIONAL }: with [c] both parsers
    give the same; with a [c] of indefinite length only the BER parser has a [c]. *)
Example C99_ex2 :
  let e := TSequence (FCons true (TValue 1) (FCons false (TValue 2) (FCons true (TExplicit ContextSpecific 0 (TValue 5)) FNil))) in
  (exists o, reader (der_kit SL) e (hx "30 07 02 01 05 a0 02 05 00 aa") = Ok (hx "aa", o) /\ proper e /\ ends_present o
     /\ reader (ber_kit SL) e (hx "30 07 02 01 05 a0 02 05 00 aa") = Ok (hx "aa", o))
  /\ exists o o', reader (der_kit SL) e (hx "30 09 02 01 05 a0 80 05 00 00 00 aa") = Ok (hx "aa", o)
     /\ reader (ber_kit SL) e (hx "30 09 02 01 05 a0 80 05 00 00 00 aa") = Ok (hx "aa", o') /\ fuller o o' /\ o <> o'.
Proof.
  cbv zeta. set (e := TSequence _). assert (Hp : proper e) by is_proper.
  split.
  - eexists. split; [vm_compute; reflexivity|]. split; [exact Hp|]. split; [|vm_compute; reflexivity].
    apply ep_sequence, lp_cons; [apply ep_optional; discriminate|discriminate|].
    apply lp_cons; [apply ep_other; try split; discriminate|discriminate|].
    apply lp_last; [|discriminate]. apply ep_optional. intros o E. injection E as <-.
    apply ep_tagged, ep_other; try split; discriminate.
  - assert (H : exists o, reader (der_kit SL) e (hx "30 09 02 01 05 a0 80 05 00 00 00 aa") = Ok (hx "aa", o)
      /\ exists h x y, o = Obj h (CSequence [x; y; absent])) by (eexists; split; [vm_compute; reflexivity|do 3 eexists; reflexivity]).
    destruct H as (o & H & h & x & y & ->). pose proof H as H'.
    apply C99_optional in H' as (o' & H' & Hf); [|exact Hp|bok|vm_compute; discriminate].
    exists (Obj h (CSequence [x; y; absent])), o'. split; [exact H|]. split; [exact H'|]. split; [exact Hf|].
    intros <-. vm_compute in H'. discriminate.
Qed.
