(** * C100, C101: CHOICE by nom's [alt], and the Name parser of the tests *)

From Coq Require Import String Permutation.
From Verif Require Import Base Asn1rs Ber Der Combinators Typed X501 Serialize Conformance Spec SpecValue SpecComb SpecTyped SpecOid SpecAbstract SpecSchema.
From Verif Require Import LemBase LemHeader LemSkip LemParse LemDer LemComb LemTree LemNode LemAbstract PropAbstract.
From Verif Require Import PropTotal PropComb PropTyped PropContent PropSchema PropSchemaEnc PropReadWrite PropSet.
From Verif Require Import SpecAccept PropAccept.
Local Open Scope string_scope. Local Open Scope N_scope. Local Open Scope list_scope.

(** ** [alt] *)

Definition recoverable {A} (x : iresult berror A) : Prop := exists e, x = Err (Error e).

(** The first parser whose result is not a recoverable error decides; if there is
    none, the error is of kind [Alt].  Alternatives may be grouped. *)
Theorem C100_alt : forall A (before : list (bytes -> iresult berror A)) f after i,
  Forall (fun g => recoverable (g i)) before ->
  (~ recoverable (f i) -> nom_alt (before ++ f :: after) i = f i)
  /\ nom_alt before i = Err (Error (ENomError EkAlt))
  /\ nom_alt (before ++ [nom_alt (f :: after)]) i = nom_alt (before ++ f :: after) i.
Proof.
  intros A before f after i H.
  assert (Hn : forall fs : list (bytes -> iresult berror A), nom_alt [nom_alt fs] i = nom_alt fs i).
  { induction fs as [|g fs IH]; [reflexivity|]. cbn [nom_alt] in *. destruct (g i) as [|[]| |]; try reflexivity. exact IH. }
  induction H as [|g before (x & Hg) _ (IH1 & IH2 & IH3)].
  - split; [|split; [reflexivity|apply Hn]]. intros Hf. cbn [app nom_alt]. destruct (f i) as [|[]| |] eqn:E; try reflexivity.
    exfalso. apply Hf. eexists. reflexivity.
  - cbn [app nom_alt] in *. rewrite Hg. auto.
Qed.
Print Assumptions C100_alt.

(** ** Alternatives with distinct tag numbers *)

Lemma alt_exact L der es : Forall distinct es -> ForallOrdPairs (fun e e' => apart (ty_tags e) (ty_tags e')) es ->
  forall i r o, bytes_ok i ->
  (nom_alt (map (reader (kit_of L der)) es) i = Ok (r, o)
   <-> exists e, In e es /\ accepted L der e i r o).
Proof.
  intros Hd Hp i r o Hok. induction Hp as [|e es Hf Hp IH]; cbn [map nom_alt].
  - split; [discriminate|intros (e & [] & _)].
  - inversion Hd as [|? ? He Hes]; subst. specialize (IH Hes). split.
    + intros H. destruct (reader (kit_of L der) e i) as [[m x]|[]| |] eqn:E; try discriminate.
      * inv H. exists e. split; [now left|]. apply reader_exact; auto.
      * apply IH in H as (e' & Hi & Ha). exists e'. split; [now right|exact Ha].
    + intros (e' & [<-|Hi] & Ha).
      * apply reader_exact in Ha; auto. now rewrite Ha.
      * pose proof Ha as Hs. apply accepted_starts in Hs as (bs & h & c & -> & Hel & Ht).
        rewrite Forall_forall in Hf. specialize (Hf _ Hi).
        destruct (reader_other L der e h c bs r Hel) as (x & ->); [intros H1; exact (Hf _ H1 Ht)|].
        apply IH. eauto.
Qed.

(** The parser for a CHOICE accepts what the parsers of its alternatives accept. *)
Theorem C100_exact : forall L es, Forall distinct es ->
  ForallOrdPairs (fun e e' => apart (ty_tags e) (ty_tags e')) es -> forall i r o, bytes_ok i ->
  (nom_alt (map (reader (ber_kit L)) es) i = Ok (r, o) <-> exists e, In e es /\ accepted L false e i r o)
  /\ (nom_alt (map (reader (der_kit L)) es) i = Ok (r, o) <-> exists e, In e es /\ accepted L true e i r o).
Proof.
  intros L es Hd Hp i r o Hok. split; [exact (alt_exact L false es Hd Hp i r o Hok)|exact (alt_exact L true es Hd Hp i r o Hok)].
Qed.
Print Assumptions C100_exact.

(** Only one alternative accepts an input. *)
Theorem C100_one : forall L es e e' i r o r' o', ForallOrdPairs (fun e e' => apart (ty_tags e) (ty_tags e')) es ->
  Forall distinct es -> In e es -> In e' es -> bytes_ok i ->
  (reader (ber_kit L) e i = Ok (r, o) -> reader (ber_kit L) e' i = Ok (r', o') -> e = e')
  /\ (reader (der_kit L) e i = Ok (r, o) -> reader (der_kit L) e' i = Ok (r', o') -> e = e').
Proof.
  intros L es e e' i r o r' o' Hp Hd Hi Hi' Hok.
  assert (H : forall der, reader (kit_of L der) e i = Ok (r, o) -> reader (kit_of L der) e' i = Ok (r', o') -> e = e').
  { intros der H H'. rewrite Forall_forall in Hd.
    pose proof H as Ha. apply reader_exact in Ha; auto. pose proof H' as Ha'. apply reader_exact in Ha'; auto.
    apply accepted_starts in Ha as (bs & h & c & -> & Hel & Ht). apply accepted_starts in Ha' as (bs' & h' & c' & E & Hel' & Ht').
    assert (h' = h) as ->.
    { apply (an_element_ok _ _ _ _ r) in Hel as [_ Hel]; [|exact Hok].
      rewrite E in Hok. apply (an_element_ok _ _ _ _ r') in Hel' as [_ Hel']; [|exact Hok].
      destruct (element_first _ _ _ _ _ _ _ _ Hel Hel' E) as (-> & _). reflexivity. }
    destruct (ForallOrdPairs_In Hp e e' Hi Hi') as [E'|[Hap|Hap]]; [exact E'| |]; exfalso.
    - exact (Hap _ Ht Ht').
    - exact (Hap _ Ht' Ht). }
  split; [exact (H false)|exact (H true)].
Qed.
Print Assumptions C100_one.

(** Their order does not matter. *)
Theorem C100_order : forall L es es', Permutation es es' -> Forall distinct es ->
  ForallOrdPairs (fun e e' => apart (ty_tags e) (ty_tags e')) es -> forall i x, bytes_ok i ->
  (nom_alt (map (reader (ber_kit L)) es) i = Ok x <-> nom_alt (map (reader (ber_kit L)) es') i = Ok x)
  /\ (nom_alt (map (reader (der_kit L)) es) i = Ok x <-> nom_alt (map (reader (der_kit L)) es') i = Ok x).
Proof.
  intros L es es' Hperm Hd Hp i [r o] Hok.
  assert (Hsym : forall e e', apart (ty_tags e) (ty_tags e') -> apart (ty_tags e') (ty_tags e)).
  { intros e e' H t Ht Ht'. exact (H _ Ht' Ht). }
  assert (Hp' : ForallOrdPairs (fun e e' => apart (ty_tags e) (ty_tags e')) es').
  { clear - Hperm Hp Hsym. induction Hperm as [|e l l' Hl IH|a b l|l l' l'' H1 IH1 H2 IH2].
    - constructor.
    - inversion Hp as [|? ? Hf Ht]; subst. constructor; [|auto]. eapply Permutation_Forall; eassumption.
    - inversion Hp as [|? ? Hf Ht]; subst. inversion Ht as [|? ? Hf' Ht']; subst. inversion Hf as [|? ? Hab Hfl]; subst.
      constructor; [|constructor; [exact Hfl|exact Ht']]. constructor; [now apply Hsym|exact Hf'].
    - auto. }
  assert (Hd' : Forall distinct es') by (eapply Permutation_Forall; eassumption).
  assert (H : forall der, nom_alt (map (reader (kit_of L der)) es) i = Ok (r, o) <-> nom_alt (map (reader (kit_of L der)) es') i = Ok (r, o)).
  { intros der. rewrite (alt_exact L der es Hd Hp i r o Hok), (alt_exact L der es' Hd' Hp' i r o Hok).
    split; intros (e & Hi & Ha); exists e; (split; [|exact Ha]);
      [exact (Permutation_in _ Hperm Hi)|exact (Permutation_in _ (Permutation_sym Hperm) Hi)]. }
  split; [exact (H false)|exact (H true)].
Qed.
Print Assumptions C100_order.

(** ** Alternatives with the same tag number *)

(** CHOICE { SEQUENCE OF INTEGER, SEQUENCE OF BOOLEAN }: what only the second accepts is
    not accepted, because an error inside the first is not a recoverable one; with the
    alternatives exchanged it is. *)
Theorem C100_same_tag_refuted : exists e1 e2 i o x,
  reader (ber_kit SL) e1 i = Err x /\ reader (ber_kit SL) e2 i = Ok ([], o)
  /\ (exists y, nom_alt [reader (ber_kit SL) e1; reader (ber_kit SL) e2] i = Err y)
  /\ (exists y, nom_alt [reader (der_kit SL) e1; reader (der_kit SL) e2] i = Err y)
  /\ nom_alt [reader (ber_kit SL) e2; reader (ber_kit SL) e1] i = Ok ([], o).
Proof.
  exists (TSequenceOf (TValue 2)), (TSequenceOf (TValue 1)), [48; 3; 1; 1; 255].
  do 2 eexists. split; [vm_compute; reflexivity|]. split; [vm_compute; reflexivity|].
  split; [eexists; vm_compute; reflexivity|]. split; [eexists; vm_compute; reflexivity|]. vm_compute. reflexivity.
Qed.
Print Assumptions C100_same_tag_refuted.

(** Tags that differ in the class only, as X.680 allows: CHOICE { a INTEGER, b [2] IMPLICIT
    OCTET STRING }.  An encoding of [b] is taken for an INTEGER. *)
Theorem C100_class_refuted : exists e1 e2 bs d h s,
  e1 = TValue 2 /\ e2 = TImplicit ContextSpecific 2 4
  /\ encodes_as SpecAbstract.Der true (TChoice e1 e2) 1 (DSecond d) bs
  /\ reader (der_kit SL) (TChoice e1 e2) bs = Ok ([], Obj h (CInteger s))
  /\ reader (ber_kit SL) (TChoice e1 e2) bs = Ok ([], Obj h (CInteger s))
  /\ ~ decoded SpecAbstract.Der (TChoice e1 e2) (DSecond d) (Obj h (CInteger s)).
Proof.
  exists (TValue 2), (TImplicit ContextSpecific 2 4), [130; 2; 5; 1], (DValue (AOctetString [5; 1])). do 2 eexists.
  split; [reflexivity|]. split; [reflexivity|]. split.
  { apply as_second. refine (as_implicit _ _ 0 ContextSpecific 2 (AOctetString [5; 1]) [5; 1] [130] [2] _ _ _ _ _).
    - apply c_octet_string. repeat constructor.
    - apply sup_other. exact I.
    - left. split; reflexivity.
    - now apply any_short.
    - discriminate. }
  split; [vm_compute; reflexivity|]. split; [vm_compute; reflexivity|].
  intros H. inversion H; subst.
  match goal with H : decoded _ _ _ _ |- _ => inversion H; subst end.
  match goal with H : denotes _ _ _ |- _ => inversion H end.
Qed.
Print Assumptions C100_class_refuted.

(** CHOICE { UTF8String, [0] EXPLICIT INTEGER, SEQUENCE OF BOOLEAN } *)
Example C100_ex :
  let es := [TValue 12; TExplicit ContextSpecific 0 (TValue 2); TSequenceOf (TValue 1)] in
  Forall distinct es /\ ForallOrdPairs (fun e e' => apart (ty_tags e) (ty_tags e')) es
  /\ (exists h, nom_alt (map (reader (der_kit SL)) es) [12; 1; 65; 7] = Ok ([7], Obj h (CStr KUTF8 [65])))
  /\ (exists h h', nom_alt (map (reader (ber_kit SL)) es) [160; 128; 2; 1; 5; 0; 0; 7] = Ok ([7], Obj h (CTagged ContextSpecific 0 (Obj h' (CInteger [5])))))
  /\ (exists h, nom_alt (map (reader (ber_kit SL)) es) [48; 0] = Ok ([], Obj h (CSequence [])))
  /\ nom_alt (map (reader (ber_kit SL)) es) [5; 0] = Err (Error (ENomError EkAlt))
  /\ Forall (fun g => recoverable (g [48; 0])) (map (reader (ber_kit SL)) [TValue 12; TExplicit ContextSpecific 0 (TValue 2)]).
Proof.
  cbv zeta. split; [repeat constructor|]. split.
  { repeat constructor; unfold apart; cbn; intuition congruence. }
  split; [eexists; vm_compute; reflexivity|]. split; [do 2 eexists; vm_compute; reflexivity|].
  split; [eexists; vm_compute; reflexivity|]. split; [vm_compute; reflexivity|].
  repeat constructor; eexists; vm_compute; reflexivity.
Qed.

(** ** C101: the Name parser *)

(** X.501: a Name is a sequence of sets of attributes, each an object identifier and a
    string (DirectoryString cut down to the three types the test program knows). *)
Definition directory_string : ty := TChoice (TValue 12) (TChoice (TValue 19) (TValue 22)).
Definition name : ty :=
  TSequenceOf (TSetOf (TSequence (FCons false (TValue 6) (FCons false directory_string FNil)))).

Lemma container_ext {E A} (ops : err_ops E) (f g : bytes -> header -> iresult E A) :
  (forall c h, f c h = g c h) -> forall i, parse_der_container ops f i = parse_der_container ops g i.
Proof.
  intros H i. unfold parse_der_container. destruct (map_err _ _) as [[i1 h]| | |]; try reflexivity. cbn [bind].
  destruct (h_length h); [|reflexivity]. destruct (take_complete ops n i1) as [[i2 data]| | |]; try reflexivity.
  cbn [bind]. now rewrite H.
Qed.

Lemma of_subparser_ext {E A} (ops : err_ops E) (f g : bytes -> iresult E A) :
  (forall c, f c = g c) -> forall c, of_subparser ops f c = of_subparser ops g c.
Proof.
  intros H c. unfold of_subparser, nom_all_consuming, nom_many0.
  assert (Hl : forall fuel acc i, nom_many0_loop ops (nom_complete ops (nom_cut f)) fuel acc i
    = nom_many0_loop ops (nom_complete ops (nom_cut g)) fuel acc i).
  { induction fuel as [|fuel IH]; intros acc i; [reflexivity|]. cbn [nom_many0_loop].
    unfold nom_complete, nom_cut. rewrite H. destruct (map_err _ _) as [[i1 o]| | |]; try reflexivity.
    destruct (_ =? _)%nat; [reflexivity|apply IH]. }
  now rewrite Hl.
Qed.

Lemma name_reader L i : parse_name L i = reader (der_kit L) name i.
Proof.
  assert (Hd : forall i, parse_directory_string L i = reader (der_kit L) directory_string i).
  { intros c. unfold parse_directory_string, directory_string. cbn [reader].
    change (parse_der_utf8string L) with (fun i => parse_der_with_tag L i 12).
    change (parse_der_printablestring L) with (fun i => parse_der_with_tag L i 19).
    change (parse_der_ia5string L) with (fun i => parse_der_with_tag L i 22).
    cbn [nom_alt der_kit k_value]. destruct (parse_der_with_tag L c 12) as [|[]| |]; try reflexivity.
    destruct (parse_der_with_tag L c 19) as [|[]| |]; try reflexivity.
    destruct (parse_der_with_tag L c 22) as [|[]| |]; reflexivity. }
  unfold parse_name, name. cbn [reader der_kit k_sequence_of k_set_of k_sequence].
  unfold parse_der_sequence_of, parse_der_sequence_of_v, parse_der_sequence_defined_g, nom_map.
  erewrite container_ext; [reflexivity|]. intros c h. cbv beta.
  destruct (map_err _ _); try reflexivity. cbn [bind]. apply of_subparser_ext. clear c h. intros c.
  unfold parse_rdn, parse_der_set_of, parse_der_set_of_v, parse_der_set_defined_g, nom_map.
  erewrite container_ext; [reflexivity|]. intros c' h. cbv beta.
  destruct (map_err _ _); try reflexivity. cbn [bind]. apply of_subparser_ext. clear - Hd. intros c.
  unfold parse_attr_type_and_value, parse_der_sequence_defined, parse_der_sequence_defined_g, nom_map.
  erewrite container_ext; [reflexivity|]. intros c' h. cbv beta.
  destruct (map_err _ _); try reflexivity. cbn [bind read_fields reader der_kit k_value].
  unfold parse_der_oid. change T_Oid with 6. destruct (parse_der_with_tag L c' 6) as [[r o]| | |]; try reflexivity.
  cbn [bind]. rewrite Hd. fold (reader (der_kit L) directory_string).
  destruct (reader (der_kit L) directory_string r) as [[r' o']| | |]; reflexivity.
Qed.

Lemma name_rewritable n d bs : encodes_as SpecAbstract.Der false name n d bs -> rewritable name d.
Proof.
  assert (Hv : forall t n d bs, In t [6; 12; 19; 22] -> encodes_as SpecAbstract.Der false (TValue t) n d bs -> rewritable (TValue t) d).
  { intros t n' d' bs' Hi H. inversion H; subst. constructor. apply wr_other.
    destruct v; cbn in Hi; try exact I; try (match goal with H : universal_value _ |- _ => destruct H end; fail); intuition discriminate. }
  assert (He : forall e, (forall n d bs, encodes_as SpecAbstract.Der false e n d bs -> rewritable e d) ->
    forall n ds c, encodes_each SpecAbstract.Der false e n ds c -> rewritable_each e ds).
  { intros e H n' ds c Hc. induction Hc; constructor; eauto. }
  unfold name. intros H. inversion H; subst. constructor. eapply He; [|eassumption].
  clear - Hv He. intros n d bs H. inversion H; subst. constructor. eapply He; [|eassumption].
  clear - Hv. intros n d bs H. inversion H; subst. constructor.
  match goal with H : encodes_fields _ _ _ _ _ _ |- _ => inversion H; subst end.
  match goal with H : encodes_fields _ _ (FCons _ directory_string _) _ _ _ |- _ => inversion H; subst end.
  match goal with H : encodes_fields _ _ FNil _ _ _ |- _ => inversion H; subst end.
  constructor; [eapply Hv; [|eassumption]; cbn; auto|]. constructor; [|constructor].
  match goal with H : encodes_as _ _ directory_string _ _ _ |- _ => inversion H; subst end.
  - constructor. eapply Hv; [|eassumption]; cbn; auto.
  - apply rw_second. match goal with H : encodes_as _ _ (TChoice _ _) _ _ _ |- _ => inversion H; subst end.
    + constructor. eapply Hv; [|eassumption]; cbn; auto.
    + apply rw_second. eapply Hv; [|eassumption]; cbn; auto.
Qed.

(** Every distinguished encoding of a Name is read, whatever follows, and written back
    unchanged. *)
Theorem C101_reads : forall L n d bs r, accepts_oids L -> (n <= 49)%nat -> bytes_ok r ->
  N.of_nat (length bs) <= 4294967295 -> encodes_as SpecAbstract.Der false name n d bs ->
  exists o, parse_name L (bs ++ r) = Ok (r, o) /\ decoded SpecAbstract.Der name d o /\ to_vec L o = Ok bs.
Proof.
  intros L n d bs r HL Hn Hr Hlen H.
  assert (Hp : proper name) by is_proper.
  destruct (C91_schema L name n d bs r HL Hp Hn Hr Hlen (name_rewritable _ _ _ H) H) as (o & _ & Ho & Hw & _).
  destruct (C89_der L name n d bs r HL Hp Hn Hr Hlen H) as (o' & Ho' & Hd).
  exists o. rewrite name_reader. split; [exact Ho|]. split; [|exact Hw]. congruence.
Qed.
Print Assumptions C101_reads.

(** What is accepted, with what result. *)
Theorem C101_exact : forall L i r o, bytes_ok i ->
  returns (parse_name L i) /\ (parse_name L i = Ok (r, o) <-> accepted L true name i r o)
  /\ (parse_name L i = Ok (r, o) -> shaped name o).
Proof.
  intros L i r o Hok. rewrite name_reader.
  assert (Hd : distinct name) by (cbn; unfold apart; cbn; intuition congruence).
  split; [apply C98_returns|]. split; [now apply C98_exact|]. intros H. eapply C98_shape; eauto.
Qed.
Print Assumptions C101_exact.

(** The country of the test program's name: C=FR. *)
Example C101_ex : accepts_oids SL
  /\ encodes_as SpecAbstract.Der false name 4
    (DList [DList [DRecord [Some (DValue (AOid [2; 5; 4; 6])); Some (DSecond (DFirst (DValue (AText TPrintable [70; 82]))))]]])
    [48; 13; 49; 11; 48; 9; 6; 3; 85; 4; 6; 19; 2; 70; 82]
  /\ exists h h1 h2 h3 h4, parse_name SL [48; 13; 49; 11; 48; 9; 6; 3; 85; 4; 6; 19; 2; 70; 82; 9]
       = Ok ([9], Obj h (CSequence [Obj h1 (CSet [Obj h2 (CSequence [Obj h3 (COID (mkOid false [85; 4; 6]));
                    Obj h4 (CStr KPrintable [70; 82])])])])).
Proof.
  assert (Hw : forall cl t c x, t < 31 -> N.of_nat (length c) = x -> x < 128 ->
    wrapped SpecAbstract.Der cl t c ([leading_octet cl true t] ++ [x] ++ c)).
  { intros cl t c x Ht <- Hx. exists [leading_octet cl true t]. split; [left; split; [exact Ht|reflexivity]|].
    left. exists [N.of_nat (length c)]. split; [now apply any_short|reflexivity]. }
  split; [exact SL_accepts_oids|]. split; [|do 5 eexists; vm_compute; reflexivity].
  refine (as_sequence_of _ _ 3 _ _ [49; 11; 48; 9; 6; 3; 85; 4; 6; 19; 2; 70; 82] _ _ (Hw Universal 16 [49; 11; 48; 9; 6; 3; 85; 4; 6; 19; 2; 70; 82] 13 eq_refl eq_refl eq_refl)).
  refine (as_element _ _ _ 3 _ [] [49; 11; 48; 9; 6; 3; 85; 4; 6; 19; 2; 70; 82] [] _ (as_no_element _ _ _ _)).
  refine (as_set_of _ _ 2 _ _ [48; 9; 6; 3; 85; 4; 6; 19; 2; 70; 82] _ _ (Hw Universal 17 [48; 9; 6; 3; 85; 4; 6; 19; 2; 70; 82] 11 eq_refl eq_refl eq_refl)).
  refine (as_element _ _ _ 2 _ [] [48; 9; 6; 3; 85; 4; 6; 19; 2; 70; 82] [] _ (as_no_element _ _ _ _)).
  refine (as_sequence _ _ 1 _ _ [6; 3; 85; 4; 6; 19; 2; 70; 82] _ _ (Hw Universal 16 [6; 3; 85; 4; 6; 19; 2; 70; 82] 9 eq_refl eq_refl eq_refl)).
  refine (as_present _ _ 1 false _ _ _ _ [6; 3; 85; 4; 6] [19; 2; 70; 82] _ _).
  - refine (as_value _ _ 1 (AOid [2; 5; 4; 6]) _ _ I _); [|now apply sup_other].
    refine (e_primitive _ 0 (AOid [2; 5; 4; 6]) [85; 4; 6] [3] _ _); [|now apply any_short].
    apply c_oid; [split; [discriminate|intros H; discriminate H]|].
    exists [[85]; [4]; [6]]. split; [reflexivity|].
    constructor; [|constructor; [|constructor; [|constructor]]]; [exists [85]|exists [4]|exists [6]]; repeat split; try discriminate; auto; repeat constructor.
  - refine (as_present _ _ 1 false _ FNil _ [] [19; 2; 70; 82] [] _ (as_no_field _ _ _)).
    apply as_second, as_first.
    refine (as_value _ _ 1 (AText TPrintable [70; 82]) _ _ I _); [|now apply sup_other].
    refine (e_primitive _ 0 (AText TPrintable [70; 82]) [70; 82] [2] _ _); [|now apply any_short].
    refine (c_text _ TPrintable [70; 82] _). constructor; [|constructor; [|constructor]]; cbn; unfold printable_permitted; intuition lia.
Qed.
