(** * C120: checking for DER by writing back *)

From Coq Require Import String.
From Verif Require Import Base Asn1rs Ber Der Combinators Serialize Conformance Spec SpecValue SpecComb SpecSer SpecOid SpecAbstract.
From Verif Require Import LemBase LemHeader LemSkip LemParse LemDer LemTree LemNode LemFrame LemVariant LemSer LemAbstract LemUnique.
From Verif Require Import PropFraming PropDer PropSer PropEnc PropAbstract PropAbstractEnc PropSchema PropReadWrite PropError.
Local Open Scope string_scope. Local Open Scope N_scope. Local Open Scope list_scope.

(** What writing back does not show, since the encoder copies it: whether a leaf is
    primitive, an element with another class constructed, an INTEGER minimal, the
    unused bits of a BIT STRING zero and a RELATIVE-OID not empty. *)
Definition strict_leaf (k : content) : Prop :=
  match k with
  | CInteger s => minimal_integer s
  | CBitString u s =>
      u < 8 /\ exists l pad, bits s = l ++ pad /\ N.of_nat (length pad) = u /\ Forall (eq false) pad
  | CRelativeOID x => oid_bytes x <> []
  | CSequence _ | CSet _ | CUnknown _ | CTagged _ _ _ | COptional _ => False
  | _ => True
  end.
Inductive strict : obj -> Prop :=
| strict_primitive h k : h_constructed h = false -> strict_leaf k -> strict (Obj h k)
| strict_sequence h l : Forall strict l -> strict (Obj h (CSequence l))
| strict_set h l : Forall strict l -> strict (Obj h (CSet l))
| strict_tagged h c t o : h_constructed h = true -> strict o -> strict (Obj h (CTagged c t o))
| strict_unknown h a : h_constructed h = true -> strict (Obj h (CUnknown a)).

Lemma encodes_more ru :
  (forall n v bs, encodes ru n v bs -> forall n', (n <= n')%nat -> encodes ru n' v bs)
  /\ (forall n l c, encode_all ru n l c -> forall n', (n <= n')%nat -> encode_all ru n' l c).
Proof.
  apply encodes_all_ind; intros;
    try (match goal with H : (S _ <= ?n')%nat |- _ => destruct n' as [|n']; [lia|] end).
  - now constructor.
  - eapply e_sequence; eauto. apply H. lia.
  - eapply e_set; eauto. apply H. lia.
  - eapply e_explicit; eauto. apply H. lia.
  - eapply e_segmented; eauto. apply H. lia.
  - constructor.
  - constructor; auto.
Qed.

Lemma stands_more ru :
  (forall n o v, stands ru n o v -> forall n', (n <= n')%nat -> stands ru n' o v)
  /\ (forall n os vs, stand_all ru n os vs -> forall n', (n <= n')%nat -> stand_all ru n' os vs).
Proof.
  apply stands_all_ind; intros;
    try (match goal with H : (S _ <= ?n')%nat |- _ => destruct n' as [|n']; [lia|] end).
  - now apply st_primitive.
  - apply st_sequence; auto. apply H. lia.
  - apply st_set; auto. apply H. lia.
  - apply st_explicit; auto. apply H. lia.
  - apply st_unknown; auto. eapply (proj1 (encodes_more ru)); [eassumption|lia].
  - constructor.
  - constructor; auto.
Qed.

Lemma pads_agree (l l' pad pad' : list bool) : l ++ pad = l' ++ pad' -> length pad = length pad' -> l = l' /\ pad = pad'.
Proof.
  intros H Hl. assert (E : length l = length l') by (apply (f_equal (@length _)) in H; rewrite !app_length in H; lia).
  now apply app_inj_length in H.
Qed.

Lemma strict_stands L :
  (forall o v, denotes SpecAbstract.Der o v -> strict o -> writable v -> forall d c, bytes_ok c ->
     value L d (o_header o) c (o_content o) -> exists n, stands SpecAbstract.Der n o v)
  /\ (forall os vs, denote_all SpecAbstract.Der os vs -> Forall strict os -> Forall writable vs -> forall d c, bytes_ok c ->
     series L d c os -> exists n, stand_all SpecAbstract.Der n os vs).
Proof.
  apply denotes_all_ind.
  - intros h b Hs _ d c _ Hv. exists 1%nat. inv Hs. inv Hv. apply st_primitive; [repeat split; auto|constructor].
  - intros h s Hs _ d c Hok Hv. exists 1%nat. inv Hs. inv Hv. apply st_primitive; [repeat split; auto|].
    constructor. now constructor.
  - intros h u s l pad Hu Hb Hs _ d c Hok Hv. exists 1%nat. inv Hs. inv Hv. apply st_primitive; [repeat split; auto|].
    destruct H2 as (Hu8 & l' & pad' & Hb' & Hu' & Hz). rewrite Hb in Hb'. apply pads_agree in Hb' as [<- <-]; [|lia].
    inv Hok. constructor. econstructor; eauto.
  - intros h s Hs _ d c Hok Hv. exists 1%nat. inv Hs. inv Hv. apply st_primitive; [repeat split; auto|now constructor].
  - intros h Hs _ d c Hok Hv. exists 1%nat. inv Hs. inv Hv. apply st_primitive; [repeat split; auto|now constructor].
  - intros h comps s Hc Ho Hs _ d c Hok Hv. exists 1%nat. inv Hs. inv Hv. apply st_primitive; [repeat split; auto|].
    constructor. now constructor.
  - intros h comps s Ho Hs _ d c Hok Hv. exists 1%nat. inv Hs. inv Hv. apply st_primitive; [repeat split; auto|].
    constructor. constructor; auto. intros ->. destruct Ho as (parts & -> & Hf). inv Hf. now apply H2.
  - intros h n Hs Hw d c Hok Hv. exists 1%nat. inv Hs. inv Hv. apply st_primitive; [repeat split; auto|].
    inv Hw; [|contradiction]. match goal with H : Z.of_N _ = Z.of_N _ |- _ => apply N2Z.inj in H; subst end.
    econstructor; [|eassumption]. change (2 ^ 64) with 18446744073709551616. change (2 ^ 32) with 4294967296 in *. lia.
  - intros h k chars Hp Hs _ d c Hok Hv. exists 1%nat. apply st_primitive; [|now constructor].
    cbn [o_header o_content] in Hv. destruct k; inv Hs; inv Hv; repeat split; auto.
  - intros h os vs Ha IH Hs Hw d c Hok Hv. inv Hs; [destruct H2|]. inv Hv. inv Hw; [|contradiction].
    destruct (IH ltac:(assumption) ltac:(assumption) _ _ Hok ltac:(eassumption)) as (n & Hn). exists (S n). apply st_sequence; [repeat split; auto|exact Hn].
  - intros h os vs Ha IH Hs Hw d c Hok Hv. inv Hs; [destruct H2|]. inv Hv. inv Hw; [|contradiction].
    destruct (IH ltac:(assumption) ltac:(assumption) _ _ Hok ltac:(eassumption)) as (n & Hn). exists (S n). apply st_set; [repeat split; auto|exact Hn].
  - intros h a n v Hc Hca Hta He Hs Hw d c Hok Hv. inv Hs; [destruct H2|]. inv Hw; [|contradiction].
    exists (S n). apply st_unknown; auto. repeat split; auto.
  - intros _ _ d c _ _. exists O. constructor.
  - intros o os v vs Ho IHo Hos IHos Hs Hw d c Hok Hv. inv Hs. inv Hw. inv Hv. apply bytes_ok_app in Hok as [Hok1 Hok2].
    destruct (IHo ltac:(assumption) ltac:(assumption) d c0) as (n1 & Hn1).
    { eapply (element_ok h c0 bs []); [rewrite app_nil_r; exact Hok1|eassumption]. } { assumption. }
    destruct (IHos ltac:(assumption) ltac:(assumption) d rest Hok2 ltac:(assumption)) as (n2 & Hn2).
    exists (Nat.max n1 n2). constructor; [eapply (proj1 (stands_more _)); [eassumption|lia]|eapply (proj2 (stands_more _)); [eassumption|lia]].
Qed.

Lemma stored_strict k v : stored SpecAbstract.Der k v -> strict_leaf k.
Proof.
  intros H. inversion H as [|z s Hc|l u s Hc| | |comps s Hc|comps s Hc| |k' chars Hp]; subst; cbn; auto.
  - inv Hc. assumption.
  - inv Hc. split; [assumption|]. eauto 6.
  - inversion Hc as [| | | | | |comps' s' Hne (parts & Ep & Hf)| |]; subst.
    destruct comps as [|x comps]; [contradiction|]. inversion Hf as [|? part ? ? (ds & -> & _ & Hds & _)]; subst.
    intros E. destruct ds as [|e [|e' ds]]; [contradiction| |]; discriminate E.
  - destruct k'; exact I.
Qed.

Lemma stands_strict :
  (forall n o v, stands SpecAbstract.Der n o v -> strict o)
  /\ (forall n os vs, stand_all SpecAbstract.Der n os vs -> Forall strict os).
Proof.
  apply stands_all_ind.
  - intros n h k v (_ & Hp & _) Hk. apply strict_primitive; [exact Hp|]. eapply stored_strict; eassumption.
  - intros. now apply strict_sequence.
  - intros. now apply strict_set.
  - intros n h c t o v (_ & Hp & _) _ _ _ IH. now apply strict_tagged.
  - intros n h c t a v (_ & Hp & _) _ _ _. now apply strict_unknown.
  - constructor.
  - intros. now constructor.
Qed.

(** A program that has decoded octets, found a value in the object and checked that the
    object is strict: the octets are the distinguished encoding of the value exactly if
    writing the object gives them back. *)
Theorem C120_check : forall L bs o v, bytes_ok bs -> nlen bs < 2 ^ 64 ->
  parse_ber L bs = Ok ([], o) -> strict o -> writable v -> denotes SpecAbstract.Der o v ->
  (to_vec L o = Ok bs <-> exists n, encodes SpecAbstract.Der n v bs).
Proof.
  intros L bs o v Hok Hn H Hs Hw Hd. apply C55_parse_ber_exact in H as (bs' & c & -> & He & Hv); [|exact Hok].
  rewrite app_nil_r in *.
  destruct (element_ok _ _ _ [] ltac:(rewrite app_nil_r; exact Hok) He) as (_ & Hc & _).
  destruct (proj1 (strict_stands L) o v Hd Hs Hw _ _ Hc Hv) as (n & Hst). split.
  - intros Ht. exists n. exact (proj1 (stands_encode SpecAbstract.Der L) _ _ _ Hst _ Ht Hn).
  - intros (n' & Henc). eapply (proj1 (stands_writes L)); eassumption.
Qed.
Print Assumptions C120_check.

(** And every distinguished encoding passes. *)
Theorem C120_complete : forall L n v bs, accepts_oids L -> supported v -> writable v -> (n <= 49)%nat ->
  nlen bs < 2 ^ 64 -> encodes SpecAbstract.Der n v bs ->
  exists o, parse_ber L bs = Ok ([], o) /\ strict o /\ denotes SpecAbstract.Der o v /\ to_vec L o = Ok bs.
Proof.
  intros L n v bs HL Hs Hw Hn Hlen H.
  destruct (proj1 (encodes_value_full SpecAbstract.Der L ltac:(discriminate) HL) _ _ _ H Hn Hs)
    as (Hok & h & c & k & He & _ & Hv & Hd & _ & Hst). specialize (Hst Hw).
  exists (Obj h k). split; [|split; [|split]].
  - apply C55_parse_ber_exact; [exact Hok|]. exists bs, c. cbn [o_header o_content].
    split; [now rewrite app_nil_r|]. split; [eapply element_mono; [|exact He]; lia|].
    eapply (proj1 (value_mono_mut L)); [exact Hv|]. change MAX_RECURSION with 50%nat. lia.
  - exact (proj1 stands_strict _ _ _ Hst).
  - exact Hd.
  - eapply (proj1 (stands_writes L)); eassumption.
Qed.
Print Assumptions C120_complete.

(** None of the checks on what the library decodes can be left out (an empty RELATIVE-OID
    it refuses itself): for each of them an element that parse_ber takes, whose object
    has a value and is written back octet by octet, and which is not
    the distinguished encoding of that value. *)
Definition passes_unchecked (L : leaves) (bs : bytes) : Prop :=
  exists o v, parse_ber L bs = Ok ([], o) /\ denotes SpecAbstract.Der o v /\ writable v /\ to_vec L o = Ok bs
    /\ ~ (exists n, encodes SpecAbstract.Der n v bs).

Lemma not_encoded L o v bs : stands SpecAbstract.Der 2 o v -> to_vec L o <> Ok bs -> nlen bs < 2 ^ 64 ->
  ~ exists n, encodes SpecAbstract.Der n v bs.
Proof. intros Hs Ht Hn (n & H). apply Ht. eapply (proj1 (stands_writes L)); eassumption. Qed.

Theorem C120_needed : forall L,
  passes_unchecked L (hx "02 02 00 01")        (* an INTEGER that is not minimal *)
  /\ passes_unchecked L (hx "03 02 01 01")     (* an unused bit that is one *)
  /\ passes_unchecked L (hx "24 03 04 01 61")  (* a constructed OCTET STRING *)
  /\ passes_unchecked L (hx "80 02 05 00").    (* an explicit tag on a primitive element *)
Proof.
  intros L. split; [|split; [|split]]; red.
  - eexists _, (AInteger 1). split; [vm_compute; reflexivity|]. split; [exact (den_integer _ _ [0; 1])|].
    split; [now apply wr_other|]. split; [vm_compute; reflexivity|].
    apply (not_encoded L (Obj (mkHeader Universal false 2 (Definite 1) None) (CInteger [1]))); [|vm_compute; discriminate|vm_compute; reflexivity].
    apply st_primitive; [repeat split|]. apply stored_integer. apply (c_integer _ [1]); [repeat constructor|exact I].
  - eexists _, (ABitString [false; false; false; false; false; false; false]).
    split; [vm_compute; reflexivity|]. split; [eapply den_bit_string with (pad := [true]); vm_compute; reflexivity|].
    split; [now apply wr_other|]. split; [vm_compute; reflexivity|].
    apply (not_encoded L (Obj (mkHeader Universal false 3 (Definite 2) None) (CBitString 1 [0]))); [|vm_compute; discriminate|vm_compute; reflexivity].
    apply st_primitive; [repeat split|]. apply stored_bit_string.
    apply c_bit_string with (pad := [false]); [repeat constructor|lia|reflexivity|reflexivity|repeat constructor].
  - eexists _, (AOctetString [4; 1; 97]). split; [vm_compute; reflexivity|]. split; [constructor|].
    split; [now apply wr_other|]. split; [vm_compute; reflexivity|].
    apply (not_encoded L (Obj (mkHeader Universal false 4 (Definite 3) None) (COctetString [4; 1; 97]))); [|vm_compute; discriminate|vm_compute; reflexivity].
    apply st_primitive; [repeat split|]. constructor. repeat constructor.
  - eexists _, (AExplicit ContextSpecific 0 ANull). split; [vm_compute; reflexivity|].
    assert (Hnull : encodes SpecAbstract.Der 1 ANull [5; 0]).
    { refine (e_primitive _ 0 ANull [] [0] _ _); [apply c_null|now apply any_short]. }
    split; [match goal with |- denotes _ (Obj ?h (CUnknown ?a)) _ => refine (den_explicit _ h a 1 ANull _ _ _ Hnull) end; (discriminate || reflexivity)|].
    split; [apply wr_explicit; reflexivity|]. split; [vm_compute; reflexivity|].
    apply (not_encoded L (Obj (mkHeader ContextSpecific true 0 (Definite 2) None)
      (CUnknown (mkAny (mkHeader ContextSpecific true 0 (Definite 2) None) [5; 0])))); [|vm_compute; discriminate|vm_compute; reflexivity].
    apply st_unknown; [repeat split|discriminate|reflexivity|exact Hnull].
Qed.
Print Assumptions C120_needed.

(** The conditions of C120_check are met, and both answers occur: a value whose encoding
    is written back, and BER of the same value that is strict but is written otherwise. *)
Example C120_ex :
  let v := ASequence [ABoolean true; AInteger (twos_complement [5])] in
  (exists o, parse_ber SL (hx "30 06 01 01 ff 02 01 05") = Ok ([], o) /\ strict o /\ denotes SpecAbstract.Der o v
     /\ to_vec SL o = Ok (hx "30 06 01 01 ff 02 01 05"))
  /\ (exists o, parse_ber SL (hx "30 80 01 01 01 02 81 01 05 00 00") = Ok ([], o) /\ strict o /\ denotes SpecAbstract.Der o v
     /\ to_vec SL o <> Ok (hx "30 80 01 01 01 02 81 01 05 00 00"))
  /\ writable v.
Proof.
  cbv zeta. split; [|split].
  - eexists. split; [vm_compute; reflexivity|]. split; [|split; [|vm_compute; reflexivity]].
    + apply strict_sequence. repeat constructor.
    + constructor. repeat constructor.
  - eexists. split; [vm_compute; reflexivity|]. split; [|split; [|vm_compute; discriminate]].
    + apply strict_sequence. repeat constructor.
    + constructor. repeat constructor.
  - apply wr_sequence. repeat constructor.
Qed.
