(** * C125: the parser with an optional component of der_parser.rs *)

From Coq Require Import String.
From Verif Require Import Base Asn1rs Ber Der Combinators Typed OptionalProgram Conformance Spec SpecValue SpecComb SpecTyped.
From Verif Require Import LemBase LemHeader LemComb PropTotal PropTyped PropPrograms.
Local Open Scope string_scope. Local Open Scope N_scope. Local Open Scope list_scope.

(** At the front of [i] is an ENUMERATED element, primitive, of definite length, with a
    value below 2^32; it is reported as [o] and followed by [r]. *)
Definition enumerated_at (i r : bytes) (o : obj) : Prop :=
  exists bs h c, i = bs ++ r /\ definite_element h c bs /\ h_tag h = 10 /\ h_constructed h = false
    /\ N.of_nat (length c) <= 4294967295 /\ unsigned c < 2 ^ 32 /\ o = Obj h (CEnum (unsigned c)).

Lemma enum_reads L i r o : bytes_ok i -> (parse_der_enum L i = Ok (r, o) <-> enumerated_at i r o).
Proof.
  intros Hok. unfold parse_der_enum. rewrite der_with_tag_exact by exact Hok. change T_Enumerated with 10. split.
  - intros (bs & c & -> & He & Ht & Hn & _ & _ & Hv). destruct o as [h k]. cbn [o_header o_content] in *.
    exists bs, h, c. assert (Hk : h_constructed h = false /\ unsigned c < 2 ^ 32 /\ k = CEnum (unsigned c)).
    { inversion Hv; subst; cbn [as_universal h_class h_tag h_constructed] in *; try congruence; try lia; auto.
      - rewrite Ht in *. exfalso. match goal with H : ~ In _ _ |- _ => apply H end. cbn. tauto.
      - match goal with H : h_tag h = str_tag ?k |- _ => rewrite Ht in H; destruct k; discriminate end. }
    destruct Hk as (H1 & H2 & ->). repeat split; auto. apply Hn. discriminate.
  - intros (bs & h & c & -> & He & Ht & Hc & Hn & Hu & ->). exists bs, c. cbn [o_header o_content].
    split; [reflexivity|]. split; [exact He|]. split; [exact Ht|]. split; [auto|]. split.
    { unfold der_checked. repeat split; intros; try lia; try contradiction. exact Hc. }
    split; [lia|]. now apply v_enumerated.
Qed.

Lemma integer_reads_der L i r o : bytes_ok i -> (parse_der_integer L i = Ok (r, o) <-> exists k, integer_at true i r o k).
Proof. intros Hok. exact (integer_exact L true i r o Hok). Qed.

Lemma enumerated_not_integer i r o r' o' k : bytes_ok i -> enumerated_at i r o -> integer_at true i r' o' k -> False.
Proof.
  intros Hok He Hi. apply (enum_reads SL _ _ _ Hok) in He.
  assert (Hx : parse_der_integer SL i = Ok (r', o')) by (apply integer_reads_der; eauto).
  unfold parse_der_enum, parse_der_with_tag in He. unfold parse_der_integer, parse_der_with_tag in Hx.
  destruct (der_read_element_header i) as [[j h]| | |]; cbn [bind] in He, Hx; try discriminate.
  unfold assert_tag in He, Hx. change T_Enumerated with 10 in He. change T_Integer with 2 in Hx.
  destruct (h_tag h =? 10) eqn:E1; [|discriminate]. destruct (h_tag h =? 2) eqn:E2; [lia|discriminate].
Qed.

(** The contents: an ENUMERATED and an INTEGER, or just an INTEGER; [l] is the list that
    is returned for them. *)
Definition members (c rest : bytes) (l : list obj) : Prop :=
  (exists m a b k, enumerated_at c m a /\ integer_at true m rest b k
     /\ l = [Obj (o_header a) (COptional (Some a)); b])
  \/ (exists b k, integer_at true c rest b k
       /\ l = [Obj (mkHeader Universal false 0 (Definite 0) None) (COptional None); b]).

Lemma members_exact L c rest l : bytes_ok c ->
  (nom_map (fun ab => [fst ab; snd ab]) (fun i =>
    let* (i, a) := parse_optional_enum L i in let* (i, b) := parse_der_integer L i in Ok (i, (a, b))) c = Ok (rest, l)
   <-> members c rest l).
Proof.
  intros Hok. unfold nom_map, parse_optional_enum, parse_ber_optional, members. split.
  - intros H. destruct (parse_der_enum L c) as [[m a]| | |] eqn:Ee; cbn [bind] in H; try discriminate.
    + apply enum_reads in Ee; [|exact Hok]. assert (Hm : bytes_ok m).
      { destruct Ee as (bs & h & x & -> & _). now apply bytes_ok_app in Hok. }
      destruct (parse_der_integer L m) as [[r b]| | |] eqn:Ei; cbn [bind] in H; try discriminate. inv H.
      apply integer_reads_der in Ei as (k & Hk); [|exact Hm]. left. exists m, a, b, k. auto.
    + destruct (parse_der_integer L c) as [[r b]| | |] eqn:Ei; cbn [bind] in H; try discriminate. inv H.
      apply integer_reads_der in Ei as (k & Hk); [|exact Hok]. right. exists b, k. auto.
  - intros [(m & a & b & k & Ha & Hb & ->)|(b & k & Hb & ->)].
    + assert (Hm : bytes_ok m) by (destruct Ha as (bs & h & x & -> & _); now apply bytes_ok_app in Hok).
      rewrite (proj2 (enum_reads L _ _ _ Hok) Ha). cbn [bind].
      rewrite (proj2 (integer_reads_der L m rest b Hm)) by eauto. reflexivity.
    + destruct (proj2 (proj2 (proj2 (C01_entry_points L c 10)))) as [[x Hx]|[e Hx]].
      * exfalso. destruct x as [m a]. change (parse_der_enum L c = Ok (m, a)) in Hx. apply enum_reads in Hx; [|exact Hok].
        eapply enumerated_not_integer; eauto.
      * unfold parse_der_enum. change T_Enumerated with 10. rewrite Hx. cbn [bind].
        rewrite (proj2 (integer_reads_der L c rest b Hok)) by eauto. reflexivity.
Qed.

(** What is accepted, with what value: what follows the INTEGER in the SEQUENCE is not
    looked at. *)
Theorem C125_accepts : forall L i r o, bytes_ok i ->
  (optional_parser L i = Ok (r, o)
   <-> exists bs h c rest l, i = bs ++ r /\ definite_element h c bs /\ h_tag h = 16 /\ members c rest l
         /\ o = Obj (mkHeader Universal true 16 (Definite 0) None) (CSequence l)).
Proof.
  intros L i r o Hok. unfold optional_parser, parse_der_sequence_defined. unfold nom_map at 1. split.
  - intros H. bind_inv H. destruct a as [r' l]. inv H. apply der_sequence_exact in E as (bs & h & c & rest & -> & He & Ht & Hf);
      [|exact Hok]. apply members_exact in Hf; [|eapply definite_content_ok; eauto]. exists bs, h, c, rest, l. auto.
  - intros (bs & h & c & rest & l & -> & He & Ht & Hm & ->).
    rewrite (proj2 (der_sequence_exact _ (bs ++ r) r l Hok)); [reflexivity|].
    exists bs, h, c, rest. repeat split; auto. apply members_exact; [eapply definite_content_ok; eauto|exact Hm].
Qed.
Print Assumptions C125_accepts.

(** A component of the optional type that is not well formed is taken for an absent one:
    the error is the one for an INTEGER with the wrong tag. *)
Theorem C125_malformed : forall L h c bs r h' hb x, bytes_ok (bs ++ r) -> definite_element h c bs -> h_tag h = 16 ->
  c = hb ++ x -> header_octets h' hb -> h_length h' <> Indefinite -> h_tag h' = 10 ->
  (forall m a, ~ enumerated_at c m a) ->
  optional_parser L (bs ++ r) = Err (Error (UnexpectedTag (Some 2) 10)).
Proof.
  intros L h c bs r h' hb x Hok He Ht Ec Hh Hl Ht' Hn. assert (Hc : bytes_ok c) by (eapply definite_content_ok; eauto).
  unfold optional_parser, parse_der_sequence_defined, parse_der_sequence_defined_g. unfold nom_map at 1.
  rewrite (der_container_complete ber_ops _ _ _ _ r He). unfold assert_tag. change T_Sequence with 16. rewrite Ht, N.eqb_refl.
  cbn [map_err bind]. unfold nom_map, parse_optional_enum, parse_ber_optional.
  destruct (proj2 (proj2 (proj2 (C01_entry_points L c 10)))) as [[[m a] Hx]|[e Hx]].
  { exfalso. change (parse_der_enum L c = Ok (m, a)) in Hx. apply enum_reads in Hx; [|exact Hc]. eapply Hn; eauto. }
  unfold parse_der_enum. change T_Enumerated with 10. rewrite Hx. cbn [bind].
  unfold parse_der_integer, parse_der_with_tag, der_read_element_header. rewrite Ec.
  rewrite (header_from_der_complete _ _ _ Hh Hl). cbn [map_err bind]. unfold assert_tag. rewrite Ht'. reflexivity.
Qed.
Print Assumptions C125_malformed.

(** The inputs of the test; then one with octets behind the INTEGER, an ENUMERATED above
    2^32 and a constructed one. *)
Example C125_ex : let none := Obj (mkHeader Universal false 0 (Definite 0) None) (COptional None) in
  (exists h h' h'', optional_parser SL (hx "30 0a 0a 03 00 00 01 02 03 01 00 01")
     = Ok ([], Obj h (CSequence [Obj h' (COptional (Some (Obj h' (CEnum 1)))); Obj h'' (CInteger [1; 0; 1])])))
  /\ (exists h h'', optional_parser SL (hx "30 05 02 03 01 00 01 ff") = Ok ([255], Obj h (CSequence [none; Obj h'' (CInteger [1; 0; 1])])))
  /\ (exists h h'', optional_parser SL (hx "30 06 02 01 07 0a 01 05") = Ok ([], Obj h (CSequence [none; Obj h'' (CInteger [7])])))
  /\ optional_parser SL (hx "30 0a 0a 05 01 00 00 00 00 02 01 07") = Err (Error (UnexpectedTag (Some 2) 10))
  /\ optional_parser SL (hx "30 06 2a 01 05 02 01 07") = Err (Error (UnexpectedTag (Some 2) 10)).
Proof. vm_compute. repeat split; repeat eexists. Qed.
