(** * Property C75: undecoded elements and decoding with a required tag. *)

From Coq Require Import String.
From Verif Require Import Base Asn1rs Ber Spec SpecValue
  LemBase LemHeader LemSkip LemParse LemTree Conformance PropFraming.
Local Open Scope string_scope.
Local Open Scope N_scope.
Local Open Scope list_scope.

(** [parse_ber_any] returns exactly the elements, undecoded. *)
Theorem C75_any : forall i r a, bytes_ok i ->
  (parse_ber_any i = Ok (r, a)
   <-> exists bs, i = bs ++ r /\ element 50 (a_header a) (a_data a) bs).
Proof.
  intros i r a Hok. split.
  - apply any_from_ber_sound. exact Hok.
  - intros (bs & -> & He). unfold parse_ber_any. rewrite (any_from_ber_complete _ _ _ _ He).
    now destruct a.
Qed.
Print Assumptions C75_any.

(** [parse_ber_any_with_tag_r] accepts exactly the elements with the required tag
    number, and decodes them to their value. *)
Theorem C75_with_tag : forall L i t d r o, bytes_ok i ->
  (parse_ber_any_with_tag_r L i t d = Ok (r, o)
   <-> h_tag (o_header o) = t
       /\ exists bs c, i = bs ++ r /\ element 50 (o_header o) c bs
            /\ value L d (o_header o) c (o_content o)).
Proof.
  intros L i t d r o Hok.
  assert (Heq : parse_ber_any_with_tag_r L i t d = Ok (r, o)
    <-> h_tag (o_header o) = t /\ parse_ber_recursive L i d = Ok (r, o)).
  { unfold parse_ber_any_with_tag_r, parse_ber_recursive, parse_ber_any_r.
    destruct (d =? 0)%nat; [split; [discriminate|intros [_ H]; discriminate]|].
    destruct (any_from_ber i) as [[r' a]| | |]; cbn [bind];
      try (split; [discriminate|intros [_ H]; discriminate]).
    unfold assert_tag. destruct (try_berobject_from_any L d a) as [o'| | |] eqn:Ec;
      destruct (h_tag (a_header a) =? t) eqn:Et; cbn [map_err bind];
      try (split; [discriminate|intros [_ H]; discriminate]).
    - apply N.eqb_eq in Et. pose proof (conv_header _ _ _ _ Ec) as Hh. split.
      + intros H. inv H. rewrite Hh. auto.
      + intros [_ H]. exact H.
    - apply N.eqb_neq in Et. pose proof (conv_header _ _ _ _ Ec) as Hh. split; [discriminate|].
      intros [Ht H]. inv H. congruence. }
  rewrite Heq, (parse_ber_iff _ _ _ _ _ Hok). reflexivity.
Qed.
Print Assumptions C75_with_tag.

(** An element with another tag number is reported, whatever its content. *)
Theorem C75_other_tag : forall L t d r h c bs,
  element 50 h c bs -> h_tag h <> t ->
  parse_ber_any_with_tag_r L (bs ++ r) t (S d) = Err (Error (UnexpectedTag (Some t) (h_tag h))).
Proof.
  intros L t d r h c bs He Ht. unfold parse_ber_any_with_tag_r. cbn [Nat.eqb].
  rewrite (any_from_ber_complete _ _ _ _ He). cbn [bind a_header]. unfold assert_tag.
  apply N.eqb_neq in Ht. now rewrite Ht.
Qed.
Print Assumptions C75_other_tag.

Example C75_ex : exists o a, parse_ber_any_with_tag_r SL sample 16 3 = Ok (hx "ff 00", o)
  /\ parse_ber_any_with_tag_r SL sample 17 3 = Err (Error (UnexpectedTag (Some 17) 16))
  /\ parse_ber_any sample = Ok (hx "ff 00", a)
  /\ h_tag (a_header a) = 16 /\ exists l, o_content o = CSequence l /\ length l = 3%nat.
Proof.
  do 2 eexists. split; [vm_compute; reflexivity|]. split; [vm_compute; reflexivity|].
  split; [vm_compute; reflexivity|]. split; [reflexivity|]. eexists. cbn. auto.
Qed.
