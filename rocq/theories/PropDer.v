(** * C21-C28, C56: what the DER reader accepts *)

From Coq Require Import String.
From Verif Require Import Base Asn1rs Ber Der Combinators Conformance Spec SpecValue SpecComb.
From Verif Require Import LemBase LemHeader LemSkip LemParse LemDer LemText LemTree LemNode LemComb LemFrame LemVariant.
From Verif Require Import PropFraming PropVariant.
Local Open Scope string_scope.
Local Open Scope N_scope.
Local Open Scope list_scope.

Lemma der_view_universal h : h_class h = Universal -> der_view h = plain h.
Proof. intros H. unfold der_view. now rewrite H. Qed.

Lemma der_view_other h : h_class h <> Universal -> der_view h = h.
Proof. intros H. unfold der_view. destruct (h_class h); congruence. Qed.

(** ** C56: exact characterisation of [parse_der_recursive] *)

Theorem C56_parse_der_exact : forall L i d r o, no_unknown_tag L -> bytes_ok i -> (1 <= d)%nat ->
  (parse_der_recursive L i d = Ok (r, o)
   <-> exists bs c, i = bs ++ r /\ definite_element (o_header o) c bs /\ N.of_nat (length c) <= 4294967295
         /\ der_element_ok (o_header o) c /\ value L d (der_view (o_header o)) c (o_content o)).
Proof.
  change 4294967295 with MAX_OBJECT_SIZE.
  intros L i d r o HL Hok Hd. split.
  - intros H. apply parse_der_element in H as (hb & c & -> & Hh & Hl & Hm & Ho); [|assumption].
    apply bytes_ok_app in Hok as [_ Hok]. apply bytes_ok_app in Hok as [Hok _].
    exists (hb ++ c), c. split; [now rewrite app_assoc|]. split; [exists hb; auto|]. split; [exact Hm|].
    remember (o_header o) as h eqn:Eh.
    destruct (der_object_cases _ _ _ _ _ HL Ho) as [(k & Hc & Hv & ->)|(Hc & _ & ->)]; cbn [o_content].
    + rewrite (der_view_universal _ Hc). inv Hv.
      * split.
        { intros _. split; [|].
          - rewrite H. repeat split; intros Ht; try discriminate; [|destruct Ht; discriminate].
            exfalso. cbn in Ht. intuition discriminate.
          - intros _. split; [assumption|]. destruct H1 as (u & data & E1 & E2 & _ & E3). eauto. }
        destruct d; [lia|]. apply der_bits_value; auto.
      * split; [intros _; split; [assumption|contradiction]|].
        apply conv_value in H2; auto. unfold plain. intros m Em. cbn [a_header a_data h_length header_new] in Em |- *. congruence.
    + rewrite (der_view_other _ Hc). split; [congruence|]. destruct d; [lia|]. now apply v_other_class.
  - intros (bs & c & -> & (hb & -> & Hh & Hl) & Hm & Hk & Hv). apply parse_der_iff.
    exists (o_header o), c. split; [rewrite <- app_assoc; apply header_from_der_complete; congruence|].
    split; [exact Hl|]. split; [exact Hm|]. destruct o as [h k]. cbn [o_header o_content] in *.
    destruct (class_eqb (h_class h) Universal) eqn:Ec.
    + assert (Hc : h_class h = Universal) by (destruct (h_class h); auto; discriminate).
      destruct (Hk Hc) as [Hck Hb]. rewrite (der_view_universal _ Hc) in Hv. apply do_value; [assumption|].
      destruct (N.eq_dec (h_tag h) 3) as [H3|H3].
      * destruct (Hb H3) as (Hp & u & data & -> & Hu & Hz). apply dv_bits; auto.
        inv Hv; cbn [plain h_tag h_class header_new] in *; try congruence.
        -- exfalso. match goal with H : ~ In _ _ |- _ => apply H end. rewrite H3. cbn. tauto.
        -- exists u, data. auto.
        -- match goal with k0 : strkind |- _ => destruct k0; cbn in *; congruence end.
      * apply dv_ber; auto. now apply value_conv.
    + assert (Hc : h_class h <> Universal) by (intros E; rewrite E in Ec; discriminate).
      rewrite (der_view_other _ Hc) in Hv. inv Hv; try congruence. apply do_unknown; [assumption|lia].
Qed.
Print Assumptions C56_parse_der_exact.

Example C56_ex : no_unknown_tag SL /\ exists o, parse_der SL (hx "30 06 01 01 ff 03 01 00 aa") = Ok ([170], o)
  /\ exists l, o_content o = CSequence l /\ length l = 2%nat.
Proof.
  split; [exact SL_no_unknown_tag|]. eexists. split; [vm_compute; reflexivity|]. cbn. eauto.
Qed.

(** The same for [parse_der_with_tag], and the checks alone without any
    assumption on the leaf decoders. *)
Lemma der_with_tag_checked L i t r o : bytes_ok i -> parse_der_with_tag L i t = Ok (r, o) ->
  exists bs c, i = bs ++ r /\ definite_element (o_header o) c bs /\ h_tag (o_header o) = t
    /\ der_checked t (h_constructed (o_header o)) c
    /\ (t = 3 -> der_bit_string (h_constructed (o_header o)) c)
    /\ value L 50 (plain (o_header o)) c (o_content o).
Proof.
  intros Hok H. apply der_with_tag_iff in H as (h & c & k & Hh & Hl & Ht & -> & Hv).
  pose proof (header_from_der_ber _ _ _ Hh) as [Hh' _].
  apply header_from_ber_sound in Hh' as (hb & -> & Hho); [|assumption].
  apply bytes_ok_app in Hok as [_ Hok]. apply bytes_ok_app in Hok as [Hok _].
  exists (hb ++ c), c. split; [now rewrite app_assoc|]. split; [exists hb; auto|]. split; [exact Ht|].
  cbn [o_header o_content]. subst t. inv Hv.
  - split; [|split].
    + rewrite H. repeat split; intros Ht; try discriminate; [|destruct Ht; discriminate].
      exfalso. cbn in Ht. intuition discriminate.
    + intros _. split; [assumption|]. destruct H1 as (u & data & E1 & E2 & _ & E3). eauto.
    + apply der_bits_value; auto.
  - split; [assumption|]. split; [contradiction|].
    apply conv_value in H2; auto. unfold plain. intros m Em. cbn [a_header a_data h_length header_new] in Em |- *. congruence.
Qed.

Lemma der_recursive_checked L i d r o : bytes_ok i -> parse_der_recursive L i d = Ok (r, o) ->
  h_class (o_header o) = Universal ->
  exists bs c, i = bs ++ r /\ definite_element (o_header o) c bs
    /\ der_checked (h_tag (o_header o)) (h_constructed (o_header o)) c
    /\ (h_tag (o_header o) = 3 -> der_bit_string (h_constructed (o_header o)) c)
    /\ ((exists a, o_content o = CUnknown a /\ (1 <= d)%nat /\ forall k, ~ value L d (plain (o_header o)) c k)
        \/ value L (Nat.max d 1) (plain (o_header o)) c (o_content o)).
Proof.
  intros Hok H Hc. apply parse_der_element in H as (hb & c & -> & Hh & Hl & Hm & Ho); [|assumption].
  apply bytes_ok_app in Hok as [_ Hok]. apply bytes_ok_app in Hok as [Hok _].
  exists (hb ++ c), c. split; [now rewrite app_assoc|]. split; [exists hb; auto|].
  remember (o_header o) as h eqn:Eh. inv Ho; cbn [o_header o_content] in *; subst; try congruence.
  - match goal with Hv : der_value _ _ _ _ _ |- _ => inv Hv end.
    + split; [|split].
      * match goal with H3 : h_tag _ = 3 |- _ => rewrite H3 end. repeat split; intros Ht; try discriminate; [|destruct Ht; discriminate].
        exfalso. cbn in Ht. intuition discriminate.
      * intros _. split; [assumption|]. match goal with Hb : der_bits _ _ |- _ => destruct Hb as (u & data & E1 & E2 & _ & E3) end. eauto.
      * right. replace (Nat.max d 1) with (S (Nat.max d 1 - 1)) by lia. apply der_bits_value; auto.
    + split; [assumption|]. split; [contradiction|]. right.
      match goal with Hv : try_berobject_from_any _ _ _ = _ |- _ => rename Hv into Hv' end.
      eapply conv_mono in Hv'; [|apply (Nat.le_max_l d 1)].
      apply conv_value in Hv'; auto. unfold plain. intros m Em. cbn [a_header a_data h_length header_new] in Em |- *. congruence.
  - split; [assumption|]. split; [contradiction|]. left. eexists. split; [reflexivity|]. split; [assumption|].
    intros k Hk. apply value_conv in Hk. congruence.
Qed.

(** The two kinds of readers together. *)
Definition der_reads L i d t r o : Prop :=
  (parse_der_recursive L i d = Ok (r, o) /\ h_class (o_header o) = Universal /\ h_tag (o_header o) = t)
  \/ parse_der_with_tag L i t = Ok (r, o).

Lemma der_reads_checked L i d t r o : bytes_ok i -> der_reads L i d t r o ->
  exists bs c, i = bs ++ r /\ definite_element (o_header o) c bs /\ h_tag (o_header o) = t
    /\ der_checked t (h_constructed (o_header o)) c
    /\ (t = 3 -> der_bit_string (h_constructed (o_header o)) c)
    /\ ((exists a, o_content o = CUnknown a /\ (1 <= d)%nat /\ forall k, ~ value L d (plain (o_header o)) c k)
        \/ exists d', value L d' (plain (o_header o)) c (o_content o)).
Proof.
  intros Hok [(H & Hc & Ht)|H].
  - destruct (der_recursive_checked _ _ _ _ _ Hok H Hc) as (bs & c & E & He & H1 & H2 & H3).
    subst t. exists bs, c. split; [assumption|]. split; [assumption|]. split; [reflexivity|].
    split; [assumption|]. split; [assumption|]. destruct H3; eauto.
  - destruct (der_with_tag_checked _ _ _ _ _ Hok H) as (bs & c & E & He & Ht & H1 & H2 & H3).
    exists bs, c. split; [assumption|]. split; [assumption|]. split; [assumption|].
    split; [assumption|]. split; [assumption|]. eauto.
Qed.

(** ** C21 *)

Theorem C21_boolean : forall L i d r o, bytes_ok i -> der_reads L i d 1 r o ->
  exists bs c, i = bs ++ r /\ definite_element (o_header o) c bs
    /\ (c = [0] /\ o_content o = CBoolean false \/ c = [255] /\ o_content o = CBoolean true).
Proof.
  intros L i d r o Hok H. destruct (der_reads_checked _ _ _ _ _ _ Hok H) as (bs & c & E & He & Ht & (H1 & _) & _ & H3).
  exists bs, c. split; [assumption|]. split; [assumption|].
  assert (Hl : h_length (plain (o_header o)) = Definite (nlen c)) by (destruct He as (? & _ & _ & Hl); exact Hl).
  assert (Hval : exists b, c = [b] /\ (b = 0 \/ b = 255) /\ o_content o = CBoolean (negb (b =? 0))).
  { destruct (H1 eq_refl) as [-> | ->]; [exists 0|exists 255]; (split; [reflexivity|]); (split; [auto|]).
    all: destruct H3 as [(a & _ & Hd & Hn)|(d' & Hv)].
    1,3: exfalso; destruct d; [lia|]; eapply Hn; apply v_boolean; [reflexivity|exact Ht|exact Hl].
    all: inv Hv; cbn [plain h_tag h_class header_new] in *; try congruence.
    all: try (match goal with H : ~ In _ _ |- _ => exfalso; apply H; rewrite Ht; cbn; tauto end).
    all: try (match goal with k0 : strkind |- _ => destruct k0; cbn in *; congruence end). all: reflexivity. }
  destruct Hval as (b & -> & [-> | ->] & ->); auto.
Qed.
Print Assumptions C21_boolean.

Theorem C21_accepts : forall L d h bs r c, definite_element h c bs -> h_tag h = 1 -> h_class h = Universal ->
  c = [0] \/ c = [255] ->
  parse_der_recursive L (bs ++ r) (S d) = Ok (r, Obj h (CBoolean (nth 0 c 0 =? 255)))
  /\ parse_der_bool L (bs ++ r) = Ok (r, Obj h (CBoolean (nth 0 c 0 =? 255))).
Proof.
  intros L d h bs r c (hb & -> & Hh & Hl) Ht Hcl Hc.
  assert (Hv : forall d, der_value L (S d) h c (CBoolean (nth 0 c 0 =? 255))).
  { intros d0. apply dv_ber.
    - rewrite Ht. discriminate.
    - rewrite Ht. repeat split; intros Hx; try discriminate; auto; [|destruct Hx; discriminate].
      exfalso. cbn in Hx. intuition discriminate.
    - destruct Hc as [-> | ->]; cbn; discriminate.
    - apply value_conv. replace (nth 0 c 0 =? 255) with (negb (nth 0 c 0 =? 0)) by (destruct Hc as [-> | ->]; reflexivity).
      destruct Hc as [-> | ->]; apply v_boolean; auto. }
  rewrite <- app_assoc. split.
  - apply parse_der_iff. exists h, c. split; [apply header_from_der_complete; congruence|].
    split; [exact Hl|]. split; [destruct Hc as [-> | ->]; cbn; discriminate|]. apply do_value; auto.
  - unfold parse_der_bool. apply der_with_tag_iff. exists h, c. eexists.
    split; [apply header_from_der_complete; congruence|]. split; [exact Hl|]. split; [exact Ht|].
    split; [reflexivity|]. apply Hv.
Qed.
Print Assumptions C21_accepts.

Example C21_ex : map (fun s => match parse_der SL (hx s) with Ok (r, o) => Some (o_content o) | _ => None end)
    ["01 01 00"; "01 01 ff"; "01 01 01"; "01 00"; "01 02 ff ff"]
  = [Some (CBoolean false); Some (CBoolean true); None; None; None].
Proof. vm_compute. reflexivity. Qed.

(** ** C22 *)

(** Superfluous leading FF octets of a negative value are not rejected. *)
Theorem C22_refuted : exists i h c o, bytes_ok i /\ definite_element h c i
  /\ parse_der SL i = Ok ([], o) /\ parse_der_integer SL i = Ok ([], o) /\ o = Obj h (CInteger c)
  /\ ~ minimal_integer c.
Proof.
  exists (hx "02 02 ff ff"), (mkHeader Universal false 2 (Definite 2) (Some [2])), [255; 255]. eexists.
  split; [bok|]. split.
  - exists [2; 2]. split; [reflexivity|]. split; [|reflexivity]. exists [2], [2]. split; [reflexivity|].
    split; [exact (ident_low Universal false 2 eq_refl)|]. split; [exact (length_short 2 eq_refl)|].
    split; [reflexivity|discriminate].
  - split; [vm_compute; reflexivity|]. split; [vm_compute; reflexivity|]. split; [reflexivity|].
    cbn. intros [_ H]. apply H. lia.
Qed.
Print Assumptions C22_refuted.

Theorem C22_partial : forall L i d r o, bytes_ok i -> der_reads L i d 2 r o ->
  exists bs c, i = bs ++ r /\ definite_element (o_header o) c bs /\ o_content o = CInteger c
    /\ match c with [] => False | [_] => True | b0 :: b1 :: _ => ~ (b0 = 0 /\ b1 < 128) end.
Proof.
  intros L i d r o Hok H. destruct (der_reads_checked _ _ _ _ _ _ Hok H) as (bs & c & E & He & Ht & (_ & H1 & _) & _ & H3).
  exists bs, c. split; [assumption|]. split; [assumption|]. split; [|now apply H1].
  destruct H3 as [(a & _ & Hd & Hn)|(d' & Hv)].
  - exfalso. destruct d; [lia|]. eapply Hn. apply v_integer; [reflexivity|exact Ht].
  - inv Hv; cbn [plain h_tag h_class header_new] in *; try congruence.
    + match goal with H : ~ In _ _ |- _ => exfalso; apply H; rewrite Ht; cbn; tauto end.
    + match goal with k0 : strkind |- _ => destruct k0; cbn in *; congruence end.
Qed.
Print Assumptions C22_partial.

Example C22_ex : map (fun s => match parse_der SL (hx s) with Ok (r, o) => Some (o_content o) | _ => None end)
    ["02 01 00"; "02 02 00 80"; "02 02 00 7f"; "02 00"; "02 02 ff 7f"]
  = [Some (CInteger [0]); Some (CInteger [0; 128]); None; None; Some (CInteger [255; 127])].
Proof. vm_compute. reflexivity. Qed.

(** ** C23 *)

Theorem C23_refuted : exists i o, parse_der SL i = Ok ([], o) /\ parse_der_bitstring SL i = Ok ([], o)
  /\ o_content o = CBitString 7 [].
Proof. exists (hx "03 01 07"). eexists. repeat split; vm_compute; reflexivity. Qed.
Print Assumptions C23_refuted.

(** Everything but the unused-bit count of an empty bit string. *)
Theorem C23_partial : forall L i d r o, bytes_ok i -> der_reads L i d 3 r o ->
  exists bs u data, i = bs ++ r /\ definite_element (o_header o) (u :: data) bs
    /\ o_content o = CBitString u data /\ h_constructed (o_header o) = false /\ u <= 7
    /\ (data <> [] -> last data 0 mod 2 ^ u = 0).
Proof.
  intros L i d r o Hok H.
  destruct (der_reads_checked _ _ _ _ _ _ Hok H) as (bs & c & E & He & Ht & _ & Hb & H3).
  destruct (Hb eq_refl) as (Hp & u & data & -> & Hu & Hz). exists bs, u, data. repeat split; auto.
  destruct H3 as [(a & _ & Hd & Hn)|(d' & Hv)].
  - exfalso. destruct d; [lia|]. eapply Hn. apply v_bit_string; [reflexivity|exact Ht|exact Hp].
  - inv Hv; cbn [plain h_tag h_class header_new] in *; try congruence.
    + match goal with H : ~ In _ _ |- _ => exfalso; apply H; rewrite Ht; cbn; tauto end.
    + match goal with k0 : strkind |- _ => destruct k0; cbn in *; congruence end.
Qed.
Print Assumptions C23_partial.

Example C23_ex : map (fun s => match parse_der SL (hx s) with Ok (r, o) => Some (o_content o) | _ => None end)
    ["03 02 04 f0"; "03 02 04 f8"; "03 02 08 00"; "23 02 03 00"; "03 01 00"]
  = [Some (CBitString 4 [240]); None; None; None; Some (CBitString 0 [])].
Proof. vm_compute. reflexivity. Qed.

(** ** C25 *)

Theorem C25_strings_primitive : forall L i d t r o, bytes_ok i -> der_reads L i d t r o ->
  In t (3 :: string_tags) -> h_constructed (o_header o) = false.
Proof.
  intros L i d t r o Hok H Ht.
  destruct (der_reads_checked _ _ _ _ _ _ Hok H) as (bs & c & E & He & Ht' & (_ & _ & H1 & _) & Hb & H3).
  destruct Ht as [<-|Ht]; [now apply Hb|now apply H1].
Qed.
Print Assumptions C25_strings_primitive.

(** It even holds for everything nested in the result. *)
Definition string_primitive (n : obj) : Prop :=
  match o_content n with
  | CStr _ _ | CBmpString _ | CUniversalString _ | CBitString _ _ => h_constructed (o_header n) = false
  | _ => True
  end.

Theorem C25_nested : forall L i d r o n, bytes_ok i ->
  parse_der_recursive L i d = Ok (r, o) -> node n o -> string_primitive n.
Proof.
  intros L i d r o n Hok H Hn. eapply parse_der_nodes; eauto.
  - intros d0 h h' c k Hv Hc. unfold string_primitive. inv Hv; cbn; auto; congruence.
  - intros. exact I.
Qed.
Print Assumptions C25_nested.

Example C25_ex : (exists o, parse_der SL (hx "0c 01 41") = Ok ([], o))
  /\ parse_der SL (hx "2c 03 0c 01 41") = Err (Error (DerConstraintFailed DcConstructed)).
Proof. split; [eexists|]; vm_compute; reflexivity. Qed.

(** ** C26 *)

Theorem C26_times_end_with_Z : forall L i d t r o, bytes_ok i -> der_reads L i d t r o ->
  t = 23 \/ t = 24 ->
  exists bs s, i = bs ++ r /\ definite_element (o_header o) (s ++ [90]) bs.
Proof.
  intros L i d t r o Hok H Ht.
  destruct (der_reads_checked _ _ _ _ _ _ Hok H) as (bs & c & E & He & Ht' & (_ & _ & _ & H1) & _).
  destruct (H1 Ht) as (s & ->). eauto.
Qed.
Print Assumptions C26_times_end_with_Z.

Example C26_ex : (exists o, parse_der SL (hx "17 0d 30 32 31 32 31 33 31 34 32 39 32 33 5a") = Ok ([], o))
  /\ parse_der SL (hx "17 0c 30 32 31 32 31 33 31 34 32 39 32 33") = Err (Error (DerConstraintFailed DcMissingTimeZone)).
Proof. split; [eexists|]; vm_compute; reflexivity. Qed.

(** ** C27 *)

(** The elements of a SEQUENCE or SET are decoded as BER: a BOOLEAN 01, a
    non-minimal INTEGER, non-zero padding and an indefinite length all pass. *)
Theorem C27_refuted :
  (exists h h', parse_der SL (hx "30 03 01 01 01") = Ok ([], Obj h (CSequence [Obj h' (CBoolean true)])))
  /\ (exists h h', parse_der SL (hx "30 04 02 02 00 01") = Ok ([], Obj h (CSequence [Obj h' (CInteger [0; 1])])))
  /\ (exists h h', parse_der SL (hx "30 04 03 02 04 ff") = Ok ([], Obj h (CSequence [Obj h' (CBitString 4 [255])])))
  /\ (exists h h', parse_der SL (hx "30 04 30 80 00 00") = Ok ([], Obj h (CSequence [Obj h' (CSequence [])]))
        /\ h_length h' = Indefinite).
Proof. repeat split; repeat eexists; vm_compute; reflexivity. Qed.
Print Assumptions C27_refuted.

(** What holds of a nested element: it is a BER element within the input that
    denotes its content. *)
Theorem C27_partial : forall L i d r o n, bytes_ok i ->
  parse_der_recursive L i d = Ok (r, o) -> node n o ->
  n = o \/ exists bs b c d', i = bs ++ r /\ subslice b bs /\ element 50 (o_header n) c b
    /\ value L d' (o_header n) c (o_content n).
Proof.
  intros L i d r o n Hok H Hn0.
  apply parse_der_element in H as (hb & c & -> & Hh & Hl & Hm & Ho); [|assumption].
  apply bytes_ok_app in Hok as [_ Hok]. apply bytes_ok_app in Hok as [Hok _].
  destruct o as [h k]. destruct (node_inv _ _ _ Hn0) as [->|(x & Hx & Hn)]; [now left|right].
  destruct (der_object_below _ _ _ _ _ _ _ Hok Hl Ho Hx Hn) as (bs2 & c2 & d2 & Hs & He & Hv & _).
  exists (hb ++ c), bs2, c2, d2. split; [now rewrite app_assoc|]. split; [|auto].
  destruct Hs as (pre & post & ->). exists (hb ++ pre), post. now rewrite !app_assoc.
Qed.
Print Assumptions C27_partial.

Example C27_ex : exists o n, parse_der SL (hx "30 03 01 01 01") = Ok ([], o) /\ node n o /\ n <> o
  /\ o_content n = CBoolean true.
Proof.
  do 2 eexists. split; [vm_compute; reflexivity|].
  split; [eapply node_seq; [left; reflexivity|apply node_self]|]. split; [discriminate|reflexivity].
Qed.

(** ** C28 *)

Theorem C28_der_in_ber : forall L i d r o, no_unknown_tag L -> bytes_ok i -> (1 <= d)%nat ->
  parse_der_recursive L i d = Ok (r, o) ->
  exists k, parse_ber_recursive L i d = Ok (r, Obj (o_header o) k) /\ same_content k (o_content o).
Proof.
  intros L i d r o HL Hok Hd H. pose proof Hok as Hok'.
  apply parse_der_element in H as (hb & c & -> & Hh & Hl & Hm & Ho); [|assumption].
  apply bytes_ok_app in Hok' as [_ Hok']. apply bytes_ok_app in Hok' as [Hok' _].
  destruct (der_object_value _ _ _ _ _ HL Hok' Hd Hl Ho) as (k & Hv & Hs & _).
  exists k. split; [|exact Hs]. apply parse_ber_iff; [assumption|].
  exists (hb ++ c), c. split; [now rewrite app_assoc|]. cbn [o_header o_content]. split; [|exact Hv].
  apply definite_is_element. exists hb. auto.
Qed.
Print Assumptions C28_der_in_ber.

(** The limit 0: the DER reader still returns a BIT STRING, the BER reader nothing. *)
Example C28_ex : (exists o, parse_der SL sample = Ok (hx "ff 00", o) /\ parse_ber SL sample = Ok (hx "ff 00", o))
  /\ (exists o, parse_der_recursive SL (hx "03 01 00") 0 = Ok ([], o))
  /\ parse_ber_recursive SL (hx "03 01 00") 0 = Err (Error BerMaxDepth).
Proof.
  split; [eexists; split; vm_compute; reflexivity|].
  split; [eexists|]; vm_compute; reflexivity.
Qed.
