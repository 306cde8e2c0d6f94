(** * C88: decoded values read through the accessors *)

From Coq Require Import String.
From Verif Require Import Base Asn1rs Ber Der Typed OidMacro Serialize Conformance Spec SpecValue SpecComb SpecOid SpecAbstract SpecRead.
From Verif Require Import LemBase LemHeader LemSkip LemParse LemDer LemText LemTree LemNode LemComb LemFrame LemVariant LemAbstract.
From Verif Require Import LemInt LemOid LemUnique PropFraming PropDer PropInt PropBits PropTyped PropOid PropAbstract PropAbstractEnc.
Local Open Scope string_scope.
Local Open Scope N_scope.
Local Open Scope list_scope.

Section All.
Context (parse : bytes -> iresult berror obj).
Fixpoint read_all (l : list asn1) (os : list obj) : Prop :=
  match l, os with
  | [], [] => True
  | v :: l, o :: os => read_back parse v o /\ read_all l os
  | _, _ => False
  end.
End All.

Lemma ascii_utf8 chars : Forall (fun c => c < 128) chars -> flat_map utf8_encode chars = chars.
Proof.
  induction 1 as [|c l Hc H IH]; [reflexivity|]. cbn [flat_map]. rewrite IH. unfold utf8_encode.
  destruct (c <? 128) eqn:E; [reflexivity|lia].
Qed.

Lemma read_integer parse h c : h_class h = Universal -> h_tag h = 2 -> bytes_ok c -> minimal_integer c ->
  read_back parse (AInteger (twos_complement c)) (Obj h (CInteger c)).
Proof.
  intros H1 H2 Hc Hm. cbn [read_back]. split; [exact H2|]. split; [exact H1|]. unfold in_range.
  unfold obj_as_i32, obj_as_i64, obj_as_u32, obj_as_u64. cbn [o_content].
  assert (Hs : forall k r, (0 < k)%nat -> signed_accessor_outcomes (8 * N.of_nat k) c r ->
    (- 2 ^ (Z.of_N (8 * N.of_nat k) - 1) <= twos_complement c < 2 ^ (Z.of_N (8 * N.of_nat k) - 1))%Z -> r = Ok (twos_complement c)).
  { intros k r Hk (Ha1 & Ha2 & Ha3 & Ha4 & Ha5) Hz. pose proof (minimal_fits k c Hk Hc Hm) as Hfit.
    pose proof (pw_half_Z k Hk) as Hh. rewrite pw_two_Z in *. specialize (Hfit Hz).
    destruct (Z.lt_ge_cases (twos_complement c) 0); [apply Ha4; lia|apply Ha1; lia]. }
  assert (Hu : forall m r, unsigned_outcomes m (twos_complement c) (fun e => e) r ->
    (0 <= twos_complement c < 2 ^ Z.of_N m)%Z -> r = Ok (Z.to_N (twos_complement c))).
  { intros m r (Ha1 & _) Hz. apply Ha1. rewrite <- (N2Z.inj_pow 2) in Hz. lia. }
  split; [|split; [|split; [|split; [|split]]]].
  - intros Hz. apply (Hs 4%nat); [lia|apply C15_i32_partial; exact Hc|exact Hz].
  - intros Hz. apply (Hs 8%nat); [lia|apply C15_i64_partial; exact Hc|exact Hz].
  - apply (Hu 32). apply C14_u32; exact Hc.
  - apply (Hu 64). apply C14_u64; exact Hc.
  - now apply C16_bigint.
  - intros Hz. apply (proj1 (C16_biguint c Hc)). lia.
Qed.

Lemma bits_prefix l u c : bits c = l ++ u -> string_bits (N.of_nat (length u)) c = l.
Proof.
  intros E. unfold string_bits. assert (Hl : (8 * length c = length l + length u)%nat).
  { rewrite <- app_length, <- E, bits_length. reflexivity. }
  rewrite E, Hl, Nnat.Nat2N.id, Nat.add_sub, firstn_app, Nat.sub_diag, firstn_all. cbn [firstn]. now rewrite app_nil_r.
Qed.

Lemma bits_value_lt l : bits_value l < 2 ^ N.of_nat (length l).
Proof.
  unfold bits_value. rewrite <- (map_length N.b2n l). apply digits_value_lt; [lia|].
  apply Forall_forall. intros x Hx. apply in_map_iff in Hx as (b & <- & _). destruct b; cbn; lia.
Qed.

Lemma read_bit_string parse h l pad u c : h_class h = Universal -> h_tag h = 3 -> bytes_ok c -> u < 8 ->
  N.of_nat (length pad) = u -> bits c = l ++ pad ->
  read_back parse (ABitString l) (Obj h (CBitString u c)).
Proof.
  intros H1 H2 Hc Hu Hp E. cbn [read_back]. split; [exact H2|]. split; [exact H1|].
  exists c, pad. unfold obj_as_bitstring, obj_as_bitslice, obj_as_u64, obj_as_u32. cbn [o_content].
  assert (Hs : string_bits u c = l) by (rewrite <- Hp; now apply bits_prefix).
  assert (Hlen : (8 * length c = length l + length pad)%nat) by (rewrite <- app_length, <- E, bits_length; reflexivity).
  split; [reflexivity|]. split; [|split; [|split; [|split]]].
  - intros i b Hb. rewrite C18_is_set, E, nth_error_app1; [now rewrite Hb|]. apply nth_error_Some. congruence.
  - rewrite <- E. reflexivity.
  - lia.
  - intros Hl. apply (C17_u64 u c Hc). rewrite Hs. split; [lia|]. split; [lia|reflexivity].
  - intros Hl. apply (C17_u32 u c Hc). split.
    + apply (C17_u64 u c Hc). rewrite Hs. split; [lia|]. split; [lia|reflexivity].
    + eapply N.lt_le_trans; [apply bits_value_lt|]. apply N.pow_le_mono_r; lia.
Qed.

Lemma oid_octets comps c c' : oid_contents comps c -> oid_contents comps c' -> c = c'.
Proof. destruct comps as [|a [|b l]]; try contradiction. apply relative_octets. Qed.

Ltac only_value Hv Ht := inversion Hv; subst; try congruence;
  try (exfalso; match goal with N : ~ In (h_tag _) _ |- _ => apply N; rewrite Ht; vm_compute; tauto end);
  try (exfalso; match goal with E : h_tag _ = str_tag ?k |- _ => rewrite Ht in E; destruct k; discriminate E end).

Lemma read_contents ru L parse d h v c k : contents ru v c -> supported v ->
  h_class h = Universal -> h_tag h = value_tag v -> h_constructed h = false ->
  value L d h c k -> read_back parse v (Obj h k).
Proof.
  intros Hc Hs H1 H2 H3 Hv. pose proof (contents_ok _ _ _ Hc) as Hok. destruct Hc; cbn [value_tag] in H2.
  - only_value Hv H2. cbn [read_back]. split; [exact H2|]. split; [exact H1|]. unfold obj_as_bool. cbn [o_content as_bool]. f_equal.
    destruct b, (x =? 0) eqn:E; try reflexivity; exfalso.
    + assert (true = false) by (apply H0; lia). discriminate.
    + assert (x = 0) by (now apply H0). lia.
  - only_value Hv H2. apply read_integer; auto.
  - only_value Hv H2. apply bytes_ok_cons in Hok as [_ Hok]. eapply read_bit_string; eauto.
  - only_value Hv H2. cbn [read_back]. split; [exact H2|]. split; [exact H1|]. reflexivity.
  - only_value Hv H2. cbn [read_back]. split; [exact H2|]. split; [exact H1|]. exact I.
  - only_value Hv H2. cbn [read_back]. split; [exact H2|]. split; [exact H1|].
    eexists. split; [reflexivity|]. split; [reflexivity|]. intros text Ht.
    destruct comps as [|a [|b l]]; try contradiction. intros Hb.
    destruct (C52_absolute_partial a b l) as (c' & Ec & Hc'); auto.
    exists c'. split; [|f_equal; eapply oid_octets; eauto]. now rewrite (proj1 (C61_dotted _ _ Ht)).
  - only_value Hv H2. cbn [read_back]. split; [exact H2|]. split; [exact H1|].
    eexists. split; [reflexivity|]. split; [reflexivity|]. intros text Ht.
    destruct (C52_relative comps) as (c' & Ec & Hc').
    exists c'. split; [|f_equal; eapply relative_octets; eauto]. now rewrite <- Ec, <- (proj2 (C61_dotted _ _ Ht)).
  - only_value Hv H2. cbn [read_back]. split; [exact H2|]. split; [exact H1|].
    assert (Hz : (0 <= twos_complement c < 2 ^ 32)%Z) by (inversion Hs; subst; [assumption|contradiction]).
    assert (E : unsigned c = Z.to_N (twos_complement c)).
    { pose proof (tc_value c Hok) as E. pose proof (tc_sign c Hok). destruct (negative c); lia. }
    unfold obj_as_u32, obj_as_u64. cbn [o_content as_u32 as_u64]. rewrite E.
    destruct (4294967295 <? Z.to_N (twos_complement c)) eqn:E2; [|auto]. change (2 ^ 32)%Z with 4294967296%Z in Hz. lia.
  - cbn [read_back]. split; [exact H2|]. split; [exact H1|].
    assert (Ha : forall k, match k with TNumeric | TPrintable | TIA5 | TVisible => True | _ => False end ->
      Forall (permitted k) chars -> flat_map utf8_encode chars = chars).
    { intros k' Hk' Hf. apply ascii_utf8. eapply Forall_impl; [|exact Hf]. intros x Hx. apply permitted_ascii in Hx.
      destruct k'; contradiction || exact Hx. }
    destruct k0; cbn [text_tag] in H2; only_value Hv H2; cbn [text_read text_octets];
      try (match goal with E : h_tag _ = str_tag ?k |- _ => rewrite H2 in E; destruct k; try discriminate E end);
      unfold obj_as_str, obj_as_slice; cbn [o_content as_str as_slice];
      try (match goal with H : Forall (permitted ?t) chars |- _ => rewrite (Ha t I H) end); auto.
Qed.

(** The parser finds every encoding. *)
Definition finds ru L (bound : bytes -> Prop) (parse : bytes -> iresult berror obj) : Prop :=
  forall n v bs r, encodes ru n v bs -> (n <= 49)%nat -> supported v -> bound bs -> bytes_ok r ->
  exists h c k, element (S n) h c bs /\ value L n h c k /\ parse (bs ++ r) = Ok (r, Obj h k).

Lemma read_encoding ru L bound parse : ru <> SpecAbstract.Ber -> accepts_oids L -> finds ru L bound parse ->
  (forall bs x, bound bs -> subslice x bs -> bound x) ->
  (forall n v bs, encodes ru n v bs -> (n <= 49)%nat -> supported v -> bound bs ->
     forall h c k, element 50 h c bs -> value L n h c k -> read_back parse v (Obj h k))
  /\ (forall n l c, encode_all ru n l c -> (n <= 49)%nat -> Forall supported l -> bound c ->
     forall os, series L n c os -> read_all parse l os).
Proof.
  intros Hru HL Hfind Hsub. apply encodes_all_ind.
  - intros n v c lb Hc [Hl Hm] Hn Hs Hb h c' k He Hv. pose proof (contents_not_explicit _ _ _ Hc) as Hne.
    pose proof (value_tag_lt v Hne) as Ht.
    set (ib := [leading_octet Universal false (value_tag v)]) in *.
    set (h' := mkHeader Universal false (value_tag v) (Definite (N.of_nat (length c))) (Some ib)) in *.
    assert (Hh : header_octets h' (ib ++ lb)).
    { exists ib, lb. cbn. repeat split; auto; try discriminate. apply ident_low. lia. }
    assert (He' : element 50 h' c (leading_octet Universal false (value_tag v) :: lb ++ c)).
    { exists (ib ++ lb), c. split; [reflexivity|]. split; [exact Hh|]. split; [|reflexivity].
      eapply body_definite; reflexivity. }
    destruct (element_first _ _ _ _ _ _ [] [] He He' eq_refl) as (-> & -> & _ & _).
    eapply read_contents; eauto.
  - intros n l c bs Hl IH Hw Hn Hs Hb h c' k He Hv.
    assert (Hs' : Forall supported l) by (inversion Hs; subst; [assumption|contradiction]).
    destruct (proj2 (encodes_value ru L Hru HL) _ _ _ Hl ltac:(lia) Hs') as (Hok & Hu & _).
    destruct (wrapped_element _ _ _ _ _ _ Hw ltac:(lia) Hok Hu) as (h' & He' & _ & E1 & E2 & E3 & _).
    apply (element_mono _ 50) in He'; [|lia].
    destruct (element_first _ _ _ _ _ _ [] [] He He' eq_refl) as (-> & -> & _ & _).
    only_value Hv E2. cbn [read_back]. split; [exact E2|]. split; [exact E1|]. exists l0. split; [reflexivity|].
    change (read_all parse l l0). apply IH; auto; [lia|]. eapply Hsub; [exact Hb|]. eapply element_content_sub; eauto.
  - intros n l c bs Hl IH Hw Hn Hs Hb h c' k He Hv.
    assert (Hs' : Forall supported l) by (inversion Hs; subst; [assumption|contradiction]).
    destruct (proj2 (encodes_value ru L Hru HL) _ _ _ Hl ltac:(lia) Hs') as (Hok & Hu & _).
    destruct (wrapped_element _ _ _ _ _ _ Hw ltac:(lia) Hok Hu) as (h' & He' & _ & E1 & E2 & E3 & _).
    apply (element_mono _ 50) in He'; [|lia].
    destruct (element_first _ _ _ _ _ _ [] [] He He' eq_refl) as (-> & -> & _ & _).
    only_value Hv E2. cbn [read_back]. split; [exact E2|]. split; [exact E1|]. exists l0. split; [reflexivity|].
    change (read_all parse l l0). apply IH; auto; [lia|]. eapply Hsub; [exact Hb|]. eapply element_content_sub; eauto.
  - intros n cl t v c bs Hcl Hl IH Hw Hn Hs Hb h c' k He Hv.
    assert (Hs' : t < 2 ^ 32 /\ supported v) by (inversion Hs; subst; [auto|contradiction]). destruct Hs' as [Ht Hs'].
    pose proof (ea_cons ru n v c [] [] Hl (ea_nil ru n)) as Hl1. rewrite app_nil_r in Hl1.
    destruct (proj2 (encodes_value ru L Hru HL) _ _ _ Hl1 ltac:(lia) (Forall_cons _ Hs' (Forall_nil _))) as (Hok & Hu & _).
    destruct (wrapped_element _ _ _ _ _ _ Hw Ht Hok Hu) as (h' & He' & _ & E1 & E2 & E3 & _).
    apply (element_mono _ 50) in He'; [|lia].
    destruct (element_first _ _ _ _ _ _ [] [] He He' eq_refl) as (-> & -> & _ & _).
    inversion Hv; subst; try congruence.
    assert (Hbc : bound c) by (eapply Hsub; [exact Hb|]; eapply element_content_sub; eauto).
    destruct (Hfind n v c [] Hl ltac:(lia) Hs' Hbc (Forall_nil _)) as (h1 & c1 & k1 & He1 & Hv1 & Hp1). rewrite app_nil_r in Hp1.
    cbn [read_back]. split; [reflexivity|]. split; [reflexivity|]. exists c, (Obj h1 k1). split; [reflexivity|].
    split; [exact Hp1|]. eapply IH; eauto; [lia|]. eapply element_mono; [|exact He1]. lia.
  - intros; contradiction.
  - intros n _ _ _ os Hos. inversion Hos; subst; [exact I|]. exfalso.
    match goal with H : element _ _ _ ?b, E : ?b ++ _ = [] |- _ =>
      apply element_nonempty in H; apply app_eq_nil in E as [-> _]; now apply H end.
  - intros n v bs l rest Hv IH Hl IHl Hn Hs Hb os Hos. inversion Hs; subst.
    destruct (proj1 (encodes_value ru L Hru HL) _ _ _ Hv Hn H1) as (Hok & h & c & k & He & _ & Hval & _).
    apply (element_mono _ 50) in He; [|lia].
    inversion Hos; subst.
    { exfalso. apply element_nonempty in He. match goal with E : [] = bs ++ _ |- _ => symmetry in E; apply app_eq_nil in E as [-> _] end. now apply He. }
    match goal with E : _ ++ _ = bs ++ rest, He' : element 50 _ _ _ |- _ =>
      destruct (element_first _ _ _ _ _ _ _ _ He' He E) as (-> & -> & -> & ->) end.
    cbn [read_all]. split.
    + eapply IH; eauto. eapply Hsub; [exact Hb|]. exists [], rest. reflexivity.
    + apply IHl; auto. eapply Hsub; [exact Hb|]. exists bs, []. now rewrite app_nil_r.
Qed.

(** ** C88 *)

Lemma parse_ber_finds L : accepts_oids L -> finds Whole L (fun _ => True) (parse_ber L).
Proof.
  intros HL n v bs r H Hn Hs _ Hr.
  destruct (proj1 (encodes_value Whole L ltac:(discriminate) HL) _ _ _ H Hn Hs) as (Hok & h & c & k & He & _ & Hv & _).
  exists h, c, k. split; [exact He|]. split; [exact Hv|]. apply C55_parse_ber_exact; [apply bytes_ok_app; auto|].
  exists bs, c. cbn [o_header o_content]. split; [reflexivity|]. split.
  - eapply element_mono; [|exact He]. lia.
  - eapply (proj1 (value_mono_mut L)); [exact Hv|]. change MAX_RECURSION with 50%nat. lia.
Qed.

Lemma parse_der_finds L : accepts_oids L -> no_unknown_tag L ->
  finds SpecAbstract.Der L (fun bs => N.of_nat (length bs) <= 4294967295) (parse_der L).
Proof.
  intros HL HU n v bs r H Hn Hs Hlen Hr.
  destruct (proj1 (encodes_value SpecAbstract.Der L ltac:(discriminate) HL) _ _ _ H Hn Hs)
    as (Hok & h & c & k & He & _ & Hv & Hd & Hder).
  destruct (Hder eq_refl) as [Hdef Hel].
  assert (Hv50 : value L 50 h c k) by (eapply (proj1 (value_mono_mut L)); [exact Hv|lia]).
  exists h, c, k. split; [exact He|]. split; [exact Hv|].
  apply C56_parse_der_exact; auto; [apply bytes_ok_app; auto|change MAX_RECURSION with 50%nat; lia|].
  exists bs, c. cbn [o_header o_content]. split; [reflexivity|]. split; [exact Hdef|]. split.
  { destruct Hdef as (hb & -> & _). rewrite app_length in Hlen. lia. }
  split; [exact Hel|]. change MAX_RECURSION with 50%nat.
  destruct (h_class h) eqn:Ec.
  - rewrite der_view_universal by exact Ec.
    destruct (value_to_plain _ _ _ _ _ Hv50 Ec) as [[Hp _]|[-> _]]; [exact Hp|].
    exfalso. inversion Hd; subst; [|congruence].
    match goal with E : text_content ?t _ = _ |- _ => destruct t; discriminate end.
  - rewrite der_view_other by congruence. exact Hv50.
  - rewrite der_view_other by congruence. exact Hv50.
  - rewrite der_view_other by congruence. exact Hv50.
Qed.

Theorem C88_ber : forall L n v bs r, accepts_oids L -> supported v -> (n <= 49)%nat -> bytes_ok r ->
  encodes Whole n v bs -> exists o, parse_ber L (bs ++ r) = Ok (r, o) /\ read_back (parse_ber L) v o.
Proof.
  intros L n v bs r HL Hs Hn Hr H. pose proof (parse_ber_finds L HL) as Hf.
  destruct (Hf n v bs r H Hn Hs I Hr) as (h & c & k & He & Hv & Hp). exists (Obj h k). split; [exact Hp|].
  eapply (proj1 (read_encoding Whole L _ _ ltac:(discriminate) HL Hf ltac:(auto))); eauto.
  eapply element_mono; [|exact He]. lia.
Qed.
Print Assumptions C88_ber.

Theorem C88_der : forall L n v bs r, accepts_oids L -> no_unknown_tag L -> supported v -> (n <= 49)%nat ->
  bytes_ok r -> N.of_nat (length bs) <= 4294967295 -> encodes SpecAbstract.Der n v bs ->
  exists o, parse_der L (bs ++ r) = Ok (r, o) /\ read_back (parse_der L) v o.
Proof.
  intros L n v bs r HL HU Hs Hn Hr Hlen H. pose proof (parse_der_finds L HL HU) as Hf.
  destruct (Hf n v bs r H Hn Hs Hlen Hr) as (h & c & k & He & Hv & Hp). exists (Obj h k). split; [exact Hp|].
  assert (Hsub : forall b x : bytes, N.of_nat (length b) <= 4294967295 -> subslice x b -> N.of_nat (length x) <= 4294967295).
  { intros b x Hl (p & q & ->). rewrite !app_length in Hl. lia. }
  eapply (proj1 (read_encoding SpecAbstract.Der L _ _ ltac:(discriminate) HL Hf Hsub)); eauto.
  eapply element_mono; [|exact He]. lia.
Qed.
Print Assumptions C88_der.

(** An accessor succeeds on values of its types only: what it returns tells the
    type. *)
Theorem C88_only : forall ru o v, denotes ru o v ->
  (forall b, obj_as_bool o = Ok b <-> v = ABoolean b)
  /\ (forall os, obj_as_sequence o = Ok os -> exists l, v = ASequence l /\ denote_all ru os l)
  /\ (forall os, obj_as_set o = Ok os -> exists l, v = ASet l /\ denote_all ru os l)
  /\ ((exists d, obj_as_oid o = Ok d) <-> exists l, v = AOid l \/ v = ARelativeOid l)
  /\ ((exists s, obj_as_bitstring o = Ok s) <-> exists l, v = ABitString l)
  /\ ((exists s, obj_as_str o = Ok s) <-> exists k l, v = AText k l /\ k <> TBmp /\ k <> TUniversal)
  /\ (forall z, obj_as_i64 o = Ok z \/ obj_as_i32 o = Ok z -> exists y, v = AInteger y)
  /\ (forall n, obj_as_u64 o = Ok n \/ obj_as_u32 o = Ok n ->
        (exists y, v = AInteger y) \/ (exists l, v = ABitString l) \/ v = AEnumerated (Z.of_N n))
  /\ ((exists s, obj_as_slice o = Ok s) <->
        match v with
        | AInteger _ | ABitString _ | AOctetString _ | AText _ _ | AExplicit _ _ _ => True
        | _ => False
        end)
  /\ (forall x, obj_as_optional o <> Ok x) /\ (forall x, obj_as_tagged o <> Ok x).
Proof.
  intros ru o v H.
  unfold obj_as_bool, obj_as_sequence, obj_as_set, obj_as_oid, obj_as_bitstring, obj_as_str, obj_as_i64, obj_as_i32,
    obj_as_u64, obj_as_u32, obj_as_slice, obj_as_optional, obj_as_tagged.
  destruct H; try (match goal with k : text_type |- _ => destruct k end);
    cbn [o_content text_content as_bool as_sequence as_set as_oid as_bitstring as_str as_slice as_optional as_tagged];
    (split; [|split; [|split; [|split; [|split; [|split; [|split; [|split; [|split; [|split]]]]]]]]]).
  all: try (intros ? E; discriminate E).
  all: try (split; [intros (? & E); discriminate E|contradiction]).
  all: try (split; [intros (? & E); discriminate E|intros (? & E); discriminate E]).
  all: try (split; [intros (? & E); discriminate E|intros (? & [E|E]); discriminate E]).
  all: try (split; [intros (? & E); discriminate E|intros (? & ? & E & ? & ?); discriminate E]).
  all: try (intros ?; split; [intros E; discriminate E|intros E; discriminate E]).
  all: try (intros ? [E|E]; discriminate E).
  all: try (split; [intros _; exact I|intros _; eexists; reflexivity]).
  all: try (split; [intros _; eauto|intros _; eexists; reflexivity]).
  all: try (intros ? [E|E]; eauto; fail).
  - intros b'. split; congruence.
  - intros n' [E|E]; [cbn [as_u64] in E|cbn [as_u32] in E; destruct (4294967295 <? n) in E; [discriminate|]];
      injection E as <-; auto.
  - do 2 eexists; split; [reflexivity|split; discriminate].
  - do 2 eexists; split; [reflexivity|split; discriminate].
  - do 2 eexists; split; [reflexivity|split; discriminate].
  - do 2 eexists; split; [reflexivity|split; discriminate].
  - do 2 eexists; split; [reflexivity|split; discriminate].
  - split; [intros (? & E); discriminate E|]. intros (k & l & E & N1 & N2). injection E as <- _. contradiction.
  - split; [intros (? & E); discriminate E|]. intros (k & l & E & N1 & N2). injection E as <- _. contradiction.
  - intros os' E. injection E as <-. eauto.
  - intros os' E. injection E as <-. eauto.
Qed.
Print Assumptions C88_only.

(** A constant made by [oid!], turned into an object, encoded, decoded by either
    reader and read again, is the same constant. *)
Theorem C88_oid_constant : forall L a b rest text, oid_components (a :: b :: rest) -> b < 40 ->
  dotted (a :: b :: rest) text -> accepts_oids L -> no_unknown_tag L ->
  exists c bs, encode_oid text = Ok c /\ to_vec L (obj_from_oid (mkOid false c)) = Ok bs
  /\ to_vec L (obj_from_content (COID (mkOid false c))) = Ok bs
  /\ (N.of_nat (length bs) < 2 ^ 32 -> exists o o',
        parse_ber L bs = Ok ([], o) /\ obj_as_oid o = Ok (mkOid false c)
        /\ parse_der L bs = Ok ([], o') /\ obj_as_oid_val o' = Ok (mkOid false c)).
Proof.
  intros L a b rest text Hc Hb Ht HL HU. destruct (C52_absolute_partial a b rest Hc Hb) as (c & Ec & Hoc).
  rewrite <- (proj1 (C61_dotted _ _ Ht)) in Ec.
  assert (Hst : stands SpecAbstract.Der 1 (obj_from_oid (mkOid false c)) (AOid (a :: b :: rest))).
  { apply st_primitive; [repeat split|]. apply stored_oid. now apply c_oid. }
  destruct (C85_partial L _ _ _ Hst) as (bs & Ebs & He). exists c, bs. split; [exact Ec|]. split; [exact Ebs|].
  split; [exact Ebs|]. intros Hl. change (2 ^ 32) with 4294967296 in Hl.
  assert (Hd : encodes SpecAbstract.Der 1 (AOid (a :: b :: rest)) bs)
    by (apply He; unfold nlen; change (2 ^ 64) with 18446744073709551616; lia).
  assert (Hs : supported (AOid (a :: b :: rest))) by (apply sup_other; exact I).
  destruct (C88_der L 1 _ bs [] HL HU Hs ltac:(lia) (Forall_nil _) ltac:(lia) Hd) as (o' & Eo' & _ & _ & d' & Hd' & Hv' & H').
  destruct (C88_ber L 1 _ bs [] HL Hs ltac:(lia) (Forall_nil _) ltac:(exact (proj1 der_whole _ _ _ Hd))) as (o & Eo & _ & _ & d & Hd1 & Hv1 & H1).
  rewrite app_nil_r in *. destruct (H' text Ht Hb) as (c' & E' & ->). destruct (H1 text Ht Hb) as (c1 & E1 & ->).
  rewrite Ec in E', E1. injection E' as <-. injection E1 as <-. exists o, o'. auto.
Qed.
Print Assumptions C88_oid_constant.

Example C88_ex : accepts_oids SL /\ supported sample_value
  /\ (exists bs, encodes Whole 3 sample_value bs
       /\ bs = hx "30 80 02 02 ff 7f 03 02 05 a0 0c 02 c3 a9 a0 03 01 01 ff 06 03 2a 86 48 00 00")
  /\ match parse_ber SL (hx "30 80 02 02 ff 7f 03 02 05 a0 0c 02 c3 a9 a0 03 01 01 ff 06 03 2a 86 48 00 00") with
     | Ok (_, o) =>
         match obj_as_sequence o with
         | Ok [o1; o2; o3; o4; o5] =>
             obj_as_i64 o1 = Ok (-129)%Z /\ obj_as_u32 o2 = Ok 5 /\ obj_as_str o3 = Ok [195; 169]
             /\ obj_tag o4 = 0 /\ obj_as_slice o4 = Ok [1; 1; 255]
             /\ obj_as_oid o5 = Ok (mkOid false [42; 134; 72])
             /\ encode_oid (hx "31 2e 32 2e 38 34 30") = Ok [42; 134; 72]
         | _ => False
         end
     | _ => False
     end.
Proof.
  destruct C82_ex as (H1 & H2 & H3 & _). split; [exact H1|]. split; [exact H2|]. split; [exact H3|].
  vm_compute. repeat split.
Qed.
