(** * C52, C61: the oid! macro *)

From Coq Require Import String.
From Verif Require Import Base OidMacro Conformance Spec SpecOid LemBase LemOid.
Local Open Scope string_scope.
Local Open Scope N_scope.
Local Open Scope list_scope.

(** ** C52 *)

Theorem C52_relative : forall comps, exists bs,
  encode_components comps true = Ok bs /\ relative_oid_contents comps bs.
Proof.
  intros comps. destruct (encode_all_spec comps []) as (parts & E & Hp). exists (concat parts).
  split; [exact E|]. exists parts. auto.
Qed.
Print Assumptions C52_relative.

(** Missing: 2.40 and above, which the encoder refuses. *)
Theorem C52_absolute_partial : forall a b rest, oid_components (a :: b :: rest) -> b < 40 ->
  exists bs, encode_components (a :: b :: rest) false = Ok bs /\ oid_contents (a :: b :: rest) bs.
Proof.
  intros a b rest [Ha _] Hb. unfold encode_components. destruct ((7 <=? a) || (40 <=? b)) eqn:E1; [lia|].
  destruct (255 <? a * 40 + b) eqn:E2; [lia|]. destruct (encode_all_spec rest [a * 40 + b]) as (parts & E & Hp).
  exists ([a * 40 + b] ++ concat parts). split; [exact E|]. cbn [oid_contents]. exists ([a * 40 + b] :: parts).
  split; [reflexivity|]. constructor; [|exact Hp]. exists [a * 40 + b]. split; [reflexivity|].
  split; [cbn [digits_value length]; change (128 ^ N.of_nat 0) with 1; lia|]. split; [discriminate|].
  split; [constructor; [lia|constructor]|now left].
Qed.
Print Assumptions C52_absolute_partial.

(** A valid identifier (2.999) is refused. *)
Theorem C52_refuted : exists comps, oid_components comps /\ encode_components comps false = Panic.
Proof. exists [2; 999]. split; [cbn; lia|reflexivity]. Qed.
Print Assumptions C52_refuted.

(** Identifiers that do not exist are accepted: root arcs 3 to 6. *)
Theorem C52_root_arc_refuted : exists comps bs, ~ oid_components comps /\ encode_components comps false = Ok bs.
Proof. exists [3; 0], [120]. split; [cbn; lia|reflexivity]. Qed.
Print Assumptions C52_root_arc_refuted.

(** What is refused, exactly. *)
Theorem C52_panics : forall comps, encode_components comps false = Panic <->
  match comps with
  | [] => True
  | [a] => a <> 0
  | a :: b :: _ => 6 < a \/ 39 < b \/ 255 < 40 * a + b
  end.
Proof.
  intros [|a [|b rest]]; unfold encode_components.
  - tauto.
  - destruct (a =? 0) eqn:E; split; intros H; try discriminate; try lia; reflexivity.
  - destruct ((7 <=? a) || (40 <=? b)) eqn:E1; [split; [lia|reflexivity]|].
    destruct (255 <? a * 40 + b) eqn:E2; [split; [lia|reflexivity]|].
    destruct (encode_all_spec rest [a * 40 + b]) as (parts & E & _). rewrite E. split; [discriminate|lia].
Qed.
Print Assumptions C52_panics.

Theorem C52_injective_relative : forall c c' bs,
  encode_components c true = Ok bs -> encode_components c' true = Ok bs -> c = c'.
Proof.
  intros c c' bs H H'. destruct (C52_relative c) as (x & E & parts & -> & Hp).
  destruct (C52_relative c') as (x' & E' & parts' & -> & Hp'). eapply parts_unique; [exact Hp|exact Hp'|congruence].
Qed.
Print Assumptions C52_injective_relative.

(** Missing: the one-component list [0]. *)
Theorem C52_injective_partial : forall c c' bs, (2 <= length c)%nat -> (2 <= length c')%nat ->
  encode_components c false = Ok bs -> encode_components c' false = Ok bs -> c = c'.
Proof.
  intros [|a [|b c]] [|a' [|b' c']] bs Hl Hl' H H'; cbn [length] in Hl, Hl'; try lia. clear Hl Hl'.
  unfold encode_components in H, H'.
  destruct ((7 <=? a) || (40 <=? b)) eqn:E1; [discriminate|]. destruct (255 <? a * 40 + b) eqn:E2; [discriminate|].
  destruct ((7 <=? a') || (40 <=? b')) eqn:E3; [discriminate|]. destruct (255 <? a' * 40 + b') eqn:E4; [discriminate|].
  destruct (encode_all_spec c [a * 40 + b]) as (parts & E & Hp).
  destruct (encode_all_spec c' [a' * 40 + b']) as (parts' & E' & Hp').
  assert (Eq : [a * 40 + b] ++ concat parts = [a' * 40 + b'] ++ concat parts') by congruence.
  cbn [app] in Eq. assert (Eab : a * 40 + b = a' * 40 + b') by congruence.
  assert (Ec : concat parts = concat parts') by congruence.
  assert (a = a') by lia. assert (b = b') by lia. subst a' b'. f_equal. f_equal. eapply parts_unique; eauto.
Qed.
Print Assumptions C52_injective_partial.

Theorem C52_injective_refuted : exists c c' bs, c <> c'
  /\ encode_components c false = Ok bs /\ encode_components c' false = Ok bs.
Proof. exists [0], [0; 0], [0]. split; [discriminate|split; reflexivity]. Qed.
Print Assumptions C52_injective_refuted.

Example C52_ex : oid_components [1; 2; 840; 113549; 1; 1; 5]
  /\ encode_components [1; 2; 840; 113549; 1; 1; 5] false = Ok (hx "2a 86 48 86 f7 0d 01 01 05")
  /\ encode_components [2 ^ 64; 0; 127; 128] true = Ok (hx "82 80 80 80 80 80 80 80 80 00 00 7f 81 00").
Proof. split; [cbn; lia|]. split; vm_compute; reflexivity. Qed.

(** ** C61 *)

(** The macro reads dotted notation: the octets are those of the components. *)
Theorem C61_dotted : forall comps text, dotted comps text ->
  encode_oid text = encode_components comps false
  /\ encode_oid (hx "72 65 6c 20" ++ text) = encode_components comps true.
Proof.
  intros comps text H. pose proof (dotted_parse _ _ H) as Hp. split.
  - unfold encode_oid. rewrite (dotted_not_rel _ _ H), Hp. reflexivity.
  - unfold encode_oid. change (hx "72 65 6c 20") with [114; 101; 108; 32]. cbn [app strip_rel]. rewrite Hp. reflexivity.
Qed.
Print Assumptions C61_dotted.

(** "rel 8571 . 3" *)
Example C61_ex : dotted [8571; 3] (hx "38 35 37 31 20 2e 20 33")
  /\ encode_oid (hx "72 65 6c 20 38 35 37 31 20 2e 20 33") = Ok (hx "c2 7b 03")
  /\ encode_oid (hx "31 2e 78") = Panic.
Proof.
  split; [|split; vm_compute; reflexivity].
  assert (Hd : forall n d ds, d = map (N.add 48) ds -> ds <> [] -> forallb (fun d => d <? 10) ds = true ->
    digits_value 10 ds = n -> decimal n d).
  { intros n d ds -> H1 H2 H3. exists ds. split; [reflexivity|]. split; [assumption|]. split; [|assumption].
    apply Forall_forall. intros x Hx. rewrite forallb_forall in H2. specialize (H2 x Hx). lia. }
  change (hx "38 35 37 31 20 2e 20 33") with (([] ++ [56; 53; 55; 49] ++ [32]) ++ 46 :: ([32] ++ [51] ++ [])).
  apply dotted_more; [constructor| | |].
  - apply (Hd 8571 _ [8; 5; 7; 1]); try reflexivity. discriminate.
  - constructor; [now left|constructor].
  - apply dotted_one; [constructor; [now left|constructor]| |constructor].
    apply (Hd 3 _ [3]); try reflexivity. discriminate.
Qed.
