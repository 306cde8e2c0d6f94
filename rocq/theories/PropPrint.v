(** * C65-C67: the text of the pretty printer *)

From Coq Require Import String Sorting.Sorted.
From Verif Require Import Base Asn1rs Ber Print PrintText Conformance Spec SpecPrint.
From Verif Require Import LemBase LemSer PropVisit.
Local Open Scope string_scope.
Local Open Scope N_scope.
Local Open Scope list_scope.

(** ** Decimal numbers *)

Lemma div10_small m k : m < 2 ^ N.succ k -> m / 10 < 2 ^ k.
Proof. intros H. rewrite N.pow_succ_r' in H. lia. Qed.

Lemma dec_digits_value f : forall n acc, n < 2 ^ N.of_nat f -> (1 <= f)%nat ->
  Forall (fun b => 48 <= b <= 57) acc ->
  let s := dec_digits f n acc in
  Forall (fun b => 48 <= b <= 57) s
  /\ (exists ds, s = ds ++ acc /\ digits_value 10 (map (fun b => b - 48) ds) = n
        /\ exists b r, ds = b :: r /\ (b = 48 -> r = [])).
Proof.
  induction f as [|f IH]; intros n acc Hn Hf Ha; [lia|]. cbn [dec_digits].
  assert (Ha' : Forall (fun b => 48 <= b <= 57) ((48 + n mod 10) :: acc)) by (constructor; [lia|assumption]).
  destruct (N.eqb_spec (n / 10) 0) as [E|E].
  - split; [assumption|]. exists [48 + n mod 10]. split; [reflexivity|]. split.
    + cbn [map digits_value length]. change (10 ^ N.of_nat 0) with 1. lia.
    + exists (48 + n mod 10), []. auto.
  - destruct f as [|f].
    + change (2 ^ N.of_nat 1) with 2 in Hn. lia.
    + destruct (IH (n / 10) ((48 + n mod 10) :: acc)) as (H1 & ds & H2 & H3 & b & r & -> & H4); [|lia|assumption|].
      { apply div10_small. now rewrite <- Nat2N.inj_succ. }
      split; [assumption|]. exists ((b :: r) ++ [48 + n mod 10]).
      rewrite <- app_assoc. split; [exact H2|]. split.
      * rewrite map_app, digits_value_app, H3. cbn [map digits_value length].
        change (10 ^ N.of_nat 1) with 10. change (10 ^ N.of_nat 0) with 1. lia.
      * exists b, (r ++ [48 + n mod 10]). split; [reflexivity|]. intros Hb. exfalso. apply E.
        rewrite <- H3, (H4 Hb), Hb. reflexivity.
Qed.

Theorem C66_decimal : forall n, decimal n (dec n).
Proof.
  intros n. unfold dec. destruct (dec_digits_value (S (N.to_nat (N.log2 n))) n []) as (H1 & ds & H2 & H3 & H4).
  - rewrite Nat2N.inj_succ, N2Nat.id. destruct n as [|p]; [reflexivity|]. now apply N.log2_spec.
  - lia.
  - constructor.
  - rewrite app_nil_r in H2. rewrite H2 in *. split; [assumption|]. split; [assumption|]. exact H4.
Qed.
Print Assumptions C66_decimal.

Example C66_ex : dec 0 = str "0" /\ dec 4096 = str "4096".
Proof. vm_compute. auto. Qed.

(** ** C65: the pieces in order *)

Lemma header_text_dbg T h : dbg_header T h = header_text T h.
Proof.
  unfold dbg_header, header_text. cbv zeta.
  destruct (h_class h); cbn [app]; rewrite <- ?app_assoc; reflexivity.
Qed.

Lemma units16 s : forall f, (length s <= f)%nat -> grouped 2 f s = be_u16_units s.
Proof.
  assert (H : forall n s, (length s <= n)%nat -> forall f, (length s <= f)%nat -> grouped 2 f s = be_u16_units s).
  { clear s. induction n as [|n IH]; intros s Hn f Hf.
    - destruct s; [|cbn in Hn; lia]. destruct f; reflexivity.
    - destruct s as [|a [|b s]]; [destruct f; reflexivity|destruct f; reflexivity|].
      destruct f as [|f]; [cbn in Hf; lia|]. cbn [grouped length firstn skipn be_u16_units].
      destruct (Nat.ltb_spec (S (S (length s))) 2); [lia|]. f_equal.
      + unfold unsigned. cbn [digits_value length]. change (256 ^ N.of_nat 1) with 256. change (256 ^ N.of_nat 0) with 1. lia.
      + apply IH; cbn [length] in *; lia. }
  intros f. now apply (H (length s)).
Qed.

Lemma units32 s : forall f, (length s <= f)%nat -> grouped 4 f s = be_u32_units s.
Proof.
  assert (H : forall n s, (length s <= n)%nat -> forall f, (length s <= f)%nat -> grouped 4 f s = be_u32_units s).
  { clear s. induction n as [|n IH]; intros s Hn f Hf.
    - destruct s; [|cbn in Hn; lia]. destruct f; reflexivity.
    - destruct s as [|a [|b [|c [|d s]]]]; try (destruct f; reflexivity).
      destruct f as [|f]; [cbn in Hf; lia|]. cbn [grouped length firstn skipn be_u32_units].
      destruct (Nat.ltb_spec (S (S (S (S (length s))))) 4); [lia|]. f_equal.
      + unfold unsigned. cbn [digits_value length]. change (256 ^ N.of_nat 3) with 16777216.
        change (256 ^ N.of_nat 2) with 65536. change (256 ^ N.of_nat 1) with 256. change (256 ^ N.of_nat 0) with 1. lia.
      + apply IH; cbn [length] in *; lia. }
  intros f. now apply (H (length s)).
Qed.

(** [marks rec o ms]: the pieces of [o] in order. *)
Definition marks (rec : bool) (o : obj) (ms : list (mark * obj)) : Prop :=
  StronglySorted mark_before (map fst ms)
  /\ forall p b x, In ((p, b), x) ms <-> written rec o p x /\ (b = true -> closing rec x <> None).

Section Pieces.
Context (T : texts) (flags : list flag) (inc : N).
Let rec := existsb (flag_eqb Recursive) flags.
Let hdr := existsb (flag_eqb ShowHeader) flags.

Definition prints (o : obj) : Prop := exists ms, marks rec o ms
  /\ forall indent, fmt_obj T flags indent inc o = flat_map (piece T rec hdr indent inc) ms.

Definition below (k : nat) (m : mark * obj) : mark * obj :=
  let '((p, b), x) := m in ((k :: p, b), x).

Lemma piece_below k indent m : piece T rec hdr indent inc (below k m) = piece T rec hdr (indent + inc) inc m.
Proof.
  destruct m as [[p b] x]. unfold piece, below. cbn [length].
  replace (indent + inc * N.of_nat (S (length p))) with (indent + inc + inc * N.of_nat (length p)) by lia. reflexivity.
Qed.

Lemma inner_prints k l : Forall prints l ->
  exists ms, StronglySorted mark_before (map fst ms)
    /\ (forall p b x, In ((p, b), x) ms <-> exists i c q, p = (k + i)%nat :: q /\ nth_error l i = Some c
          /\ written rec c q x /\ (b = true -> closing rec x <> None))
    /\ forall indent, flat_map (fmt_obj T flags (indent + inc) inc) l = flat_map (piece T rec hdr indent inc) ms.
Proof.
  intros H. revert k. induction H as [|o l (mo & (Hs & Hi) & Hv) _ IH]; intros k.
  - exists []. split; [constructor|]. split; [|reflexivity]. intros p b x. split; [intros []|].
    intros (i & c & q & _ & E & _). destruct i; discriminate.
  - destruct (IH (S k)) as (ms & Hss & His & Hvs).
    exists (map (below k) mo ++ ms). split; [|split].
    + rewrite map_app, map_map. apply sorted_app.
      * replace (map (fun m => fst (below k m)) mo) with (map (fun m : mark => (k :: fst m, snd m)) (map fst mo))
          by (rewrite map_map; apply map_ext; intros [[? ?] ?]; reflexivity). apply (sorted_map mark_before); [|assumption].
        intros [p a] [q b] Hb. now apply mb_inside.
      * assumption.
      * intros m m' Hm Hm'. apply in_map_iff in Hm as ([[p a] x] & <- & _). apply in_map_iff in Hm' as ([[q b] y] & <- & Hy).
        apply His in Hy as (i & c & q' & -> & _). cbn [fst below]. apply mb_sibling. lia.
    + intros p b x. rewrite in_app_iff, in_map_iff. split.
      * intros [([[q b'] y] & E & Hin)|Hin].
        -- cbn [below] in E. inv E. apply Hi in Hin as [Hw Hc]. exists O, o, q.
           split; [f_equal; lia|]. split; [reflexivity|]. auto.
        -- apply His in Hin as (i & c & q & -> & E & Hq). exists (S i), c, q. split; [f_equal; lia|]. split; assumption.
      * intros (i & c & q & -> & E & Hq). destruct i as [|i]; cbn [nth_error] in E.
        -- inv E. left. exists ((q, b), x). split; [cbn; repeat f_equal; lia|]. now apply Hi.
        -- right. apply His. exists i, c, q. split; [f_equal; lia|]. split; assumption.
    + intros indent. cbn [flat_map]. rewrite flat_map_app, Hv, <- Hvs. f_equal.
      rewrite !flat_map_concat_map, map_map. f_equal. apply map_ext. intros m. now rewrite piece_below.
Qed.

Lemma leaf_prints o : inner rec o = [] -> closing rec o = None ->
  (forall indent, fmt_obj T flags indent inc o = spaces indent ++ (if hdr then header_text T (o_header o) ++ [32] else []) ++ own_text T rec o) ->
  prints o.
Proof.
  intros Hn Hc Hv. exists [(([], false), o)]. split; [split|].
  - repeat constructor.
  - intros p b x. split.
    + intros [E|[]]. inv E. split; [constructor|discriminate].
    + intros [H Hb]. inversion H as [|o' i c' p' x' E]; subst.
      * destruct b; [|now left]. destruct (Hb eq_refl Hc).
      * rewrite Hn in E. destruct i; discriminate.
  - intros indent. rewrite Hv. cbn [flat_map piece length]. rewrite N.mul_0_r, N.add_0_r, app_nil_r. reflexivity.
Qed.

Lemma node_prints o l e : inner rec o = l -> Forall prints l -> closing rec o = Some e ->
  (forall indent, fmt_obj T flags indent inc o
     = (spaces indent ++ (if hdr then header_text T (o_header o) ++ [32] else []) ++ own_text T rec o)
       ++ flat_map (fmt_obj T flags (indent + inc) inc) l ++ spaces indent ++ e) ->
  prints o.
Proof.
  intros Hn Hl Hc Hv. destruct (inner_prints 0 l Hl) as (ms & Hs & Hi & Hvs).
  exists ((([], false), o) :: ms ++ [(([], true), o)]). split; [split|].
  - cbn [map fst]. rewrite map_app. cbn [map fst]. constructor.
    + apply sorted_app; [assumption|repeat constructor|]. intros m m' Hm [<-|[]].
      apply in_map_iff in Hm as ([[p b] x] & <- & Hm). apply Hi in Hm as (i & c' & q & -> & _). constructor.
    + apply Forall_app. split; [|repeat constructor]. apply Forall_map, Forall_forall. intros [[p b] x] Hp.
      apply Hi in Hp as (i & c' & q & -> & _). constructor.
  - intros p b x. cbn [In]. rewrite in_app_iff. split.
    + intros [E|[Hin|[E|[]]]].
      * inv E. split; [constructor|discriminate].
      * apply Hi in Hin as (i & c' & q & -> & E & Hq & Hb). split; [|assumption].
        eapply written_inner; [rewrite Hn; exact E|exact Hq].
      * inv E. split; [constructor|]. rewrite Hc. discriminate.
    + intros [H Hb]. inversion H as [|o' i c' p' x' E Hq]; subst.
      * destruct b; [right; right; left; reflexivity|left; reflexivity].
      * right. left. apply Hi. exists i, c', p'. auto.
  - intros indent. cbn [flat_map]. rewrite flat_map_app, Hv, <- Hvs. cbn [flat_map piece length].
    rewrite N.mul_0_r, N.add_0_r, Hc, app_nil_r. reflexivity.
Qed.
End Pieces.

Lemma prints_all T flags inc o : prints T flags inc o.
Proof.
  assert (HPQ : (forall o, prints T flags inc o) /\ (forall c h, prints T flags inc (Obj h c))).
  2: exact (proj1 HPQ o).
  apply obj_content_ind.
  - intros h c Hc. apply Hc.
  - intros l Hl h. destruct (existsb (flag_eqb Recursive) flags) eqn:Er.
    + apply node_prints with l (str "]"); [cbn; now rewrite Er|assumption|cbn; now rewrite Er|].
      intros indent. cbn [fmt_obj o_header own_text o_content]. rewrite Er, header_text_dbg.
      rewrite <- !app_assoc. reflexivity.
    + apply leaf_prints; [cbn; now rewrite Er|cbn; now rewrite Er|].
      intros indent. cbn [fmt_obj o_header own_text o_content]. rewrite Er, header_text_dbg, app_nil_r. reflexivity.
  - intros l Hl h. destruct (existsb (flag_eqb Recursive) flags) eqn:Er.
    + apply node_prints with l (str "]"); [cbn; now rewrite Er|assumption|cbn; now rewrite Er|].
      intros indent. cbn [fmt_obj o_header own_text o_content]. rewrite Er, header_text_dbg.
      rewrite <- !app_assoc. reflexivity.
    + apply leaf_prints; [cbn; now rewrite Er|cbn; now rewrite Er|].
      intros indent. cbn [fmt_obj o_header own_text o_content]. rewrite Er, header_text_dbg, app_nil_r. reflexivity.
  - intros h' c' _ _ h. apply leaf_prints; [reflexivity..|].
    intros indent. cbn [fmt_obj]. rewrite header_text_dbg. reflexivity.
  - intros k t o' Ho h. apply node_prints with [o'] (str "}"); [reflexivity|auto|reflexivity|].
    intros indent. cbn [fmt_obj o_header own_text o_content flat_map]. rewrite header_text_dbg, app_nil_r.
    rewrite <- !app_assoc. reflexivity.
  - intros c Hc h. destruct c as [| | | | | | | | |k s| | | | | | |[o'|]| |]; try contradiction;
      (apply leaf_prints; [reflexivity..|]); intros indent; cbn [fmt_obj own_text o_content o_header]; rewrite header_text_dbg;
      unfold pad, spaces, print_utf16_string_with_type, print_utf32_string_with_type, named, quoted.
    all: rewrite ?units16, ?units32 by lia.
    all: try reflexivity.
    all: do 2 f_equal; try (rewrite <- ?app_assoc; reflexivity).
    + destruct b; reflexivity.
    + destruct k; cbn [fmt_str]; rewrite <- ?app_assoc; reflexivity.
    + destruct (tx_utf16 T _); rewrite <- ?app_assoc; reflexivity.
    + destruct (tx_utf32 T _); rewrite <- ?app_assoc; reflexivity.
Qed.

Theorem C65_pieces : forall T p,
  let rec := is_flag_set p Recursive in let hdr := is_flag_set p ShowHeader in
  exists ms : list (mark * obj),
    StronglySorted mark_before (map fst ms)
    /\ (forall q b x, In ((q, b), x) ms <-> written rec (p_obj p) q x /\ (b = true -> closing rec x <> None))
    /\ pretty_text T p = flat_map (piece T rec hdr (p_indent p) (p_inc p)) ms.
Proof.
  intros T [o indent inc flags]. cbv zeta. destruct (prints_all T flags inc o) as (ms & (Hs & Hi) & Hv).
  exists ms. split; [exact Hs|]. split; [exact Hi|]. apply Hv.
Qed.
Print Assumptions C65_pieces.

(** The printer [as_pretty] returns writes the whole tree, without headers. *)
Theorem C65_as_pretty : forall T o indent inc, exists ms : list (mark * obj),
  StronglySorted mark_before (map fst ms)
  /\ (forall q b x, In ((q, b), x) ms <-> written true o q x /\ (b = true -> closing true x <> None))
  /\ pretty_text T (as_pretty o indent inc) = flat_map (piece T true false indent inc) ms.
Proof. intros T o indent inc. exact (C65_pieces T (as_pretty o indent inc)). Qed.
Print Assumptions C65_as_pretty.

(** Texts for the examples: octets stand for themselves. *)
Definition ST : texts := mkTexts (fun s => s) (fun v => oid_bytes v) (fun _ => str "time")
  (fun _ => None) (str "Err") (fun _ => None) (fun s => s)
  (fun c => match c with Universal => str "UNIVERSAL" | Application => str "APPLICATION"
            | ContextSpecific => str "CONTEXT-SPECIFIC" | Private => str "PRIVATE" end)
  dec (fun _ => []).

Example C65_ex :
  pretty_text ST (pretty_new (from_seq [from_obj (CTagged Private 5 (from_obj CNull)); from_seq []; from_int_slice (str "7")])
    [Recursive] 0 2)
  = str "Sequence[" ++ [10] ++ str "  ContextSpecific [PRIVATE 5] {" ++ [10] ++ str "    Null  }"
    ++ str "  Sequence[" ++ [10] ++ str "  ]  Integer(7)]"
  /\ written true (from_seq [from_obj (CTagged Private 5 (from_obj CNull))]) [0%nat; 0%nat] (from_obj CNull)
  /\ pretty_text ST (pretty_new (from_seq [from_obj CNull]) [ShowHeader] 1 2) = str " [16]+ 0 Sequence".
Proof.
  split; [vm_compute; reflexivity|]. split; [|vm_compute; reflexivity].
  eapply written_inner; [reflexivity|]. eapply written_inner; [reflexivity|]. constructor.
Qed.

(** ** C67: indentation adds nothing but spaces *)

Definition visible (s : bytes) : bytes := filter (fun b => negb (b =? 32)) s.

Lemma visible_app a b : visible (a ++ b) = visible a ++ visible b.
Proof. apply filter_app. Qed.
Lemma visible_pad n : visible (pad n) = [].
Proof. unfold pad. induction (N.to_nat n) as [|k IH]; [reflexivity|exact IH]. Qed.
Lemma visible_flat_map {A} (f g : A -> bytes) l : Forall (fun x => visible (f x) = visible (g x)) l ->
  visible (flat_map f l) = visible (flat_map g l).
Proof.
  induction 1 as [|x l Hx _ IH]; cbn [flat_map]; [reflexivity|]. now rewrite !visible_app, Hx, IH.
Qed.

Theorem C67_spaces : forall T o flags indent inc indent' inc',
  visible (pretty_text T (pretty_new o flags indent inc)) = visible (pretty_text T (pretty_new o flags indent' inc')).
Proof.
  intros T o flags indent inc indent' inc'. unfold pretty_text, pretty_new. cbn [p_flags p_indent p_inc p_obj].
  revert indent indent'.
  assert (HPQ : (forall o indent indent', visible (fmt_obj T flags indent inc o) = visible (fmt_obj T flags indent' inc' o))
    /\ (forall c h indent indent', visible (fmt_obj T flags indent inc (Obj h c)) = visible (fmt_obj T flags indent' inc' (Obj h c)))).
  2: apply HPQ.
  apply obj_content_ind.
  - intros h c Hc. apply Hc.
  - intros l Hl h i i'. cbn [fmt_obj]. rewrite !visible_app, !visible_pad. f_equal. f_equal.
    destruct (existsb (flag_eqb Recursive) flags); [|reflexivity]. cbv zeta.
    rewrite !visible_app, !visible_pad. do 3 f_equal. f_equal. apply visible_flat_map.
    eapply Forall_impl; [|exact Hl]. intros x Hx. apply Hx.
  - intros l Hl h i i'. cbn [fmt_obj]. rewrite !visible_app, !visible_pad. f_equal. f_equal.
    destruct (existsb (flag_eqb Recursive) flags); [|reflexivity]. cbv zeta.
    rewrite !visible_app, !visible_pad. do 3 f_equal. f_equal. apply visible_flat_map.
    eapply Forall_impl; [|exact Hl]. intros x Hx. apply Hx.
  - intros h' c' _ _ h i i'. cbn [fmt_obj]. now rewrite !visible_app, !visible_pad.
  - intros k t o' Ho h i i'. cbn [fmt_obj]. rewrite !visible_app, !visible_pad, (Ho (i + inc) (i' + inc')). reflexivity.
  - intros c Hc h i i'. destruct c as [| | | | | | | | | | | | | | | |[o'|]| |]; try contradiction;
      cbn [fmt_obj]; rewrite (visible_app (pad i)), (visible_app (pad i')), !visible_pad; reflexivity.
Qed.
Print Assumptions C67_spaces.

Example C67_ex : visible (pretty_text ST (pretty_new (from_seq [from_obj CNull]) [Recursive] 3 7)) = str "Sequence[" ++ [10] ++ str "Null]".
Proof. vm_compute. reflexivity. Qed.

(** ** C68 *)

(** The text of an inner object, indented by its depth, is part of the text. *)
Lemma contains T flags inc : forall o q x, written (existsb (flag_eqb Recursive) flags) o q x -> forall indent,
  exists pre post, fmt_obj T flags indent inc o
    = pre ++ fmt_obj T flags (indent + inc * N.of_nat (length q)) inc x ++ post
      /\ (q <> [] -> exists a, pre = a ++ [10] \/ (exists i r, rev q = S i :: r)).
Proof.
  intros o q x H. induction H as [o|o i c p x Hn Hw IH]; intros indent.
  - exists [], []. cbn [length app]. rewrite N.mul_0_r, N.add_0_r, app_nil_r. split; [reflexivity|]. congruence.
  - destruct (IH (indent + inc)) as (pre & post & E & Hp).
    assert (Hin : exists a b, fmt_obj T flags indent inc o = a ++ fmt_obj T flags (indent + inc) inc c ++ b
                   /\ (i = O -> exists a', a = a' ++ [10])).
    { destruct o as [h k]. destruct k; cbn [inner] in Hn; try (destruct i; discriminate).
      - destruct (existsb (flag_eqb Recursive) flags) eqn:Er; [|destruct i; discriminate].
        cbn [fmt_obj]. rewrite Er. apply nth_error_split in Hn as (l1 & l2 & -> & <-).
        rewrite flat_map_app. cbn [flat_map]. rewrite <- !app_assoc.
        match goal with |- context [flat_map ?f l1 ++ ?g ++ ?z] =>
          exists (pad indent ++ (if existsb (flag_eqb ShowHeader) flags then dbg_header T h ++ str " " else [])
            ++ (if h_tag h =? T_Sequence then str "Sequence" else str "Set") ++ str "[" ++ [10] ++ flat_map f l1), z end.
        split; [rewrite <- !app_assoc; reflexivity|]. intros El. destruct l1; [|discriminate].
        cbn [flat_map]. rewrite app_nil_r. eexists. rewrite !app_assoc. reflexivity.
      - destruct (existsb (flag_eqb Recursive) flags) eqn:Er; [|destruct i; discriminate].
        cbn [fmt_obj]. rewrite Er. apply nth_error_split in Hn as (l1 & l2 & -> & <-).
        rewrite flat_map_app. cbn [flat_map]. rewrite <- !app_assoc.
        match goal with |- context [flat_map ?f l1 ++ ?g ++ ?z] =>
          exists (pad indent ++ (if existsb (flag_eqb ShowHeader) flags then dbg_header T h ++ str " " else [])
            ++ (if h_tag h =? T_Sequence then str "Sequence" else str "Set") ++ str "[" ++ [10] ++ flat_map f l1), z end.
        split; [rewrite <- !app_assoc; reflexivity|]. intros El. destruct l1; [|discriminate].
        cbn [flat_map]. rewrite app_nil_r. eexists. rewrite !app_assoc. reflexivity.
      - destruct i as [|i]; [|destruct i; discriminate]. cbn [nth_error] in Hn. inv Hn. cbn [fmt_obj].
        match goal with |- context [fmt_obj T flags (indent + inc) inc c ++ ?z] =>
          exists (pad indent ++ (if existsb (flag_eqb ShowHeader) flags then dbg_header T h ++ str " " else [])
            ++ str "ContextSpecific [" ++ tx_class T c0 ++ str " " ++ dec t ++ str "] {" ++ [10]), z end.
        split; [rewrite <- !app_assoc; reflexivity|]. intros _. eexists. rewrite !app_assoc. reflexivity. }
    destruct Hin as (a & b & Ho & Hi). exists (a ++ pre), (post ++ b). split.
    + rewrite Ho, E. cbn [length].
      replace (indent + inc * N.of_nat (S (length p))) with (indent + inc + inc * N.of_nat (length p)) by lia.
      rewrite <- !app_assoc. reflexivity.
    + intros _. destruct p as [|j p].
      * destruct i as [|i].
        -- inversion Hw; subst. cbn [length] in E. rewrite N.mul_0_r, N.add_0_r in E.
           destruct (Hi eq_refl) as (a' & ->). 
           (* the inner text is the whole text of [c] *)
           assert (Hpre : pre = []).
           { pose proof (f_equal (@length N) E) as F. rewrite !app_length in F. destruct pre; [reflexivity|cbn in F; lia]. }
           subst pre. exists a'. left. now rewrite app_nil_r.
        -- exists []. right. exists i, []. reflexivity.
      * destruct Hp as (a'' & Hp); [discriminate|]. destruct Hp as [->|(j' & r & Hr)].
        -- exists (a ++ a''). left. now rewrite app_assoc.
        -- exists []. right. cbn [rev] in *. exists j', (r ++ [i]). rewrite Hr. reflexivity.
Qed.

Theorem C68_contained : forall T p q x, written (is_flag_set p Recursive) (p_obj p) q x ->
  exists pre post, pretty_text T p
    = pre ++ pretty_text T (pretty_new x (p_flags p) (p_indent p + p_inc p * N.of_nat (length q)) (p_inc p)) ++ post.
Proof.
  intros T [o indent inc flags] q x H. destruct (contains T flags inc o q x H indent) as (pre & post & E & _). eauto.
Qed.
Print Assumptions C68_contained.

(** [next_indent] is the printer of an object directly inside. *)
Theorem C68_next_indent : forall T p i x, written (is_flag_set p Recursive) (p_obj p) [i] x ->
  exists pre post, pretty_text T p = pre ++ pretty_text T (next_indent p x) ++ post.
Proof.
  intros T p i x H. destruct (C68_contained T p [i] x H) as (pre & post & E).
  exists pre, post. rewrite E. cbn [length]. rewrite N.mul_1_r. reflexivity.
Qed.
Print Assumptions C68_next_indent.

(** Full claim: every inner object starts on a new line, i.e. for every
    non-empty path [q], the text of the object at [q] is preceded by a line
    feed.  False for every member but the first. *)
Fixpoint starts (m s : bytes) : bool :=
  match m, s with
  | [], _ => true
  | a :: m, b :: s => (a =? b) && starts m s
  | _, [] => false
  end.
Fixpoint occurs (m s : bytes) : bool :=
  starts m s || match s with [] => false | _ :: r => occurs m r end.
Lemma starts_app m s : starts m (m ++ s) = true.
Proof. induction m as [|a m IH]; [reflexivity|]. cbn [app starts]. now rewrite N.eqb_refl. Qed.
Lemma occurs_app pre m post : occurs m (pre ++ m ++ post) = true.
Proof.
  induction pre as [|a pre IH]; cbn [app].
  - destruct (m ++ post) eqn:E; cbn [occurs]; rewrite <- E, starts_app; reflexivity.
  - cbn [occurs]. rewrite IH. apply Bool.orb_true_r.
Qed.

Theorem C68_refuted : exists o q x, written true o q x /\ q <> []
  /\ forall T pre post, pretty_text T (pretty_new o [Recursive] 0 2)
       <> pre ++ [10] ++ pretty_text T (pretty_new x [Recursive] (2 * N.of_nat (length q)) 2) ++ post.
Proof.
  exists (from_seq [from_obj CNull; from_obj (CBoolean true)]), [1%nat], (from_obj (CBoolean true)).
  split; [eapply written_inner; [reflexivity|]; constructor|]. split; [discriminate|].
  intros T pre post E.
  assert (H : occurs ([10] ++ pretty_text T (pretty_new (from_obj (CBoolean true)) [Recursive] (2 * N.of_nat 1) 2))
     (pretty_text T (pretty_new (from_seq [from_obj CNull; from_obj (CBoolean true)]) [Recursive] 0 2)) = true).
  { rewrite E, (app_assoc [10]). apply occurs_app. }
  vm_compute in H. discriminate.
Qed.
Print Assumptions C68_refuted.

(** Proved: the first object inside another one starts on a new line. *)
Theorem C68_partial : forall T p q x, written (is_flag_set p Recursive) (p_obj p) (q ++ [0%nat]) x ->
  exists pre post, pretty_text T p
    = pre ++ [10] ++ pretty_text T (pretty_new x (p_flags p) (p_indent p + p_inc p * N.of_nat (length q + 1)) (p_inc p)) ++ post.
Proof.
  intros T [o indent inc flags] q x H. destruct (contains T flags inc o _ x H indent) as (pre & post & E & Hp).
  destruct Hp as (a & [->|(i & r & Hr)]); [now destruct q| |].
  - exists a, post. unfold pretty_text. cbn [pretty_new p_obj p_flags p_indent p_inc]. rewrite E, app_length. cbn [length].
    now rewrite <- app_assoc.
  - rewrite rev_app_distr in Hr. discriminate.
Qed.
Print Assumptions C68_partial.

Example C68_ex : written true (from_seq [from_seq [from_obj CNull]]) ([0%nat] ++ [0%nat]) (from_obj CNull).
Proof. eapply written_inner; [reflexivity|]. eapply written_inner; [reflexivity|]. constructor. Qed.
