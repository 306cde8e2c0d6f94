(** * Properties C92 to C94: the example program that dumps a file. *)

From Coq Require Import String.
From Verif Require Import Base Asn1rs Ber Der Serialize Visit Print PrintText Dump Spec SpecValue SpecDump.
From Verif Require Import LemBase LemHeader LemSkip LemParse LemDer LemTree LemInt LemSer Conformance PropPrint.
Local Open Scope string_scope.
Local Open Scope N_scope.
Local Open Scope list_scope.

(** ** Sizes *)

(** [small m o]: octets of [o] number at most [m], and at most [m - 2] those of its
    members. *)
Inductive small : nat -> obj -> Prop :=
| small_intro m o :
    (forall s, octets_of o = Some s -> (length s <= m)%nat) ->
    (forall x, In x (members o) -> (2 <= m)%nat) ->
    (forall x, In x (members o) -> small (m - 2) x) -> small m o.

Lemma small_mono m o : small m o -> forall m', (m <= m')%nat -> small m' o.
Proof.
  induction 1 as [m o Hs H2 Hm IH]. intros m' Hle. constructor.
  - intros s E. apply Hs in E. lia.
  - intros x Hx. apply H2 in Hx. lia.
  - intros x Hx. apply IH; [assumption|lia].
Qed.

Lemma any_data_length i r a : any_from_ber i = Ok (r, a) -> (length (a_data a) + 2 <= length i)%nat.
Proof.
  intros H. apply any_from_ber_split in H as (hb & b & -> & Hl & _ & Hd & _). rewrite Hd, !app_length.
  unfold content_octets. destruct (h_length (a_header a)); [lia|]. rewrite firstn_length. lia.
Qed.

Lemma collected_small conv (IH : forall a o, conv a = Ok o -> small (length (a_data a)) o) data l :
  collected conv data l -> forall x, In x l -> (2 <= length data)%nat /\ small (length data - 2) x.
Proof.
  induction 1 as [|data r a o l Ha Hc Hl IHl]; intros x Hx; [destruct Hx|].
  pose proof (any_data_length _ _ _ Ha). pose proof (any_from_ber_shorter _ _ _ Ha).
  destruct Hx as [->|Hx].
  - split; [lia|]. apply small_mono with (m := length (a_data a)); [now apply IH|lia].
  - apply IHl in Hx as [Hr Hx]. split; [lia|]. apply small_mono with (1 := Hx). lia.
Qed.

Lemma plain_small m h c : octets_of (Obj h c) = None -> members (Obj h c) = [] -> small m (Obj h c).
Proof. intros Ho Hm. constructor; rewrite ?Ho, ?Hm; [discriminate|intros x []..]. Qed.
Lemma octets_small h c s : octets_of (Obj h c) = Some s -> members (Obj h c) = [] -> small (length s) (Obj h c).
Proof.
  intros Ho Hm. constructor; rewrite ?Ho, ?Hm; [|intros x []..]. intros s' E. inv E. lia.
Qed.

Lemma converted_small L d : forall a o, try_berobject_from_any L d a = Ok o -> small (length (a_data a)) o.
Proof.
  induction d as [|d IH]; intros a o H; [discriminate|]. cbn [try_berobject_from_any] in H.
  destruct (negb (class_eqb (h_class (a_header a)) Universal)).
  { inv H. now apply octets_small. }
  assert (Hc : forall l k, iter_collect (try_berobject_from_any L d) (length (a_data a)) (a_data a) = Ok l ->
            members (Obj (a_header a) k) = l -> octets_of (Obj (a_header a) k) = None ->
            small (length (a_data a)) (Obj (a_header a) k)).
  { intros l k Hl Hm Ho. apply iter_collected in Hl.
    pose proof (collected_small _ IH _ _ Hl) as Hs. constructor; rewrite ?Ho, ?Hm.
    - discriminate.
    - intros x Hx. now apply Hs in Hx.
    - intros x Hx. now apply Hs in Hx. }
  destruct (utag_of (h_tag (a_header a)));
    repeat match type of H with
    | bind _ _ = _ => bind_inv H
    | (match ?x with _ => _ end) = Ok _ => destruct x eqn:?
    end; try discriminate;
    try (inv H; first [apply plain_small; reflexivity | apply octets_small; reflexivity]).
  - inv H. eapply Hc; reflexivity.
  - inv H. eapply Hc; reflexivity.
  - apply from_string_inv in H as (-> & _). apply plain_small; reflexivity.
Qed.

Lemma parsed_small L i r o : parse_ber L i = Ok (r, o) -> exists m, (m + 2 <= length i)%nat /\ small m o.
Proof.
  intros H. apply parse_ber_inv in H as (a & Ha & Hc). exists (length (a_data a)).
  split; [eapply any_data_length; eauto|]. eapply converted_small; eauto.
Qed.

Lemma parsed_der_small L i r o : parse_der L i = Ok (r, o) -> exists m, (m + 2 <= length i)%nat /\ small m o.
Proof.
  intros H. apply parse_der_iff in H as (h & c & Hh & Hl & _ & Ho). exists (length c). split.
  - apply header_from_der_ber in Hh as [Hh _].
    apply header_from_ber_split in Hh as (raw & lb & -> & _ & H1 & H2). rewrite !app_length. lia.
  - destruct Ho as [k _ Hv|_ _|t _ _ _ _ _]; try now apply octets_small.
    destruct Hv as [k H3 _ Hb|k H3 _ _ Ht].
    + destruct Hb as (u & data & _ & _ & -> & _). apply plain_small; reflexivity.
    + apply converted_small in Ht. cbn [a_data] in Ht. inv Ht. constructor; auto.
Qed.

(** ** The program writes the lines of [shown] *)

Lemma read_off_fun L s os r e : read_off L s os r e ->
  forall os' r' e', read_off L s os' r' e' -> os' = os /\ r' = r /\ e' = e.
Proof.
  induction 1 as [|i e Hi He|i r o os r1 e Ho _ IH]; intros os' r' e' H; inv H;
    try solve [auto|congruence|discriminate].
  - match goal with H : parse_ber _ _ = Err _ |- _ => rewrite He in H; inv H end. auto.
  - match goal with H : parse_ber _ _ = Ok _ |- _ => rewrite Ho in H; inv H end.
    match goal with H : read_off _ _ _ _ _ |- _ => apply IH in H as (-> & -> & ->) end. auto.
Qed.

Lemma shown_fun L :
  (forall d o rows, shown L d o rows -> forall rows', shown L d o rows' -> rows' = rows)
  /\ (forall d os rows, shown_all L d os rows -> forall rows', shown_all L d os rows' -> rows' = rows).
Proof.
  apply shown_ind2.
  - intros d o below Ho _ IH rows' H. inv H; try congruence.
    match goal with H : shown_all _ _ _ _ |- _ => now rewrite (IH _ H) end.
  - intros d o s r e Ho Hr rows' H. inv H; try congruence.
    + assert (s0 = s) as -> by congruence.
      destruct (read_off_fun _ _ _ _ _ Hr _ _ _ H1) as (_ & -> & ->). reflexivity.
    + assert (s0 = s) as -> by congruence.
      destruct (read_off_fun _ _ _ _ _ Hr _ _ _ H1) as (E & _). discriminate.
  - intros d o s x os r e rows Ho Hr _ IH rows' H. inv H; try congruence.
    + assert (s0 = s) as -> by congruence.
      destruct (read_off_fun _ _ _ _ _ Hr _ _ _ H1) as (E & _). discriminate.
    + assert (s0 = s) as -> by congruence.
      destruct (read_off_fun _ _ _ _ _ Hr _ _ _ H1) as (E & -> & ->). inv E.
      match goal with H : shown_all _ _ _ _ |- _ => now rewrite (IH _ H) end.
  - intros d rows' H. now inv H.
  - intros d o os a b _ IHa _ IHb rows' H. inv H.
    match goal with H : shown _ _ _ _ |- _ => rewrite (IHa _ H) end.
    match goal with H : shown_all _ _ _ _ |- _ => rewrite (IHb _ H) end. reflexivity.
Qed.

(** Reading stops on every octet string. *)
Lemma read_off_total L : forall n s, (length s <= n)%nat -> exists os r e, read_off L s os r e.
Proof.
  induction n as [|n IH]; intros s Hs.
  - destruct s; [|cbn in Hs; lia]. exists [], [], None. constructor.
  - destruct s as [|b s]; [exists [], [], None; constructor|].
    pose proof (parse_ber_total L (b :: s) MAX_RECURSION) as Ht.
    change (total (parse_ber L (b :: s))) in Ht.
    destruct (parse_ber L (b :: s)) as [[r o]|e| |] eqn:E; try (exfalso; destruct Ht; congruence).
    + pose proof E as E'. apply parse_ber_inv in E' as (a & Ha & _). apply any_from_ber_shorter in Ha.
      destruct (IH r) as (os & r' & e & Hr); [cbn [length] in *; lia|].
      exists (o :: os), r', e. econstructor; eauto.
    + exists [], (b :: s), (Some e). constructor; [discriminate|assumption].
Qed.

Lemma visit_children_cons {S} (f : S -> obj -> S) s x xs :
  visit_children f s (x :: xs) = visit_children f (f s x) xs.
Proof. reflexivity. Qed.

Section Program.
  Context (L : leaves) (T : dump_texts).

  (** [run_at] writes the lines of the objects found in octets of length below [k]. *)
  Definition runs (k : nat) (run_at : written -> obj -> nat -> written) : Prop :=
    forall o m d l, small m o -> (m + 2 <= k)%nat -> (1 <= d)%nat ->
      exists rows, shown L d o rows /\ run_at (Ok l) o d = Ok (l ++ map (line T) rows).

  Lemma fill_blanks d : (1 <= d)%nat -> fill (d * 2) = blanks d.
  Proof. intros Hd. unfold fill, blanks. f_equal. lia. Qed.

  Lemma end_rows d first r l : (1 <= d)%nat ->
    encapsulated_end d first r (Ok l)
    = Ok (l ++ map (line T) ((if first then [] else [RClose d]) ++ match r with [] => [] | _ => [RLeft d r] end)).
  Proof.
    intros Hd. unfold encapsulated_end. rewrite (fill_blanks _ Hd).
    destruct first, r; cbn [say bind map line app]; rewrite ?app_nil_r, <- ?app_assoc; reflexivity.
  Qed.

  Lemma loop_rows k run_at : runs k run_at -> forall fuel data d o i first l os r e,
    read_off L i os r e -> (length i <= fuel)%nat -> (length i <= k)%nat -> (1 <= d)%nat ->
    exists rows, shown_all L (S d) os rows
      /\ encapsulated_loop L T run_at data d (h_constructed (o_header o)) fuel first i (Ok l)
         = Ok (l ++ map (line T)
             ((match os with [] => [] | _ => if first then [ROpen d] else [] end)
              ++ rows ++ trouble o d data e
              ++ (match os with [] => if first then [] else [RClose d] | _ => [RClose d] end)
              ++ left_over o d r)).
  Proof.
    intros Hrun. induction fuel as [|fuel IH]; intros data d o i first l os r e Hr Hf Hk Hd.
    - destruct i; [|cbn in Hf; lia]. inv Hr; [|contradiction|discriminate].
      exists []. split; [constructor|]. cbn [encapsulated_loop trouble left_over app].
      rewrite end_rows by assumption. now rewrite app_nil_r.
    - destruct i as [|b i].
      { inv Hr; [|contradiction|discriminate].
        exists []. split; [constructor|]. cbn [encapsulated_loop trouble left_over app].
        rewrite end_rows by assumption. now rewrite app_nil_r. }
      cbn [encapsulated_loop]. inversion Hr as [|i' e' Hi He|i' r1 x os' r' e' Hx Hos]; subst.
      + unfold parse_ber, parse_ber_recursive in He. rewrite He. exists []. split; [constructor|].
        unfold trouble, left_over. destruct (h_constructed (o_header o)).
        * cbn [say bind]. rewrite end_rows by assumption. f_equal.
          cbn [map app line]. rewrite <- !app_assoc. cbn [app]. destruct first; reflexivity.
        * rewrite end_rows by assumption. cbn [app]. now rewrite app_nil_r.
      + pose proof (parsed_small _ _ _ _ Hx) as (m & Hm & Hs).
        pose proof Hx as Ha. apply parse_ber_inv in Ha as (a & Ha & _). apply any_from_ber_shorter in Ha.
        unfold parse_ber, parse_ber_recursive in Hx. rewrite Hx. rewrite (fill_blanks _ Hd).
        set (l1 := l ++ map (line T) (if first then [ROpen d] else [])).
        assert (E1 : (if first then say (Stdout (blanks d ++ str "encapsulates {" ++ [10])) (Ok l) else Ok l)
                     = Ok l1) by (unfold l1; destruct first; cbn [say bind map line]; now rewrite ?app_nil_r).
        rewrite E1. destruct (Hrun x m (S d) l1 Hs) as (rows1 & Hsh & E2); [cbn [length] in *; lia|lia|].
        rewrite E2.
        destruct (IH data d o r1 false (l1 ++ map (line T) rows1) os' r e Hos) as (rows2 & Hsh2 & E3);
          [cbn [length] in *; lia|cbn [length] in *; lia|assumption|].
        exists (rows1 ++ rows2). split; [now constructor|]. rewrite E3. f_equal. unfold l1.
        rewrite <- !app_assoc. f_equal. rewrite <- !map_app. f_equal.
        destruct os'; cbn [app]; rewrite <- ?app_assoc; reflexivity.
  Qed.

  Lemma octets_rows k run_at s d o l : runs k run_at -> octets_of o = Some s -> (length s <= k)%nat -> (1 <= d)%nat ->
    exists rows, shown L d o (RObject d o :: rows)
      /\ try_print_encapsulated L T run_at s d o (Ok l) = Ok (l ++ map (line T) rows).
  Proof.
    intros Hrun Ho Hk Hd. destruct (read_off_total L (length s) s (le_n _)) as (os & r & e & Hr).
    destruct (loop_rows k run_at Hrun (length s) s d o s true l os r e Hr (le_n _) Hk Hd) as (rows & Hsh & E).
    unfold try_print_encapsulated. rewrite E. destruct os as [|x os].
    - inv Hsh. exists (trouble o d s e ++ left_over o d r). split; [now apply sh_nothing|reflexivity].
    - exists (ROpen d :: rows ++ trouble o d s e ++ RClose d :: left_over o d r). split; [eapply sh_inside; eauto|].
      reflexivity.
  Qed.

  Lemma visit_rows k run_at : runs k run_at -> forall m o, small m o -> (m <= k)%nat -> forall d l, (1 <= d)%nat ->
    exists rows, shown L d o rows
      /\ visit_ber_bfs (ber_printer L T run_at) (Ok l) o d = Ok (l ++ map (line T) rows).
  Proof.
    intros Hrun. induction 1 as [m o Hs H2 Hm IH]. intros Hk d l Hd.
    set (l1 := l ++ [line T (RObject d o)]).
    assert (Hfirst : forall rows, l1 ++ map (line T) rows = l ++ map (line T) (RObject d o :: rows)).
    { intros rows. unfold l1. rewrite <- app_assoc. reflexivity. }
    assert (Hsay : say (Stdout (pretty_text (du_pretty T) (pretty_new o [ShowHeader] (N.of_nat d * 2) 2) ++ [10])) (Ok l)
                   = Ok l1).
    { unfold say, l1. cbn [bind line]. unfold pretty_text, pretty_new. cbn [p_flags p_indent p_inc p_obj].
      rewrite (N.mul_comm (N.of_nat d)). reflexivity. }
    assert (Hch : forall xs, (forall x, In x xs -> In x (members o)) ->
      forall s, exists rows, shown_all L (S d) xs rows
        /\ visit_children (fun s item => visit_ber_bfs (ber_printer L T run_at) s item (S d)) (Ok s) xs
           = Ok (s ++ map (line T) rows)).
    { induction xs as [|x xs IHx]; intros Hin s.
      - exists []. split; [constructor|]. cbn. now rewrite app_nil_r.
      - pose proof (Hin x (or_introl eq_refl)) as Hx. pose proof (H2 _ Hx).
        destruct (IH x Hx) with (d := S d) (l := s) as (rows & Hsh & E); [lia|lia|].
        rewrite visit_children_cons, E.
        destruct (IHx (fun y Hy => Hin y (or_intror Hy)) (s ++ map (line T) rows)) as (rows' & Hsh' & E').
        exists (rows ++ rows'). split; [now constructor|].
        rewrite E', map_app, app_assoc. reflexivity. }
    assert (Hplain : octets_of o = None -> members o = [] ->
      exists rows, shown L d o rows /\ @Ok unit (list write) l1 = Ok (l ++ map (line T) rows)).
    { intros Ho Hmem. exists [RObject d o]. split; [|reflexivity].
      apply sh_plain; [assumption|]. rewrite Hmem. constructor. }
    destruct o as [h c].
    destruct c; cbn [visit_ber_bfs ber_printer o_content]; rewrite Hsay; cbn [ber_printer];
      try (apply Hplain; reflexivity).
    - destruct (octets_rows k run_at s d (Obj h (COctetString s)) l1 Hrun eq_refl) as (rows & Hsh & E); [|assumption|].
      { specialize (Hs _ eq_refl). lia. }
      exists (RObject d (Obj h (COctetString s)) :: rows). split; [assumption|]. now rewrite E, Hfirst.
    - destruct (Hch l0 (fun x Hx => Hx) l1) as (rows & Hsh & E).
      exists (RObject d (Obj h (CSequence l0)) :: rows). split; [apply sh_plain; [reflexivity|assumption]|].
      rewrite E, Hfirst. reflexivity.
    - destruct (Hch l0 (fun x Hx => Hx) l1) as (rows & Hsh & E).
      exists (RObject d (Obj h (CSet l0)) :: rows). split; [apply sh_plain; [reflexivity|assumption]|].
      rewrite E, Hfirst. reflexivity.
    - destruct (octets_rows k run_at (a_data a) d (Obj h (CUnknown a)) l1 Hrun eq_refl) as (rows & Hsh & E); [|assumption|].
      { specialize (Hs _ eq_refl). lia. }
      exists (RObject d (Obj h (CUnknown a)) :: rows). split; [assumption|]. now rewrite E, Hfirst.
  Qed.

  Lemma dump_at_rows : forall fuel o m d l, small m o -> (m < fuel)%nat -> (1 <= d)%nat ->
    exists rows, shown L d o rows /\ dump_at L T fuel (Ok l) o d = Ok (l ++ map (line T) rows).
  Proof.
    induction fuel as [|fuel IH]; intros o m d l Hs Hf Hd; [lia|]. cbn [dump_at]. unfold visit_run_at.
    apply (visit_rows m) with (m := m); auto. intros o' m' d' l' Hs' Hm' Hd'. apply IH with m'; auto. lia.
  Qed.
End Program.

(** ** C92 *)

Lemma file_small L ber data r o : file_object L ber data r o -> exists m, (m + 2 <= length data)%nat /\ small m o.
Proof. unfold file_object. destruct ber; [apply parsed_small|apply parsed_der_small]. Qed.

Lemma members_octets o s : octets_of o = Some s -> members o = [].
Proof. unfold octets_of, members. destruct (o_content o); congruence. Qed.

Lemma trouble_objects o d s e d' n : ~ In (RObject d' n) (trouble o d s e).
Proof.
  unfold trouble. destruct e; [destruct (h_constructed _)|]; cbn [In]; intuition congruence.
Qed.
Lemma left_objects o d r d' n : ~ In (RObject d' n) (left_over o d r).
Proof.
  unfold left_over. destruct r; [|destruct (h_constructed _)]; cbn [In]; intuition congruence.
Qed.

Lemma shown_found L :
  (forall d o rows, shown L d o rows -> forall d' n, In (RObject d' n) rows <-> found L d o d' n)
  /\ (forall d os rows, shown_all L d os rows -> forall d' n,
        In (RObject d' n) rows <-> exists x, In x os /\ found L d x d' n).
Proof.
  apply shown_ind2.
  - intros d o below Ho _ IH d' n. cbn [In]. rewrite IH. split.
    + intros [E|(x & Hx & Hf)]; [inv E; constructor|eapply fo_member; eauto].
    + intros H. inv H; [now left|right; eauto|congruence].
  - intros d o s r e Ho Hr d' n. cbn [In]. rewrite in_app_iff. split.
    + intros [E|[H|H]]; [inv E; constructor|now apply trouble_objects in H|now apply left_objects in H].
    + intros H. inv H; [now left| |].
      * rewrite (members_octets _ _ Ho) in *. contradiction.
      * assert (s0 = s) as -> by congruence.
        match goal with H : read_off _ s _ _ _ |- _ => destruct (read_off_fun _ _ _ _ _ Hr _ _ _ H) as (-> & _) end.
        contradiction.
  - intros d o s x os r e rows Ho Hr _ IH d' n. cbn [In]. rewrite !in_app_iff. cbn [In]. rewrite IH. split.
    + intros [E|[E|[(y & Hy & Hf)|[H|[E|H]]]]]; try discriminate.
      * inv E. constructor.
      * eapply fo_octets; eauto.
      * now apply trouble_objects in H.
      * now apply left_objects in H.
    + intros H. inv H; [now left| |].
      * rewrite (members_octets _ _ Ho) in *. contradiction.
      * assert (s0 = s) as -> by congruence.
        match goal with H : read_off _ s _ _ _ |- _ => destruct (read_off_fun _ _ _ _ _ Hr _ _ _ H) as (-> & _) end.
        right. right. left. eauto.
  - intros d d' n. split; [intros []|intros (x & [] & _)].
  - intros d o os a b _ IHa _ IHb d' n. rewrite in_app_iff, IHa, IHb. split.
    + intros [H|(x & Hx & Hf)]; [exists o; split; [now left|assumption]|exists x; split; [now right|assumption]].
    + intros (x & [->|Hx] & Hf); eauto.
Qed.

(** Every file that parses is dumped to the end: the lines are those [shown] describes
    and no others, and the objects among them are those found in the file. *)
Theorem C92_shows : forall L T ber data r o l, file_object L ber data r o ->
  exists rows, (forall rows', shown L 1 o rows' <-> rows' = rows)
    /\ (forall d n, In (RObject d n) rows <-> found L 1 o d n)
    /\ dump_file L T ber data (Ok l) = Ok (l ++ map (line T) rows ++ extra T r).
Proof.
  intros L T ber data r o l H. pose proof (file_small _ _ _ _ _ H) as (m & Hm & Hs).
  destruct (dump_at_rows L T (S (length data)) o m 1 l Hs) as (rows & Hsh & E); [lia|lia|].
  exists rows. split; [|split].
  - intros rows'. split; [intros H'; eapply (proj1 (shown_fun L)); eauto|intros ->; assumption].
  - intros d n. now apply (proj1 (shown_found L)).
  - unfold dump_file, file_object in *.
    replace (if ber then parse_ber L data else parse_der L data) with (@Ok (nerr berror) _ (r, o))
      by (now destruct ber).
    rewrite E. destruct r; cbn [extra say bind]; rewrite ?app_nil_r, <- ?app_assoc; reflexivity.
Qed.
Print Assumptions C92_shows.

(** The program ends for all arguments: it shows every file, or stops at one that
    cannot be read or parsed. *)
Theorem C92_main : forall L T args ber l,
  (exists w, dumped L T ber args w /\ dump_main L T ber args (Ok l) = Ok (l ++ w))
  \/ ((forall w, ~ dumped L T ber args w) /\ dump_main L T ber args (Ok l) = Panic).
Proof.
  intros L T. induction args as [|[| |[data|]] args IH]; intros ber l; cbn [dump_main].
  - left. exists []. split; [constructor|]. now rewrite app_nil_r.
  - destruct (IH true l) as [(w & Hw & E)|(Hw & E)].
    + left. exists w. split; [now constructor|assumption].
    + right. split; [|assumption]. intros w H. inv H. eapply Hw; eauto.
  - destruct (IH false l) as [(w & Hw & E)|(Hw & E)].
    + left. exists w. split; [now constructor|assumption].
    + right. split; [|assumption]. intros w H. inv H. eapply Hw; eauto.
  - destruct (if ber then parse_ber L data else parse_der L data) as [[r o]|e| |] eqn:Ep.
    1: { assert (Hf : file_object L ber data r o) by (unfold file_object; now destruct ber).
         destruct (C92_shows L T ber data r o l Hf) as (rows & Hsh & _ & E). rewrite E. cbn [bind].
         destruct (IH ber (l ++ map (line T) rows ++ extra T r)) as [(w & Hw & E')|(Hw & E')].
         - left. exists (map (line T) rows ++ extra T r ++ w). split.
           + apply dd_file with o; [assumption|now apply Hsh|assumption].
           + rewrite E', <- !app_assoc. reflexivity.
         - right. split; [|assumption]. intros w H. inv H. eapply Hw; eauto. }
    all: right; split; [|unfold dump_file; rewrite Ep; reflexivity];
      intros w H; inv H; unfold file_object in *; destruct ber; congruence.
  - right. split; [|reflexivity]. intros w H. inv H.
Qed.
Print Assumptions C92_main.

Lemma matched_app a : matched a -> forall b, matched b -> matched (a ++ b).
Proof.
  induction 1 as [|x rows Hx _ IH|d inner rows Hi _ Hd _ IH]; intros b Hb; cbn [app].
  - assumption.
  - constructor; auto.
  - rewrite <- app_assoc. cbn [app]. apply ma_braces; auto.
Qed.
Lemma matched_trouble o d s e : matched (trouble o d s e).
Proof. unfold trouble. destruct e; [destruct (h_constructed _)|]; repeat constructor; intros []. Qed.
Lemma matched_left o d r : matched (left_over o d r).
Proof. unfold left_over. destruct r; [|destruct (h_constructed _)]; repeat constructor; intros []. Qed.

Lemma found_deeper L d o d' n : found L d o d' n -> (d <= d')%nat.
Proof. induction 1; lia. Qed.

(** The braces match and enclose what is one level deeper. *)
Theorem C92_braces : forall L d o rows, shown L d o rows -> matched rows.
Proof.
  intros L. refine (proj1 _ : forall d o rows, shown L d o rows -> matched rows).
  apply (shown_ind2 L (fun _ _ rows _ => matched rows) (fun _ _ rows _ => matched rows)).
  - intros. constructor; [intros []|assumption].
  - intros. constructor; [intros []|]. apply matched_app; [apply matched_trouble|apply matched_left].
  - intros d o s x os r e rows Ho Hr Hs IH. constructor; [intros []|]. rewrite app_assoc. apply ma_braces.
    + apply matched_app; [assumption|apply matched_trouble].
    + intros d' n Hin. apply in_app_or in Hin as [Hin|Hin]; [|now apply trouble_objects in Hin].
      apply (proj2 (shown_found L) _ _ _ Hs) in Hin as (y & _ & Hf). apply found_deeper in Hf. lia.
    + apply matched_left.
  - constructor.
  - intros. now apply matched_app.
Qed.
Print Assumptions C92_braces.

(** Texts for the examples. *)
Definition DT : dump_texts := mkDumpTexts ST (fun _ => str "error") (fun _ => str "octets") (fun _ => str "octets").

(** A SEQUENCE of an OCTET STRING that holds a NULL and of a constructed [1] that
    holds a NULL and three octets that are no object; one octet follows. *)
Example C92_ex : exists o,
  file_object SL false [48; 11; 4; 2; 5; 0; 161; 5; 5; 0; 5; 255; 0; 42] [42] o
  /\ dump_main SL DT true [ADer; AFile (Some [48; 11; 4; 2; 5; 0; 161; 5; 5; 0; 5; 255; 0; 42])] (Ok [])
     = Ok [Stdout (str "  [16]+ 11 Sequence" ++ [10]);
           Stdout (str "    [4] 2 OctetString(" ++ [5; 0] ++ str ")" ++ [10]);
           Stdout (str "    encapsulates {" ++ [10]);
           Stdout (str "      [5] 0 Null" ++ [10]);
           Stdout (str "    }" ++ [10]);
           Stdout (fmt_obj ST [ShowHeader] 4 2 (Obj (mkHeader ContextSpecific true 1 (Definite 5) (Some [161]))
                     (CUnknown (mkAny (mkHeader ContextSpecific true 1 (Definite 5) (Some [161])) [5; 0; 5; 255; 0])))
                   ++ [10]);
           Stdout (str "    encapsulates {" ++ [10]);
           Stdout (str "      [5] 0 Null" ++ [10]);
           Stderr (str "Error while parsing constructed object at depth 2: error" ++ [10]);
           Stderr (str "tried to parse" ++ [10] ++ str "octets" ++ [10]);
           Stdout (str "    }" ++ [10]);
           Stdout (str "WARNING: 3 remaining bytes at depth 2" ++ [10]);
           Stdout (str "WARNING: extra bytes after BER/DER object:" ++ [10] ++ str "octets" ++ [10])]
  /\ dump_main SL DT false [AFile (Some [36; 128; 0; 0])] (Ok []) = Panic
  /\ dump_main SL DT false [ABer; AFile (Some [48; 128; 0; 0])] (Ok [])
     = Ok [Stdout (str "  [16]+ Indefinite Sequence" ++ [10])].
Proof.
  eexists. split; [vm_compute; reflexivity|]. split; [vm_compute; reflexivity|].
  split; vm_compute; reflexivity.
Qed.

(** ** C93 *)

(** Nothing in the program limits how deep encapsulated octets are followed. *)
Lemma small_depth L d o d' n : found L d o d' n -> forall m, small m o -> (2 * d' <= 2 * d + m)%nat.
Proof.
  induction 1 as [d o|d o x d' n Hx _ IH|d o s os r e x d' n Ho Hr Hx _ IH]; intros m Hs.
  - lia.
  - inv Hs. pose proof (H0 _ Hx). pose proof (IH _ (H1 _ Hx)). lia.
  - inv Hs. pose proof (H _ Ho).
    assert (Hm : exists m', (m' + 2 <= length s)%nat /\ small m' x).
    { clear - Hr Hx. induction Hr as [|i e _ _|i r o os r1 e Hp Hr IH]; try destruct Hx.
      - subst. eapply parsed_small; eauto.
      - destruct IH as (m' & Hm' & Hs'); [assumption|]. exists m'. split; [|assumption].
        apply parse_ber_inv in Hp as (a & Ha & _). apply any_from_ber_shorter in Ha. lia. }
    destruct Hm as (m' & Hm' & Hs'). pose proof (IH _ Hs'). lia.
Qed.

(** Proved part: two octets of the file are used up at each level. *)
Theorem C93_depth_partial : forall L ber data r o d n, file_object L ber data r o ->
  found L 1 o d n -> (2 * d <= length data)%nat.
Proof.
  intros L ber data r o d n H Hf. destruct (file_small _ _ _ _ _ H) as (m & Hm & Hs).
  pose proof (small_depth _ _ _ _ _ Hf _ Hs). lia.
Qed.
Print Assumptions C93_depth_partial.

(** [k] octet strings, one in the other, with lengths of eight octets. *)
Fixpoint boxes (k : nat) : bytes :=
  match k with
  | O => [5; 0]
  | S k => 4 :: 136 :: to_be_bytes 8 (nlen (boxes k)) ++ boxes k
  end.

Lemma boxes_length k : length (boxes k) = (10 * k + 2)%nat.
Proof.
  induction k as [|k IH]; [reflexivity|]. cbn [boxes length]. rewrite app_length, IH.
  destruct (to_be_bytes_spec 8 (nlen (boxes k))) as (-> & _). lia.
Qed.

Lemma boxes_parse L k : N.of_nat (10 * k + 2) < 2 ^ 64 ->
  exists o, parse_ber L (boxes k) = Ok ([], o)
    /\ match k with O => True | S k' => octets_of o = Some (boxes k') end.
Proof.
  destruct k as [|k]; intros Hk.
  - eexists. split; [reflexivity|exact I].
  - destruct (to_be_bytes_spec 8 (nlen (boxes k))) as (Hl & Ho & Hu).
    assert (Hn : nlen (boxes k) < pw 8).
    { change (pw 8) with (2 ^ 64). unfold nlen. rewrite boxes_length. lia. }
    specialize (Hu Hn).
    set (h := mkHeader Universal false 4 (Definite (nlen (boxes k))) (Some [4])).
    assert (Ha : any_from_ber (boxes (S k) ++ []) = Ok ([], mkAny h (boxes k))).
    { apply any_from_ber_complete. exists (4 :: 136 :: to_be_bytes 8 (nlen (boxes k))), (boxes k).
      split; [reflexivity|]. split; [|split; [|reflexivity]].
      - exists [4], (136 :: to_be_bytes 8 (nlen (boxes k))). split; [reflexivity|].
        split; [apply (ident_low Universal false 4); lia|]. split; [|split; [reflexivity|discriminate]].
        change (h_length h) with (Definite (nlen (boxes k))). rewrite <- Hu at 1.
        replace 136 with (128 + N.of_nat (length (to_be_bytes 8 (nlen (boxes k))))) by (rewrite Hl; reflexivity).
        apply length_long; [lia|assumption|]. rewrite Hu. exact Hn.
      - unfold ASN1_MAX_RECURSION. eapply body_definite; reflexivity. }
    rewrite app_nil_r in Ha.
    exists (Obj h (COctetString (boxes k))). split; [|reflexivity].
    eapply parse_ber_intro; [exact Ha|]. reflexivity.
Qed.

Lemma boxes_found L k : N.of_nat (10 * k + 2) < 2 ^ 64 -> forall o d, parse_ber L (boxes k) = Ok ([], o) ->
  exists n, found L d o (d + k) n.
Proof.
  induction k as [|k IH]; intros Hk o d Ho.
  - exists o. rewrite Nat.add_0_r. constructor.
  - destruct (boxes_parse L (S k) Hk) as (o' & Ho' & Hs). rewrite Ho in Ho'. inv Ho'.
    destruct (boxes_parse L k) as (x & Hx & _); [lia|]. destruct (IH ltac:(lia) x (S d) Hx) as (n & Hn).
    exists n. replace (d + S k)%nat with (S d + k)%nat by lia.
    apply fo_octets with (s := boxes k) (os := [x]) (r := []) (e := None) (x := x);
      [exact Hs| |left; reflexivity|exact Hn].
    apply ro_next with []; [exact Hx|constructor].
Qed.

(** Any depth is reached. *)
Theorem C93_unlimited : forall L k, N.of_nat (10 * k + 2) < 2 ^ 64 ->
  exists data o n, length data = (10 * k + 2)%nat /\ file_object L true data [] o /\ found L 1 o (S k) n.
Proof.
  intros L k Hk. destruct (boxes_parse L k Hk) as (o & Ho & _).
  destruct (boxes_found L k Hk o 1 Ho) as (n & Hn). exists (boxes k), o, n.
  split; [apply boxes_length|]. split; assumption.
Qed.
Print Assumptions C93_unlimited.

(** The limit the parser observes does not hold for the program. *)
Theorem C93_depth_refuted : forall L, exists data o d n, file_object L true data [] o
  /\ found L 1 o d n /\ (MAX_RECURSION < d)%nat.
Proof.
  intros L. destruct (C93_unlimited L MAX_RECURSION) as (data & o & n & _ & Ho & Hn); [vm_compute; reflexivity|].
  exists data, o, (S MAX_RECURSION), n. split; [assumption|]. split; [assumption|lia].
Qed.
Print Assumptions C93_depth_refuted.

(** Two levels: a file of six octets may have three. *)
Example C93_ex : exists o n, file_object SL false [4; 4; 4; 2; 5; 0] [] o /\ found SL 1 o 3 n
  /\ o_content n = CNull /\ (2 * 3 = length [4; 4; 4; 2; 5; 0])%nat.
Proof.
  eexists. exists (Obj (mkHeader Universal false 5 (Definite 0) (Some [5])) CNull).
  split; [vm_compute; reflexivity|]. split; [|split; reflexivity].
  eapply fo_octets; [reflexivity|eapply ro_next; [vm_compute; reflexivity|apply ro_end]|left; reflexivity|].
  eapply fo_octets; [reflexivity|eapply ro_next; [vm_compute; reflexivity|apply ro_end]|left; reflexivity|].
  apply fo_self.
Qed.

(** ** C94 *)

Lemma trouble_left o d s e d' r : ~ In (RLeft d' r) (trouble o d s e).
Proof.
  unfold trouble. destruct e; [destruct (h_constructed _)|]; cbn [In]; intuition congruence.
Qed.
Lemma left_left o d r d' r' : In (RLeft d' r') (left_over o d r)
  <-> d' = d /\ r' = r /\ r <> [] /\ h_constructed (o_header o) = true.
Proof.
  unfold left_over. destruct r; [cbn [In]; intuition congruence|].
  destruct (h_constructed _); cbn [In]; split; intuition congruence.
Qed.

(** [remains L n r]: [r] is left of the octets of [n] after the objects in them. *)
Definition remains (L : leaves) (n : obj) (r : bytes) : Prop :=
  r <> [] /\ exists s os e, octets_of n = Some s /\ read_off L s os r e.

Lemma shown_left L :
  (forall d o rows, shown L d o rows -> forall d' r,
     In (RLeft d' r) rows <-> exists n, found L d o d' n /\ h_constructed (o_header n) = true /\ remains L n r)
  /\ (forall d os rows, shown_all L d os rows -> forall d' r,
     In (RLeft d' r) rows <-> exists x n, In x os /\ found L d x d' n
        /\ h_constructed (o_header n) = true /\ remains L n r).
Proof.
  apply shown_ind2.
  - intros d o below Ho _ IH d' r. cbn [In]. rewrite IH. split.
    + intros [E|(x & n & Hx & Hf & H)]; [discriminate|]. exists n. split; [eapply fo_member; eauto|assumption].
    + intros (n & Hf & Hc & Hr). right. inv Hf.
      * destruct Hr as (_ & s & os & e & Hs & _). congruence.
      * eauto 6.
      * congruence.
  - intros d o s r0 e Ho Hr d' r. cbn [In]. rewrite in_app_iff, left_left. split.
    + intros [E|[H|(-> & -> & Hn & Hc)]]; [discriminate|now apply trouble_left in H|].
      exists o. split; [constructor|]. split; [assumption|]. split; [assumption|eauto 6].
    + intros (n & Hf & Hc & Hre). right. right. inv Hf.
      * destruct Hre as (Hn & s' & os & e' & Hs & Hr'). assert (s' = s) as -> by congruence.
        destruct (read_off_fun _ _ _ _ _ Hr _ _ _ Hr') as (_ & -> & _). auto.
      * rewrite (members_octets _ _ Ho) in *. contradiction.
      * assert (s0 = s) as -> by congruence.
        match goal with H : read_off _ s _ _ _ |- _ => destruct (read_off_fun _ _ _ _ _ Hr _ _ _ H) as (-> & _) end.
        contradiction.
  - intros d o s x os r0 e rows Ho Hr _ IH d' r. cbn [In]. rewrite !in_app_iff. cbn [In].
    rewrite left_left, IH. split.
    + intros [E|[E|[(y & n & Hy & Hf & H)|[H|[E|(-> & -> & Hn & Hc)]]]]]; try discriminate.
      * exists n. split; [eapply fo_octets; eauto|assumption].
      * now apply trouble_left in H.
      * exists o. split; [constructor|]. split; [assumption|]. split; [assumption|eauto 6].
    + intros (n & Hf & Hc & Hre). right. right. inv Hf.
      * right. right. right. destruct Hre as (Hn & s' & os' & e' & Hs & Hr'). assert (s' = s) as -> by congruence.
        destruct (read_off_fun _ _ _ _ _ Hr _ _ _ Hr') as (_ & -> & _). auto.
      * rewrite (members_octets _ _ Ho) in *. contradiction.
      * assert (s0 = s) as -> by congruence.
        match goal with H : read_off _ s _ _ _ |- _ => destruct (read_off_fun _ _ _ _ _ Hr _ _ _ H) as (-> & _) end.
        left. eauto 6.
  - intros d d' r. split; [intros []|intros (x & n & [] & _)].
  - intros d o os a b _ IHa _ IHb d' r. rewrite in_app_iff, IHa, IHb. split.
    + intros [(n & H)|(x & n & Hx & H)]; [exists o, n; split; [now left|assumption]|exists x, n; split; [now right|assumption]].
    + intros (x & n & [->|Hx] & H); eauto.
Qed.

(** Proved part: octets left in constructed objects are reported, at the depth of the
    object, and nothing else is. *)
Theorem C94_left_partial : forall L d o rows, shown L d o rows -> forall d' r,
  In (RLeft d' r) rows <-> exists n, found L d o d' n /\ h_constructed (o_header n) = true /\ remains L n r.
Proof. intros L. apply shown_left. Qed.
Print Assumptions C94_left_partial.

(** An OCTET STRING that holds a NULL and one octet more: the NULL is shown as its
    contents, the other octet is not mentioned. *)
Theorem C94_left_refuted : forall L, exists data o n r rows, file_object L false data [] o
  /\ found L 1 o 1 n /\ remains L n r /\ shown L 1 o rows
  /\ (forall d s, ~ In (RLeft d s) rows) /\ (forall d e, ~ In (RError d e) rows).
Proof.
  intros L. set (h := mkHeader Universal false 4 (Definite 3) (Some [4])).
  set (o := Obj h (COctetString [5; 0; 255])).
  set (x := Obj (mkHeader Universal false 5 (Definite 0) (Some [5])) CNull).
  exists [4; 3; 5; 0; 255], o, o, [255].
  assert (Hr : exists e, read_off L [5; 0; 255] [x] [255] (Some e)).
  { eexists. eapply ro_next; [reflexivity|]. apply ro_stop; [discriminate|]. reflexivity. }
  destruct Hr as (e & Hr).
  exists [RObject 1 o; ROpen 1; RObject 2 x; RClose 1].
  split; [reflexivity|]. split; [apply fo_self|]. split; [split; [discriminate|exists [5; 0; 255], [x], (Some e); split; [reflexivity|exact Hr]]|]. split.
  - change [RObject 1 o; ROpen 1; RObject 2 x; RClose 1]
      with (RObject 1 o :: ROpen 1 :: ([RObject 2 x] ++ []) ++ trouble o 1 [5; 0; 255] (Some e)
              ++ RClose 1 :: left_over o 1 [255]).
    eapply sh_inside; [reflexivity|exact Hr|]. constructor; [|constructor].
    apply sh_plain; [reflexivity|]. constructor.
  - cbn [In]. split; intros; intuition congruence.
Qed.
Print Assumptions C94_left_refuted.

(** A constructed [1] whose octets are a NULL and one octet more. *)
Example C94_ex : exists o n, file_object SL false [161; 3; 5; 0; 255] [] o /\ found SL 1 o 1 n
  /\ h_constructed (o_header n) = true /\ remains SL n [255].
Proof.
  eexists. eexists. split; [vm_compute; reflexivity|]. split; [apply fo_self|]. split; [reflexivity|].
  split; [discriminate|]. do 3 eexists. split; [reflexivity|].
  eapply ro_next; [vm_compute; reflexivity|]. apply ro_stop; [discriminate|vm_compute; reflexivity].
Qed.
