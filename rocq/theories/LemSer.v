(** * Lemmas on the serializer. *)

From Verif Require Import Base Asn1rs Ber Serialize Spec SpecValue SpecComb SpecSer.
From Verif Require Import LemBase LemHeader LemSkip LemParse LemTree LemNode LemComb LemInt.

(** ** Induction on objects *)

Definition no_child (c : content) : Prop :=
  match c with
  | CSequence _ | CSet _ | COptional (Some _) | CTagged _ _ _ => False
  | _ => True
  end.

Lemma obj_content_ind (P : obj -> Prop) (Q : content -> Prop) :
  (forall h c, Q c -> P (Obj h c)) ->
  (forall l, Forall P l -> Q (CSequence l)) ->
  (forall l, Forall P l -> Q (CSet l)) ->
  (forall h c, Q c -> P (Obj h c) -> Q (COptional (Some (Obj h c)))) ->
  (forall k t o, P o -> Q (CTagged k t o)) ->
  (forall c, no_child c -> Q c) ->
  (forall o, P o) /\ (forall c, Q c).
Proof.
  intros H1 Hseq Hset Hopt Htag Hleaf.
  assert (HP : forall o, P o).
  { fix IHo 1. intros [h c]. apply H1. revert c. fix IHc 1. intros c.
    destruct c as [| | | | | | | | | | | |l|l| | |o| |]; try (apply Hleaf; exact I).
    - apply Hseq. induction l as [|x l IHl]; constructor; [apply IHo|exact IHl].
    - apply Hset. induction l as [|x l IHl]; constructor; [apply IHo|exact IHl].
    - destruct o as [[h' c']|]; [|apply Hleaf; exact I]. apply Hopt; [apply IHc|apply H1, IHc].
    - apply Htag, IHo. }
  split; [exact HP|]. fix IHc 1. intros c.
  destruct c as [| | | | | | | | | | | |l|l| | |o| |]; try (apply Hleaf; exact I).
  - apply Hseq. apply Forall_forall. auto.
  - apply Hset. apply Forall_forall. auto.
  - destruct o as [[h' c']|]; [|apply Hleaf; exact I]. apply Hopt; [apply IHc|apply H1, IHc].
  - apply Htag, HP.
Qed.

(** ** Numbers *)

Lemma to_be_bytes_spec k : forall n, length (to_be_bytes k n) = k /\ bytes_ok (to_be_bytes k n)
  /\ (n < pw k -> unsigned (to_be_bytes k n) = n).
Proof.
  induction k as [|k IH]; intros n; cbn [to_be_bytes].
  - split; [reflexivity|]. split; [constructor|]. unfold pw. cbn. lia.
  - destruct (IH (n / 256)) as (Hl & Ho & Hu). split; [rewrite app_length, Hl; cbn; lia|].
    split; [apply bytes_ok_app; split; [assumption|]; apply bytes_ok_cons; split; [lia|constructor]|].
    intros Hn. rewrite pw_S in Hn. rewrite unsigned_app, Hu by lia. cbn [length].
    change (256 ^ N.of_nat 1) with 256. unfold unsigned. cbn [digits_value length].
    change (256 ^ N.of_nat 0) with 1. lia.
Qed.

Lemma skip_zeroes_trim s : skip_zeroes s = trim_slice s.
Proof. induction s as [|b s IH]; [reflexivity|]. cbn [skip_zeroes trim_slice]. destruct b; [exact IH|reflexivity]. Qed.

Lemma skip_zeroes_length s : (length (skip_zeroes s) <= length s)%nat.
Proof. induction s as [|b s IH]; [constructor|]. cbn [skip_zeroes]. destruct (b =? 0); cbn [length]; lia. Qed.

(** The minimal unsigned octets of a number below 2^64. *)
Lemma min_octets n : n < 2 ^ 64 ->
  let v := skip_zeroes (to_be_bytes 8 n) in
  bytes_ok v /\ unsigned v = n /\ (length v <= 8)%nat
  /\ (forall k, length v = S k -> pw k <= n).
Proof.
  intros Hn v. unfold v. destruct (to_be_bytes_spec 8 n) as (Hl & Ho & Hu).
  pose proof (skip_zeroes_length (to_be_bytes 8 n)) as Hs. rewrite Hl in Hs. rewrite skip_zeroes_trim in *.
  destruct (trim_slice_spec _ Ho) as (E & Ho' & Hk). rewrite (Hu Hn) in *.
  split; [assumption|]. split; [assumption|]. split; [assumption|]. exact Hk.
Qed.

Lemma lor_128 n : n < 128 -> N.lor 128 n = 128 + n.
Proof.
  intros H. assert (Hall : forallb (fun k => N.lor 128 (N.of_nat k) =? 128 + N.of_nat k) (seq 0 128) = true)
    by (vm_compute; reflexivity).
  rewrite forallb_forall in Hall. specialize (Hall (N.to_nat n)).
  rewrite N2Nat.id in Hall. apply N.eqb_eq, Hall, in_seq. lia.
Qed.

Lemma encode_length_spec n : n < 2 ^ 64 -> exists lb, encode_length (Definite n) = Ok lb
  /\ length_octets (Definite n) lb /\ bytes_ok lb
  /\ forall lb', length_octets (Definite n) lb' -> (length lb <= length lb')%nat.
Proof.
  intros Hn. unfold encode_length. destruct (n <=? 127) eqn:E.
  - exists [n]. split; [reflexivity|]. split; [constructor; lia|].
    split; [apply bytes_ok_cons; split; [lia|constructor]|].
    intros lb' H. inv H; cbn [length]; lia.
  - destruct (min_octets n Hn) as (Ho & Hu & Hl & Hk). cbv zeta in *.
    set (v := skip_zeroes (to_be_bytes 8 n)) in *. clearbody v.
    assert (Hv : (1 <= length v)%nat).
    { destruct v as [|b v']; [|cbn; lia]. unfold unsigned in Hu. cbn in Hu. lia. }
    assert (Eb : N.lor 128 (nlen v mod 256) = 128 + N.of_nat (length v)).
    { unfold nlen. rewrite N.mod_small by lia. apply lor_128. lia. }
    rewrite Eb. exists (128 + N.of_nat (length v) :: v). split; [reflexivity|]. split; [|split].
    + rewrite <- Hu at 1. apply length_long; [lia|assumption|lia].
    + apply bytes_ok_cons. split; [lia|assumption].
    + intros lb' H. inversion H as [m Hm|ds Hds Hok' Hlt Em|]; subst; [lia|]. cbn [length].
      destruct (length v) as [|k] eqn:Ev; [lia|]. specialize (Hk k eq_refl).
      pose proof (unsigned_pw _ Hok') as Hd.
      assert (~ (length ds <= k)%nat); [|lia]. intros Hle. pose proof (pw_mono _ _ Hle). lia.
Qed.

Lemma leading_octet_eq c (pc : bool) t : t <= 30 ->
  N.lor (N.lor (N.shiftl (class_to_u8 c) 6) (N.shiftl (if pc then 1 else 0) 5)) (t mod 256) = leading_octet c pc t
  /\ leading_octet c pc t < 256.
Proof.
  intros H.
  assert (Hall : forallb (fun k =>
    (N.lor (N.lor (N.shiftl (class_to_u8 c) 6) (N.shiftl (if pc then 1 else 0) 5)) (N.of_nat k mod 256)
       =? leading_octet c pc (N.of_nat k)) && (leading_octet c pc (N.of_nat k) <? 256)) (seq 0 31) = true)
    by (destruct c, pc; vm_compute; reflexivity).
  rewrite forallb_forall in Hall. specialize (Hall (N.to_nat t)).
  rewrite N2Nat.id in Hall.
  assert (Hi : In (N.to_nat t) (seq 0 31)) by (apply in_seq; lia).
  apply Hall in Hi. apply andb_prop in Hi as [H1 H2]. apply N.eqb_eq in H1. split; [assumption|lia].
Qed.

(** The identifier octet as written, as [raw_tag] when read back. *)
Definition read_back (h : header) (n : blen) : header :=
  mkHeader (h_class h) (h_constructed h) (h_tag h) n
    (Some [leading_octet (h_class h) (h_constructed h) (h_tag h)]).

Lemma encode_header_spec h n : h_tag h <= 30 -> h_length h = Definite n -> n < 2 ^ 64 ->
  exists hb, ber_encode_header h = Ok hb /\ header_octets (read_back h (Definite n)) hb /\ bytes_ok hb.
Proof.
  intros Ht Hl Hn. unfold ber_encode_header. destruct (30 <? h_tag h) eqn:E; [lia|].
  destruct (leading_octet_eq (h_class h) (h_constructed h) (h_tag h) Ht) as [Eo Ho]. rewrite Eo.
  destruct (encode_length_spec n Hn) as (lb & El & Hlb & Hok & _). rewrite Hl, El.
  exists (leading_octet (h_class h) (h_constructed h) (h_tag h) :: lb). split; [reflexivity|]. split.
  - exists [leading_octet (h_class h) (h_constructed h) (h_tag h)], lb. split; [reflexivity|].
    cbn [read_back h_class h_constructed h_tag h_length h_raw_tag].
    split; [apply ident_low; lia|]. split; [assumption|]. split; [reflexivity|discriminate].
  - apply bytes_ok_cons. auto.
Qed.

Lemma encode_header_ok h hb : ber_encode_header h = Ok hb -> h_tag h <= 30.
Proof. unfold ber_encode_header. destruct (30 <? h_tag h) eqn:E; [discriminate|lia]. Qed.

Lemma with_header_ok h g bs : with_header h g = Ok bs ->
  exists v hb, g = Ok v /\ ber_encode_header (with_length h (Definite (nlen v))) = Ok hb /\ bs = hb ++ v /\ h_tag h <= 30.
Proof.
  unfold with_header. intros H. bind_inv H. bind_inv H. inv H. exists a, a0. split; [reflexivity|].
  split; [assumption|]. split; [reflexivity|]. apply encode_header_ok in E0. exact E0.
Qed.

(** An object written with its header is a definite element. *)
Lemma with_header_element h g bs : with_header h g = Ok bs -> nlen bs < 2 ^ 64 ->
  exists v, g = Ok v /\ nlen v < 2 ^ 64 /\ definite_element (read_back h (Definite (nlen v))) v bs
    /\ (bytes_ok v -> bytes_ok bs).
Proof.
  intros H Hn. apply with_header_ok in H as (v & hb & Eg & Eh & -> & Ht). unfold nlen in *. rewrite app_length in Hn.
  exists v. split; [assumption|]. split; [lia|].
  destruct (encode_header_spec (with_length h (Definite (N.of_nat (length v)))) (N.of_nat (length v)))
    as (hb' & Eh' & Hh & Hok); [exact Ht|reflexivity|lia|].
  rewrite Eh in Eh'. injection Eh' as ->. split.
  - exists hb'. split; [reflexivity|]. split; [exact Hh|reflexivity].
  - intros Hv. apply bytes_ok_app. auto.
Qed.

Lemma gen_seq_ok a b v : gen_seq a b = Ok v -> exists x y, a = Ok x /\ b = Ok y /\ v = x ++ y.
Proof. unfold gen_seq. intros H. bind_inv H. bind_inv H. inv H. eauto. Qed.

(** ** Well-formed objects read back *)

Lemma erase_read_back h n : erase_h (read_back h n) = erase_h h.
Proof. reflexivity. Qed.

Lemma leaf_tag_mapped k t : variant_tag k = Some t -> In t mapped_tags.
Proof. destruct k as [| | | | | | | | |k| | | | | | | | |]; intros H; inv H; try (cbn; tauto). destruct k; cbn; tauto. Qed.

(** A leaf content reads back as itself. *)
Lemma leaf_value L d h k v : h_class h = Universal -> variant_tag k = Some (h_tag h) -> leaf_ok L (h_constructed h) k ->
  ber_encode_object_content L k = Ok v -> h_length h = Definite (nlen v) ->
  value L (S d) h v k /\ bytes_ok v.
Proof.
  intros Hc Ht Hk Hv Hl.
  destruct k as [|b|s|u s|s| |n|[rel s]|[rel s]|k s|s|s|l|l|t|t|o|c t o|a]; cbn [leaf_ok] in Hk; try contradiction;
    cbn [ber_encode_object_content] in Hv; injection Ht as Ht.
  - inv Hv. split; [apply v_end_of_content; auto|bok].
  - inv Hv. cbn in Hl. split; [|destruct b; bok].
    replace b with (negb ((if b then 255 else 0) =? 0)) at 2 by (destruct b; reflexivity).
    apply v_boolean; auto.
  - inv Hv. split; [apply v_integer; auto|assumption].
  - unfold gen_seq in Hv. cbn [bind] in Hv. inv Hv. destruct Hk as (Hp & Hu & Hs). cbn [app].
    split; [apply v_bit_string; auto|apply bytes_ok_cons; auto].
  - inv Hv. split; [apply v_octet_string; auto|assumption].
  - inv Hv. split; [apply v_null; auto|constructor].
  - assert (Hv' : skip_zeroes (to_be_bytes 8 n) = v) by congruence. clear Hv. destruct Hk as (Hp & Hn).
    destruct (min_octets n) as (Ho & Hu & _ & _).
    { eapply N.lt_trans; [exact Hn|reflexivity]. }
    cbv zeta in *. rewrite Hv' in *. split; [|assumption]. rewrite <- Hu. apply v_enumerated; auto. now rewrite Hu.
  - cbn in Hv. inv Hv. destruct Hk as (-> & Hs & Hk). split; [|assumption].
    apply v_oid; auto. now rewrite Hl.
  - cbn in Hv. inv Hv. destruct Hk as (-> & Hs & Hk). split; [|assumption].
    apply v_relative_oid; auto. now rewrite Hl.
  - inv Hv. destruct Hk as (Hp & Hs & Hr & Hu). split; [apply v_string; auto|assumption].
  - inv Hv. destruct Hk as (Hp & Hs & Hu). split; [apply v_bmp_string; auto|assumption].
  - inv Hv. destruct Hk as (Hp & Hs). split; [apply v_universal_string; auto|assumption].
  - cbn in Hv. inv Hv. destruct Hk as (Hs & Hk). split; [|assumption]. apply v_utc_time; auto. now rewrite Hl.
  - cbn in Hv. inv Hv. destruct Hk as (Hs & Hk). split; [|assumption]. apply v_generalized_time; auto. now rewrite Hl.
Qed.

(** [reads_back L d o bs]: [bs] is a definite-length element denoting an
    object that is [o] up to lengths and raw tags. *)
Definition reads_back L d o bs : Prop :=
  exists o' c, definite_element (o_header o') c bs /\ value L d (o_header o') c (o_content o')
    /\ erase o' = erase o /\ bytes_ok bs.

Lemma gen_many_series L d l v :
  (forall o bs, In o l -> ber_encode_object L o = Ok bs -> nlen bs < 2 ^ 64 -> reads_back L d o bs) ->
  gen_many (ber_encode_object L) l = Ok v -> nlen v < 2 ^ 64 ->
  exists l', series L d v l' /\ map erase l' = map erase l /\ bytes_ok v.
Proof.
  revert v. induction l as [|o l IH]; intros v Ho H Hn.
  - inv H. exists []. split; [constructor|]. split; [reflexivity|constructor].
  - cbn [gen_many] in H. apply gen_seq_ok in H as (x & y & Ex & Ey & ->).
    unfold nlen in *. rewrite app_length in Hn.
    destruct (IH y) as (l' & Hs & Em & Hok); [intros; apply Ho; [now right|assumption|assumption]|assumption|lia|].
    destruct (Ho o x (or_introl eq_refl) Ex) as (o' & c & He & Hv & Ee & Hx); [lia|].
    exists (o' :: l'). split; [|split].
    + destruct o' as [h k]. eapply s_cons; eauto. now apply definite_is_element.
    + cbn [map]. now rewrite Ee, Em.
    + apply bytes_ok_app. auto.
Qed.

Lemma encode_reads_back L d : forall o bs, well_formed L d o ->
  ber_encode_object L o = Ok bs -> nlen bs < 2 ^ 64 -> reads_back L d o bs.
Proof.
  induction d as [|d IH]; intros o bs Hw H Hn; [inversion Hw|].
  destruct o as [h k]. cbn [ber_encode_object] in H.
  destruct (with_header_element _ _ _ H Hn) as (v & Eg & Hvn & He & Hok).
  inversion Hw as [d0 h0 k0 Hc Ht Hk|d0 h0 a Hc Ha Hb|d0 h0 l Hc Ht Hp Hl|d0 h0 l Hc Ht Hp Hl]; subst.
  - destruct (leaf_value L d (read_back h (Definite (nlen v))) k v) as [Hv Hvo]; auto.
    exists (Obj (read_back h (Definite (nlen v))) k), v. split; [exact He|]. split; [exact Hv|].
    split; [reflexivity|auto].
  - cbn in Eg. inv Eg. exists (Obj (read_back h (Definite (nlen (a_data a)))) (CUnknown (mkAny (read_back h (Definite (nlen (a_data a)))) (a_data a)))), (a_data a).
    split; [exact He|]. split; [|split; [|auto]].
    + cbn [o_header o_content]. destruct (class_eqb (h_class h) Universal) eqn:Ec.
      * apply v_unmapped.
        -- cbn. destruct (h_class h); auto; discriminate.
        -- destruct Hc as [Hc|Hc]; [destruct (h_class h); auto; discriminate|exact Hc].
      * apply v_other_class. cbn. destruct (h_class h); discriminate.
    + cbn [erase erase_content a_header a_data]. now rewrite erase_read_back, Ha.
  - cbn [ber_encode_object_content] in Eg.
    apply gen_many_series with (d := d) in Eg as (l' & Hs & Em & Hvo); [| |assumption].
    + exists (Obj (read_back h (Definite (nlen v))) (CSequence l')), v. split; [exact He|].
      split; [apply v_sequence; auto|]. split; [cbn; now rewrite Em|auto].
    + intros o bs' Hi Hb Hbn. apply IH; auto. rewrite Forall_forall in Hl. auto.
  - cbn [ber_encode_object_content] in Eg.
    apply gen_many_series with (d := d) in Eg as (l' & Hs & Em & Hvo); [| |assumption].
    + exists (Obj (read_back h (Definite (nlen v))) (CSet l')), v. split; [exact He|].
      split; [apply v_set; auto|]. split; [cbn; now rewrite Em|auto].
    + intros o bs' Hi Hb Hbn. apply IH; auto. rewrite Forall_forall in Hl. auto.
Qed.

(** ** Panics *)

Lemma gen_total L : (forall o, (exists bs, ber_encode_object L o = Ok bs) \/ ber_encode_object L o = Panic)
  /\ (forall c, (exists bs, ber_encode_object_content L c = Ok bs) \/ ber_encode_object_content L c = Panic).
Proof.
  assert (Hmany : forall l, Forall (fun o => (exists bs, ber_encode_object L o = Ok bs) \/ ber_encode_object L o = Panic) l ->
     (exists bs, gen_many (ber_encode_object L) l = Ok bs) \/ gen_many (ber_encode_object L) l = Panic).
  { induction 1 as [|o l [(x & Ex)|Ex] _ [(y & Ey)|Ey]]; cbn [gen_many]; [left; eauto| | | |];
      unfold gen_seq; rewrite Ex; cbn [bind]; try rewrite Ey; cbn [bind]; eauto. }
  apply obj_content_ind.
  - intros h c [(v & Ev)|Ev]; cbn [ber_encode_object]; unfold with_header; rewrite Ev; cbn [bind]; [|right; reflexivity].
    unfold ber_encode_header. destruct (30 <? _); [right; reflexivity|].
    left. cbn [with_length h_length encode_length]. destruct (nlen v <=? 127); eexists; reflexivity.
  - exact Hmany.
  - exact Hmany.
  - intros h c Hc _. exact Hc.
  - intros k t o Ho. exact Ho.
  - intros c Hc. left. destruct c as [| | | | | | | | | | | | | | | |[o|]| |]; try contradiction; eexists; reflexivity.
Qed.

Lemma gen_many_panic L l :
  (forall o, In o l -> ber_encode_object L o = Panic <-> exists h, written h o /\ 30 < h_tag h) ->
  gen_many (ber_encode_object L) l = Panic <-> exists x h, In x l /\ written h x /\ 30 < h_tag h.
Proof.
  induction l as [|o l IH]; intros H.
  - split; [discriminate|intros (x & h & [] & _)].
  - cbn [gen_many]. unfold gen_seq. destruct (proj1 (gen_total L) o) as [(x & Ex)|Ex].
    + rewrite Ex. cbn [bind].
      assert (E : (let* y := gen_many (ber_encode_object L) l in Ok (x ++ y)) = Panic
                  <-> gen_many (ber_encode_object L) l = Panic)
        by (destruct (gen_many (ber_encode_object L) l); cbn [bind]; split; congruence).
      rewrite E, IH by (intros; apply H; now right). split.
      * intros (y & h & Hi & Hw). exists y, h. split; [now right|assumption].
      * intros (y & h & [<-|Hi] & Hw); [|exists y, h; auto].
        exfalso. assert (Hp : ber_encode_object L o = Panic) by (apply H; [now left|eauto]). congruence.
    + rewrite Ex. cbn [bind]. split; [|reflexivity]. intros _.
      apply H in Ex as (h & Hw & Ht); [|now left]. exists o, h. split; [now left|auto].
Qed.

Lemma panic_iff L :
  (forall o, ber_encode_object L o = Panic <-> exists h, written h o /\ 30 < h_tag h)
  /\ (forall c, ber_encode_object_content L c = Panic <-> exists h, written_in h c /\ 30 < h_tag h).
Proof.
  apply obj_content_ind.
  - intros h c IH. cbn [ber_encode_object]. unfold with_header.
    destruct (proj2 (gen_total L) c) as [(v & Ev)|Ev]; rewrite Ev in *; cbn [bind].
    + assert (E : (let* v_hdr := ber_encode_header (with_length h (Definite (nlen v))) in Ok (v_hdr ++ v)) = Panic
                  <-> 30 < h_tag h).
      { unfold ber_encode_header. cbn [with_length h_tag]. destruct (30 <? h_tag h) eqn:E; [split; [lia|reflexivity]|].
        split; [|lia]. cbn [with_length h_length encode_length]. destruct (nlen v <=? 127); discriminate. }
      rewrite E. split.
      * intros Ht. exists h. split; [constructor|assumption].
      * intros (h' & Hw & Ht). inv Hw; [assumption|]. exfalso.
        assert (Hp : @Ok unit bytes v = Panic) by (apply IH; eauto). discriminate.
    + split; [|reflexivity]. intros _. destruct (proj1 IH eq_refl) as (h' & Hw & Ht).
      exists h'. split; [now apply written_inside|assumption].
  - intros l Hl. cbn [ber_encode_object_content]. rewrite Forall_forall in Hl. rewrite gen_many_panic by assumption. split.
    + intros (x & h & Hi & Hw & Ht). exists h. split; [|assumption]. now apply written_seq with x.
    + intros (h & Hw & Ht). inv Hw. eauto.
  - intros l Hl. cbn [ber_encode_object_content]. rewrite Forall_forall in Hl. rewrite gen_many_panic by assumption. split.
    + intros (x & h & Hi & Hw & Ht). exists h. split; [|assumption]. now apply written_set with x.
    + intros (h & Hw & Ht). inv Hw. eauto.
  - intros h c Hc _. cbn [ber_encode_object_content]. rewrite Hc. split; intros (h' & Hw & Ht); exists h'.
    + split; [now constructor|assumption].
    + inv Hw. auto.
  - intros k t o Ho. cbn [ber_encode_object_content]. rewrite Ho. split; intros (h' & Hw & Ht); exists h'.
    + split; [now constructor|assumption].
    + inv Hw. auto.
  - intros c Hc. split.
    + destruct c as [| | | | | | | | | | | | | | | |[o|]| |]; try contradiction; discriminate.
    + intros (h & Hw & _). inv Hw; contradiction.
Qed.

(** ** Erasure *)

Lemma gen_many_ext {A B} (f : A -> gen) (g : B -> gen) (m : A -> B) l :
  Forall (fun x => g (m x) = f x) l -> gen_many g (map m l) = gen_many f l.
Proof. induction 1 as [|x l Hx _ IH]; [reflexivity|]. cbn [map gen_many]. now rewrite Hx, IH. Qed.

Lemma encode_erase L : (forall o, ber_encode_object L (erase o) = ber_encode_object L o)
  /\ (forall c, ber_encode_object_content L (erase_content c) = ber_encode_object_content L c).
Proof.
  apply obj_content_ind.
  - intros h c Hc. cbn [erase ber_encode_object]. rewrite Hc. reflexivity.
  - intros l Hl. cbn [erase_content ber_encode_object_content]. now apply gen_many_ext.
  - intros l Hl. cbn [erase_content ber_encode_object_content]. now apply gen_many_ext.
  - intros h c Hc _. exact Hc.
  - intros k t o Ho. exact Ho.
  - intros c Hc. destruct c as [| | | | | | | | | | | | | | | |[o|]| |]; try contradiction; reflexivity.
Qed.

Lemma encode_same L o o' : erase o = erase o' -> ber_encode_object L o = ber_encode_object L o'.
Proof. intros H. rewrite <- (proj1 (encode_erase L) o), <- (proj1 (encode_erase L) o'). now rewrite H. Qed.

(** ** Decoded objects are well-formed *)

Lemma no_times_in o x : no_times o -> (forall n, node n x -> node n o) -> no_times x.
Proof. intros H Hn n t Hx. apply H. auto. Qed.

Lemma value_well_formed L : length_blind L ->
  (forall d h c k, value L d h c k -> bytes_ok c -> no_times (Obj h k) -> well_formed L d (Obj h k))
  /\ (forall d c l, series L d c l -> bytes_ok c -> (forall x, In x l -> no_times x) -> Forall (well_formed L d) l).
Proof.
  intros HL. apply (value_series_ind L
    (fun d h c k _ => bytes_ok c -> no_times (Obj h k) -> well_formed L d (Obj h k))
    (fun d c l _ => bytes_ok c -> (forall x, In x l -> no_times x) -> Forall (well_formed L d) l)).
  - intros d h c Hc Hok _. apply wf_unknown; auto.
  - intros d h c Hc Hn Hok _. apply wf_unknown; auto.
  - intros d h c Hc Ht Hok _. apply wf_leaf; [assumption|now rewrite Ht|exact I].
  - intros d h b Hc Ht Hl Hok _. apply wf_leaf; [assumption|now rewrite Ht|exact I].
  - intros d h c Hc Ht Hok _. apply wf_leaf; [assumption|now rewrite Ht|exact Hok].
  - intros d h u c Hc Ht Hp Hok _. apply bytes_ok_cons in Hok as [Hu Hok].
    apply wf_leaf; [assumption|now rewrite Ht|cbn; auto].
  - intros d h c Hc Ht Hok _. apply wf_leaf; [assumption|now rewrite Ht|exact Hok].
  - intros d h c Hc Ht Hok _. apply wf_leaf; [assumption|now rewrite Ht|exact I].
  - intros d h c Hc Ht Ho Hok _. apply wf_leaf; [assumption|now rewrite Ht|].
    cbn. split; [reflexivity|]. split; [assumption|]. eapply HL, Ho.
  - intros d h c Hc Ht Hp Hu Hok _. apply wf_leaf; [assumption|now rewrite Ht|cbn; auto].
  - intros d h c Hc Ht Ho Hok _. apply wf_leaf; [assumption|now rewrite Ht|].
    cbn. split; [reflexivity|]. split; [assumption|]. eapply HL, Ho.
  - intros d h c l Hc Ht Hp Hs IH Hok Hn. apply wf_sequence; auto. apply IH; [assumption|].
    intros x Hx. eapply no_times_in; [exact Hn|]. intros n Hx'. eapply node_seq; eauto.
  - intros d h c l Hc Ht Hp Hs IH Hok Hn. apply wf_set; auto. apply IH; [assumption|].
    intros x Hx. eapply no_times_in; [exact Hn|]. intros n Hx'. eapply node_set; eauto.
  - intros d h c t Hc Ht Hv Hok Hn. exfalso. destruct (Hn _ t (node_self _)) as [Hn' _]. now apply Hn'.
  - intros d h c t Hc Ht Hv Hok Hn. exfalso. destruct (Hn _ t (node_self _)) as [_ Hn']. now apply Hn'.
  - intros d h c Hc Ht Hp Hok _. apply wf_leaf; [assumption|now rewrite Ht|cbn; auto].
  - intros d h c Hc Ht Hp Hu Hok _. apply wf_leaf; [assumption|now rewrite Ht|cbn; auto].
  - intros d h k c Hc Ht Hp Hr Hu Hok _. apply wf_leaf; [assumption|now rewrite Ht|cbn; auto].
  - intros d _ _. constructor.
  - intros d bs h c k rest l He Hv IHv Hs IHs Hok Hn. apply bytes_ok_app in Hok as [Hb Hr]. constructor.
    + apply IHv; [|apply Hn; now left]. destruct He as (hb & b & -> & _ & _ & ->).
      apply bytes_ok_app in Hb as [_ Hb]. eapply subslice_ok; [apply content_octets_sub|exact Hb].
    + apply IHs; [assumption|]. intros x Hx. apply Hn. now right.
Qed.
