(** * C110: reading from a stream *)

From Coq Require Import String.
From Verif Require Import Base Asn1rs Ber Der Conformance Spec SpecValue SpecComb SpecError.
From Verif Require Import LemBase LemHeader LemSkip LemParse LemDer LemComb LemTree LemNode LemFrame.
From Verif Require Import PropTotal PropFraming PropIndef PropTyped PropError PropPrograms.
Local Open Scope string_scope. Local Open Scope N_scope. Local Open Scope list_scope.

(** ** Two loops that feed a reader from a stream

    What a program does that obtains its input piece by piece and calls a reader
    whenever it has got more: lib.rs:134-135 "All functions return [...] the parsed
    BerObject, an Incomplete value, or an error". *)

Inductive fed (A S : Type) :=
| Answer (x : iresult berror A) (unread : S)   (* the reader did not ask for more *)
| Starved.                                     (* it did, and there is no more *)
Arguments Answer {A S}.
Arguments Starved {A S}.

(** The pieces come as they come; the number asked for is ignored. *)
Fixpoint by_chunks {A} (f : bytes -> iresult berror A) (buf : bytes) (chunks : list bytes) : fed A (list bytes) :=
  match f buf with
  | Err (Incomplete _) =>
      match chunks with
      | [] => Starved
      | c :: cs => by_chunks f (buf ++ c) cs
      end
  | x => Answer x chunks
  end.

(** As many octets are fetched as the reader asks for. *)
Fixpoint on_demand {A} (f : bytes -> iresult berror A) (fuel : nat) (buf stream : bytes) : fed A bytes :=
  match f buf with
  | Err (Incomplete (Some n)) =>
      if N.of_nat (length stream) <? n then Starved
      else match fuel with
           | O => Starved
           | S fuel => on_demand f fuel (buf ++ firstn (N.to_nat n) stream) (skipn (N.to_nat n) stream)
           end
  | x => Answer x stream
  end.

(** What the reader says if the octets [y] follow. *)
Definition with_more {A} (x : iresult berror A) (y : bytes) : iresult berror A :=
  match x with
  | Ok (r, v) => Ok (r ++ y, v)
  | e => e
  end.

(** ** What is an error stays one *)

Lemma leading_octet_31 c pc : leading_octet c pc 31 mod 32 = 31.
Proof. unfold leading_octet. destruct c, pc; reflexivity. Qed.

Definition stays (fault : bytes -> nerr berror -> Prop) : Prop :=
  forall i x e, fault i (Error e) -> fault (i ++ x) (Error e) \/ (e = InvalidTag /\ cut_tag i).

Lemma ident_fault_stays : stays ident_fault.
Proof.
  intros i x e H. inversion H as [|c pc rest Hf]; subst.
  destruct (Nat.le_gt_cases 5 (length rest)) as [Hl|Hl].
  - left. cbn [app]. apply if_unending. rewrite firstn_app.
    replace (5 - length rest)%nat with 0%nat by lia. rewrite firstn_O, app_nil_r. exact Hf.
  - right. split; [reflexivity|]. exists [], (leading_octet c pc 31), rest.
    split; [reflexivity|]. split; [apply leading_octet_31|]. rewrite firstn_all2 in Hf by lia. exact Hf.
Qed.

Lemma length_fault_stays der pc i x e : length_fault der pc i (Error e) -> length_fault der pc (i ++ x) (Error e).
Proof.
  intros H. inversion H; subst; cbn [app]; rewrite <- ?app_assoc; now constructor.
Qed.

Lemma header_fault_stays der : stays (header_fault der).
Proof.
  intros i x e H. inversion H as [? ? Hi|c pc t ib i' ? Hi Hl]; subst.
  - destruct (ident_fault_stays _ x _ Hi) as [Hx|Hx]; [left; now apply hf_ident|now right].
  - left. rewrite <- app_assoc. eapply hf_length; [exact Hi|]. now apply length_fault_stays.
Qed.

Lemma body_fault_stays x :
  (forall d h i ne, body_fault d h i ne -> forall e, ne = Error e ->
     body_fault d h (i ++ x) (Error e) \/ (e = InvalidTag /\ cut_tag i))
  /\ (forall d i ne, until_fault d i ne -> forall e, ne = Error e ->
     until_fault d (i ++ x) (Error e) \/ (e = InvalidTag /\ cut_tag i)).
Proof.
  apply body_until_ind.
  - intros h i e E. inv E. left. constructor.
  - intros d h n i _ _ e E. discriminate.
  - intros d h i Hl Hp e E. inv E. left. now apply bf_primitive.
  - intros d h i ne Hl Hp Hu IH e E. destruct (IH e E) as [H|H]; [left; now apply bf_inside|now right].
  - intros d i ne Hf e ->. destruct (header_fault_stays _ _ x _ Hf) as [H|H]; [left; now apply uf_header|now right].
  - intros d h hb i ne Hh _ IH e E. rewrite <- app_assoc.
    destruct (IH e E) as [H|[He H]]; [left; now apply (uf_body _ h)|right; split; [exact He|now apply cut_tag_app]].
  - intros d h hb b i ne Hh Hn Hb _ IH e E. rewrite <- !app_assoc.
    destruct (IH e E) as [H|[He H]]; [left; now apply (uf_later _ h)|right; split; [exact He|now apply cut_tag_app, cut_tag_app]].
Qed.

Lemma element_fault_stays : stays element_fault.
Proof.
  intros i x e H. inversion H as [? ? Hf|h hb i' ? Hh Hb]; subst.
  - destruct (header_fault_stays _ _ x _ Hf) as [Hx|Hx]; [left; now apply ef_header|now right].
  - rewrite <- app_assoc. destruct (proj1 (body_fault_stays x) _ _ _ _ Hb _ eq_refl) as [Hx|[He Hx]].
    + left. now apply (ef_body h).
    + right. split; [exact He|now apply cut_tag_app].
Qed.

Lemma ber_fault_stays L d : stays (ber_fault L d).
Proof.
  intros i x e H. inversion H as [|d' ? ? Hf|d' h c bs rest ? He Hv]; subst.
  - left. constructor.
  - destruct (element_fault_stays _ x _ Hf) as [Hx|Hx]; [left; now apply rf_element|now right].
  - left. rewrite <- app_assoc. eapply rf_value; eauto.
Qed.

Lemma ber_content_fault_stays L t l pc d : stays (ber_content_fault L t l pc d).
Proof.
  intros i x e H. inversion H as [n ? Hl Hn|n ? Hl Hm Hn|? ? Hl Hb|n c r Hl Hm Hn Hd|b r ? Hm Hb Hv]; subst.
  - left. eapply bc_large; eauto.
  - destruct (proj1 (body_fault_stays x) _ _ _ _ Hb _ eq_refl) as [Hx|Hx]; [left; now apply bc_indefinite|now right].
  - left. rewrite <- app_assoc. eapply bc_no_depth; eauto.
  - left. rewrite <- app_assoc. now apply bc_value.
Qed.

Lemma ber_tag_fault_stays L t : stays (ber_tag_fault L t).
Proof.
  intros i x e H. inversion H as [? ? Hf|h hb i' Hh Ht|h hb i' ? Hh Ht Hc]; subst.
  - destruct (header_fault_stays _ _ x _ Hf) as [Hx|Hx]; [left; now apply bt_header|now right].
  - left. rewrite <- app_assoc. now apply bt_tag.
  - rewrite <- app_assoc. destruct (ber_content_fault_stays _ _ _ _ _ _ x _ Hc) as [Hx|[He Hx]].
    + left. now apply (bt_content _ _ h).
    + right. split; [exact He|now apply cut_tag_app].
Qed.

Lemma der_check_fault_stays t pc c r x e :
  der_check_fault t pc c r (Error e) -> der_check_fault t pc c (r ++ x) (Error e).
Proof.
  intros H. inversion H as [| | | | | | | u c' r' Ht Hp Hu Hd| | |]; subst; try (now constructor).
  - apply (dk_bit_string_unused _ _ u); auto. rewrite app_assoc. destruct (c ++ r); [discriminate|exact Hd].
Qed.

Lemma der_content_fault_stays L t l pc d i x e :
  der_content_fault L t l pc d i (Error e) -> der_content_fault L t l pc d (i ++ x) (Error e).
Proof.
  intros H. inversion H as [? Hl|n ? Hl Hn|n c r ? Hl Hn Hc|n c r Hl Hn Ht Hc Hb|n c r ? Hl Hn Ht Hc Hb Hv]; subst;
    rewrite <- ?app_assoc.
  - now apply dc_indefinite.
  - eapply dc_check; [reflexivity|reflexivity|]. now apply der_check_fault_stays.
  - eapply dc_large; eauto.
  - eapply dc_value; eauto.
Qed.

Lemma der_tag_fault_stays L t : stays (der_tag_fault L t).
Proof.
  intros i x e H. inversion H as [? ? Hf|h hb i' Hh Hl Ht|h hb i' ? Hh Hl Ht Hc]; subst.
  - destruct (header_fault_stays _ _ x _ Hf) as [Hx|Hx]; [left; now apply dt_header|now right].
  - left. rewrite <- app_assoc. now apply dt_tag.
  - left. rewrite <- app_assoc. apply (dt_content _ _ h); auto. now apply der_content_fault_stays.
Qed.

Lemma der_fault_stays L d : stays (der_fault L d).
Proof.
  intros i x e H. inversion H as [? ? Hf|h hb n i' Hh Hl Hn|h hb n i' ? Hh Hl Hn Hc Hd|h hb n i' ? Hh Hl Hn Hc Hb]; subst.
  - destruct (header_fault_stays _ _ x _ Hf) as [Hx|Hx]; [left; now apply df_header|now right].
  - left. rewrite <- app_assoc. eapply df_large; eauto.
  - left. rewrite <- app_assoc. eapply df_content; eauto. now apply der_content_fault_stays.
  - rewrite <- app_assoc. destruct (proj1 (body_fault_stays x) _ _ _ _ Hb _ eq_refl) as [Hx|[He Hx]].
    + left. eapply df_body; eauto.
    + right. split; [exact He|now apply cut_tag_app].
Qed.

(** An error that is no request for more octets is final, unless the input stops inside
    a long-form tag. *)
Definition settled {A} (f : bytes -> iresult berror A) : Prop :=
  forall i x e, bytes_ok (i ++ x) -> f i = Err (Error e) ->
    f (i ++ x) = Err (Error e) \/ (e = InvalidTag /\ cut_tag i).

Lemma stays_settled {A} (f : bytes -> iresult berror A) fault :
  (forall i e, bytes_ok i -> (f i = Err e <-> fault i e)) -> stays fault -> settled f.
Proof.
  intros Hf Hs i x e Hok H. apply Hf in H; [|now apply bytes_ok_app in Hok].
  destruct (Hs _ x _ H) as [Hx|Hx]; [left; now apply Hf|now right].
Qed.

Theorem C110_errors : forall L d t,
  settled (fun i => parse_ber_recursive L i d) /\ settled (fun i => parse_ber_with_tag L i t)
  /\ settled (fun i => parse_der_with_tag L i t)
  /\ (no_unknown_tag L -> settled (fun i => parse_der_recursive L i d)).
Proof.
  intros L d t. repeat split; [| | |intros HL]; eapply stays_settled.
  - intros i e. apply C102_parse_ber.
  - apply ber_fault_stays.
  - intros i e. apply C102_with_tag.
  - apply ber_tag_fault_stays.
  - intros i e. apply C103_with_tag.
  - apply der_tag_fault_stays.
  - intros i e. now apply C103_parse_der.
  - apply der_fault_stays.
Qed.
Print Assumptions C110_errors.

(** ** Pieces of any size *)

(** Feeding pieces to [f] gives the answer that [f] gives for the whole stream, unless
    it gives up at a piece that stops inside a long-form tag. *)
Definition chunks_agree {A} (f : bytes -> iresult berror A) : Prop :=
  forall chunks, bytes_ok (concat chunks) ->
  match by_chunks f [] chunks with
  | Answer x unread => exists read, chunks = read ++ unread
      /\ f (concat read) = x
      /\ (f (concat chunks) = with_more x (concat unread)
          \/ (x = Err (Error InvalidTag) /\ cut_tag (concat read)))
  | Starved => exists n, f (concat chunks) = Err (Incomplete n)
  end.

Lemma chunks_agree_of {A} (f : bytes -> iresult berror A) :
  (forall i, bytes_ok i -> returns (f i)) -> (forall i, bytes_ok i -> soft (f i)) -> extends f -> settled f ->
  chunks_agree f.
Proof.
  intros Hr Hs He Hset chunks.
  assert (H : forall chunks done, bytes_ok (concat done ++ concat chunks) ->
    match by_chunks f (concat done) chunks with
    | Answer x unread => exists read, done ++ chunks = read ++ unread
        /\ f (concat read) = x
        /\ (f (concat (done ++ chunks)) = with_more x (concat unread)
            \/ (x = Err (Error InvalidTag) /\ cut_tag (concat read)))
    | Starved => exists n, f (concat (done ++ chunks)) = Err (Incomplete n)
    end); [|intros Hok; apply (H chunks [] Hok)].
  clear chunks. induction chunks as [|c cs IH]; intros done Hok.
  - cbn [by_chunks concat] in *. rewrite app_nil_r in *.
    destruct (Hr _ Hok) as [[[r v] E]|[e E]]; rewrite E.
    + exists done. rewrite app_nil_r. split; [reflexivity|]. split; [exact E|left]. cbn. now rewrite app_nil_r.
    + destruct e as [n|e|e]; [eauto| |now destruct (Hs _ Hok e)].
      exists done. rewrite app_nil_r. split; [reflexivity|]. split; [exact E|now left].
  - cbn [by_chunks]. assert (Hok1 : bytes_ok (concat done)) by now apply bytes_ok_app in Hok.
    destruct (Hr _ Hok1) as [[[r v] E]|[e E]]; rewrite E.
    + exists done. split; [reflexivity|]. split; [exact E|left]. rewrite concat_app. cbn [with_more]. now apply He.
    + destruct e as [n|e|e]; [| |now destruct (Hs _ Hok1 e)].
      * specialize (IH (done ++ [c])). rewrite concat_app in IH. cbn [concat] in IH. rewrite app_nil_r in IH.
        rewrite <- !app_assoc in IH. cbn [app] in IH. apply IH. exact Hok.
      * exists done. split; [reflexivity|]. split; [exact E|]. rewrite concat_app. cbn [with_more].
        destruct (Hset _ _ _ Hok E) as [Hx|[-> Hx]]; [now left|right; auto].
Qed.

Theorem C110_chunks : forall L d t,
  chunks_agree (fun i => parse_ber_recursive L i d) /\ chunks_agree (fun i => parse_ber_with_tag L i t)
  /\ chunks_agree (fun i => parse_der_with_tag L i t)
  /\ (no_unknown_tag L -> chunks_agree (fun i => parse_der_recursive L i d)).
Proof.
  intros L d t. destruct (C110_errors L d t) as (H1 & H2 & H3 & H4).
  assert (Hs : forall i, bytes_ok i -> soft (parse_ber_recursive L i d) /\ soft (parse_der_recursive L i d)
     /\ soft (parse_ber_with_tag L i t) /\ soft (parse_der_with_tag L i t)).
  { intros i Hok. destruct (C109_readers L i d t (Definite 0) false Hok) as (_ & _ & _ & A & B & C & D & _). auto. }
  repeat split; [| | |intros HL]; apply chunks_agree_of; auto; try (intros i Hok; now apply Hs).
  - intros i _. apply C01_parse_ber_recursive.
  - intros i x r v. apply C03_parse_ber.
  - intros i _. apply (C01_entry_points L i t).
  - intros i x r v. apply C03_with_tag.
  - intros i _. apply (C01_entry_points L i t).
  - intros i x r v. apply C03_with_tag.
  - intros i _. apply C01_parse_der_recursive.
  - intros i x r v. apply C03_parse_der.
Qed.
Print Assumptions C110_chunks.

(** ** As many octets as asked for *)

(** The identifier octets are a single octet. *)
Definition short_tag (i : bytes) : Prop := exists b i', i = b :: i' /\ b mod 32 <> 31.

(** A header cut short is incomplete, and no more is asked for than it lacks. *)
Lemma header_asks (hdr : bytes -> iresult berror header) h hb p q :
  hdr = header_from_ber \/ (hdr = header_from_der /\ h_length h <> Indefinite) ->
  header_octets h hb -> hb = p ++ q -> q <> [] ->
  (exists n, hdr p = Err (Incomplete (Some n)) /\ 1 <= n <= nlen q)
  \/ (hdr p = Err (Error InvalidTag) /\ cut_tag p /\ ~ short_tag hb).
Proof.
  intros Hd Hh E Hq.
  assert (Hcut : cut_short (nlen q) p (hdr p)).
  { destruct Hd as [->|[-> Hl]].
    - pose proof (header_from_ber_complete _ _ [] Hh) as Hd. rewrite app_nil_r, E in Hd.
      destruct (header_ber_cut _ _ _ _ Hd) as [(r' & H)|H]; [|exact H]. exfalso.
      pose proof (header_from_ber_app _ q _ _ H) as H'. rewrite Hd in H'. injection H' as H'.
      symmetry in H'. apply app_eq_nil in H' as [_ H']. contradiction.
    - pose proof (header_from_der_complete _ _ [] Hh Hl) as Hd. rewrite app_nil_r, E in Hd.
      destruct (header_der_cut _ _ _ _ Hd) as [(r' & H)|H]; [|exact H]. exfalso.
      pose proof (header_from_der_app _ q _ _ H) as H'. rewrite Hd in H'. injection H' as H'.
      symmetry in H'. apply app_eq_nil in H' as [_ H']. contradiction. }
  destruct Hcut as [H|[H Hc]]; [left; exact H|right]. split; [exact H|]. split; [exact Hc|].
  intros (b & i' & -> & Hb). destruct p as [|b' p]; [destruct Hd as [->|[-> _]]; discriminate|].
  cbn [app] in E. injection E as <- E.
  assert (Hlen : forall z j, z <> Err (Error InvalidTag) -> parse_length z j <> Err (Error InvalidTag)).
  { intros z [|b0 j] Hz Hj; [discriminate|]. cbn [parse_length] in Hj.
    destruct (b0 <? 128); [discriminate|]. destruct (b0 =? 128).
    { apply bind_err in Hj as [Hj|(? & _ & Hj)]; [contradiction|discriminate]. }
    destruct (b0 =? 255); [discriminate|]. apply bind_err in Hj as [Hj|([] & _ & Hj)].
    - unfold take_streaming in Hj. destruct (_ <? _); discriminate.
    - destruct (bytes_to_u64 _); discriminate. }
  assert (Hid : exists v, parse_identifier (b :: p) = Ok (p, v)).
  { cbn [parse_identifier]. cbv zeta. destruct (b mod 32 =? 31) eqn:E31; [lia|]. eauto. }
  destruct Hid as ([[[cls pc] t] raw] & Hid).
  destruct Hd as [->|[-> _]]; [unfold header_from_ber in H|unfold header_from_der in H]; rewrite Hid in H; cbn [bind] in H;
    (apply bind_err in H as [H|([] & _ & H)]; [|discriminate]); (eapply Hlen; [|exact H]); try discriminate.
  destruct pc; discriminate.
Qed.

Lemma firstn_skipn_app {A} (a b : list A) k : (k <= length a)%nat ->
  firstn k (a ++ b) = firstn k a /\ skipn k (a ++ b) = skipn k a ++ b.
Proof.
  intros H. rewrite firstn_app, skipn_app. replace (k - length a)%nat with 0%nat by lia.
  now rewrite firstn_O, app_nil_r, skipn_O.
Qed.

(** The loop, for a reader that asks for a part of what its element lacks. *)
Lemma demand_loop {A} (f : bytes -> iresult berror A) (I bad : bytes -> Prop) bs v r :
  (forall p q, bs = p ++ q -> I p ->
     (q = [] /\ f p = Ok ([], v))
     \/ (exists n, f p = Err (Incomplete (Some n)) /\ 1 <= n <= nlen q /\ I (p ++ firstn (N.to_nat n) q))
     \/ (f p = Err (Error InvalidTag) /\ bad p)) ->
  forall fuel p q, bs = p ++ q -> I p -> (length q <= fuel)%nat ->
  on_demand f fuel p (q ++ r) = Answer (Ok ([], v)) r
  \/ exists p' q', bs = p' ++ q' /\ bad p' /\ on_demand f fuel p (q ++ r) = Answer (Err (Error InvalidTag)) (q' ++ r).
Proof.
  intros Hf. induction fuel as [|fuel IH]; intros p q E Hi Hl.
  - destruct (Hf _ _ E Hi) as [[-> H]|[(n & H & Hn & _)|[H Hb]]].
    + left. cbn [on_demand]. now rewrite H.
    + unfold nlen in Hn. lia.
    + right. exists p, q. split; [exact E|]. split; [exact Hb|]. cbn [on_demand]. now rewrite H.
  - destruct (Hf _ _ E Hi) as [[-> H]|[(n & H & Hn & Hi')|[H Hb]]].
    + left. cbn [on_demand]. now rewrite H.
    + cbn [on_demand]. rewrite H. unfold nlen in Hn. rewrite app_length.
      destruct (N.of_nat (length q + length r) <? n) eqn:En; [lia|].
      destruct (firstn_skipn_app q r (N.to_nat n) ltac:(lia)) as [-> ->].
      apply IH; [|exact Hi'|rewrite skipn_length; lia].
      now rewrite <- app_assoc, firstn_skipn.
    + right. exists p, q. split; [exact E|]. split; [exact Hb|]. cbn [on_demand]. now rewrite H.
Qed.

(** The loop reads the element [v] at the start of [s] and nothing behind it; or it
    stops inside a long-form tag. *)
Definition reads_just {A} (f : bytes -> iresult berror A) (bad : bytes -> Prop) (s : bytes) (v : A) (r : bytes) : Prop :=
  on_demand f (length s) [] s = Answer (Ok ([], v)) r
  \/ exists p q, s = p ++ q /\ bad p /\ on_demand f (length s) [] s = Answer (Err (Error InvalidTag)) q.

Lemma reads_just_of {A} (f : bytes -> iresult berror A) (I bad : bytes -> Prop) bs v r :
  I [] ->
  (forall p q, bs = p ++ q -> I p ->
     (q = [] /\ f p = Ok ([], v))
     \/ (exists n, f p = Err (Incomplete (Some n)) /\ 1 <= n <= nlen q /\ I (p ++ firstn (N.to_nat n) q))
     \/ (f p = Err (Error InvalidTag) /\ bad p)) ->
  reads_just f bad (bs ++ r) v r.
Proof.
  intros Hi Hf. unfold reads_just. rewrite app_length.
  destruct (demand_loop f I bad bs v r Hf (length bs + length r) [] bs eq_refl Hi ltac:(lia)) as [H|(p & q & E & Hb & H)];
    [now left|right].
  exists p, (q ++ r). split; [rewrite E; now rewrite <- app_assoc|auto].
Qed.

(** A definite length: first the header, then the content in one piece. *)
Lemma reads_just_definite {A} (f : bytes -> iresult berror A) (bad : bytes -> Prop) hb c v r :
  (forall p q, hb = p ++ q -> q <> [] ->
     (exists n, f p = Err (Incomplete (Some n)) /\ 1 <= n <= nlen q) \/ (f p = Err (Error InvalidTag) /\ bad p)) ->
  (c <> [] -> f hb = Err (Incomplete (Some (nlen c)))) ->
  f (hb ++ c) = Ok ([], v) ->
  reads_just f bad ((hb ++ c) ++ r) v r.
Proof.
  intros Hcut Hask Hall.
  apply (reads_just_of f (fun p => (exists m, hb = p ++ m) \/ p = hb ++ c)); [left; now exists hb|].
  intros p q E [[m ->]| ->].
  - rewrite <- app_assoc in E. apply app_inv_head in E. subst q.
    destruct m as [|b m].
    + rewrite app_nil_r in *. destruct c as [|b c]; [left; now rewrite app_nil_r in Hall|right; left].
      exists (nlen (b :: c)). split; [apply Hask; discriminate|]. split; [unfold nlen; cbn [app length]; lia|].
      right. cbn [app]. unfold nlen. now rewrite Nat2N.id, firstn_all.
    + destruct (Hcut p (b :: m) eq_refl ltac:(discriminate)) as [(n & H & Hn)|H]; [right; left|now right; right].
      exists n. split; [exact H|]. split; [unfold nlen in *; rewrite app_length; lia|].
      left. exists (skipn (N.to_nat n) (b :: m)). rewrite <- app_assoc. f_equal.
      destruct (firstn_skipn_app (b :: m) c (N.to_nat n) ltac:(unfold nlen in Hn; lia)) as [-> _].
      now rewrite firstn_skipn.
  - left. assert (q = []) as -> by (apply (app_inv_head (hb ++ c)); now rewrite app_nil_r).
    split; [reflexivity|exact Hall].
Qed.

(** *** [parse_ber_with_tag] at an indefinite length *)
Lemma content_as_cut L i x t pc d r c : ber_read_element_content_as L (i ++ x) t Indefinite pc d = Ok (r, c) ->
  (exists r', ber_read_element_content_as L i t Indefinite pc d = Ok (r', c))
  \/ cut_short (nlen x) i (ber_read_element_content_as L i t Indefinite pc d).
Proof.
  unfold ber_read_element_content_as, try_read_berobjectcontent_as. cbv zeta. intros H.
  bind_inv H. destruct a as [i2 data]. bind_inv H. inv H. pose proof E as Eg.
  apply get_content_inv in E as (b & _ & _ & Es & _).
  destruct (skip_cut _ _ _ _ _ _ Es) as [(r2 & Ek)|Hc].
  - left. pose proof (skip_split _ _ _ _ _ Ek) as (p & ->).
    rewrite (get_content_intro _ _ _ _ Ek). pose proof (skip_app _ _ x _ _ _ Ek) as Ek'.
    rewrite <- app_assoc in Ek', Eg. rewrite (get_content_intro _ _ _ _ Ek') in Eg. injection Eg as _ <-.
    cbn [bind]. rewrite E0. cbn [bind]. eauto.
  - right. unfold ber_get_object_content.
    destruct Hc as [(n & -> & Hn)|(-> & Hc)]; [left; eexists; split; [reflexivity|exact Hn]|right; auto].
Qed.

Lemma with_tag_cut L i x t r o : parse_ber_with_tag L (i ++ x) t = Ok (r, o) -> h_length (o_header o) = Indefinite ->
  (exists r', parse_ber_with_tag L i t = Ok (r', o)) \/ cut_short (nlen x) i (parse_ber_with_tag L i t).
Proof.
  intros H Hl. apply with_tag_inv in H as (i1 & h & c & Hh & Ht & -> & Hc). cbn [o_header] in Hl.
  destruct (header_ber_cut _ _ _ _ Hh) as [(r1 & Eh)|Hcut].
  - rewrite (header_from_ber_app _ x _ _ Eh) in Hh. injection Hh as Hh. subst i1. rewrite Hl in Hc.
    destruct (content_as_cut _ _ _ _ _ _ _ _ Hc) as [(r' & E)|Hcut].
    + left. exists r'. eapply with_tag_intro; [exact Eh|exact Ht|now rewrite Hl].
    + right. unfold parse_ber_with_tag, ber_read_element_header. rewrite Eh. cbn [bind].
      unfold assert_tag. rewrite Ht, N.eqb_refl. cbn [map_err bind]. rewrite Hl.
      apply header_from_ber_consumes in Eh as (hb & -> & _). eapply cut_short_bind; [reflexivity|exact Hcut].
  - right. unfold parse_ber_with_tag, ber_read_element_header.
    rewrite <- (app_nil_l i) at 1. eapply cut_short_bind; [reflexivity|exact Hcut].
Qed.

Lemma header_error {A} hdr (f : bytes -> iresult berror A) h hb p q :
  header_octets h hb -> hb = p ++ q -> q <> [] ->
  hdr = header_from_ber \/ (hdr = header_from_der /\ h_length h <> Indefinite) ->
  (forall e, hdr p = Err e -> f p = Err e) ->
  (exists n, f p = Err (Incomplete (Some n)) /\ 1 <= n <= nlen q)
  \/ (f p = Err (Error InvalidTag) /\ (cut_tag p /\ ~ short_tag hb)).
Proof.
  intros Hh E Hq Hd Hf. destruct (header_asks hdr h hb p q) as [(n & H & Hn)|(H & Hc)]; auto.
  left. exists n. auto.
Qed.

Lemma short_tag_app hb i : hb <> [] -> short_tag (hb ++ i) -> short_tag hb.
Proof. destruct hb as [|b hb]; [easy|]. intros _ (b' & i' & E & H). cbn [app] in E. injection E as <- _. now exists b, hb. Qed.

Lemma header_octets_some h hb : header_octets h hb -> hb <> [].
Proof. intros H ->. pose proof (header_from_ber_complete _ _ [] H). discriminate. Qed.

(** [f] reads the element and nothing behind it; it gives up only inside a long-form
    tag, which for a definite length is the tag of the element itself. *)
Definition demand_exact (f : bytes -> iresult berror obj) : Prop :=
  forall s r o, bytes_ok s -> f s = Ok (r, o) ->
  reads_just f cut_tag s o r
  /\ (h_length (o_header o) <> Indefinite -> short_tag s -> on_demand f (length s) [] s = Answer (Ok ([], o)) r).

Lemma demand_exact_definite (f : bytes -> iresult berror obj) h hb c r o :
  header_octets h hb ->
  (forall p q, hb = p ++ q -> q <> [] ->
     (exists n, f p = Err (Incomplete (Some n)) /\ 1 <= n <= nlen q)
     \/ (f p = Err (Error InvalidTag) /\ (cut_tag p /\ ~ short_tag hb))) ->
  (c <> [] -> f hb = Err (Incomplete (Some (nlen c)))) ->
  f (hb ++ c) = Ok ([], o) ->
  reads_just f cut_tag ((hb ++ c) ++ r) o r
  /\ (short_tag ((hb ++ c) ++ r) -> on_demand f (length ((hb ++ c) ++ r)) [] ((hb ++ c) ++ r) = Answer (Ok ([], o)) r).
Proof.
  intros Hh Hcut Hask Hall.
  destruct (reads_just_definite f _ hb c o r Hcut Hask Hall) as [H|(p & q & E & [Hc Hs] & H)].
  - split; [now left|auto].
  - split; [right; exists p, q; auto|]. intros Hsh. elim Hs. rewrite <- app_assoc in Hsh.
    eapply short_tag_app, Hsh. eapply header_octets_some, Hh.
Qed.

(** What a reader makes of an element of definite length: the header comes first, then
    the content is asked for in one piece. *)
Definition header_then_content (f : bytes -> iresult berror obj) : Prop :=
  forall s r o n, bytes_ok s -> f s = Ok (r, o) -> h_length (o_header o) = Definite n ->
  exists hb c, s = (hb ++ c) ++ r /\ header_octets (o_header o) hb /\ f (hb ++ c) = Ok ([], o)
    /\ (forall p q, hb = p ++ q -> q <> [] ->
          (exists n, f p = Err (Incomplete (Some n)) /\ 1 <= n <= nlen q)
          \/ (f p = Err (Error InvalidTag) /\ (cut_tag p /\ ~ short_tag hb)))
    /\ (c <> [] -> f hb = Err (Incomplete (Some (nlen c))))
    /\ (forall b, N.of_nat (length b) < N.of_nat (length c) -> exists n, f (hb ++ b) = Err (Incomplete n)).

Lemma readers_header_then_content L d t : (1 <= d)%nat ->
  header_then_content (fun i => parse_ber_recursive L i d) /\ header_then_content (fun i => parse_der_recursive L i d)
  /\ header_then_content (fun i => parse_ber_with_tag L i t) /\ header_then_content (fun i => parse_der_with_tag L i t).
Proof.
  intros Hd.
  assert (Hb : forall p e, header_from_ber p = Err e -> parse_ber_recursive L p d = Err e).
  { intros p e H. unfold parse_ber_recursive, parse_ber_any_r. destruct d; [lia|]. cbn [Nat.eqb].
    unfold any_from_ber. now rewrite H. }
  assert (Hdr : forall p e, header_from_der p = Err e -> parse_der_recursive L p d = Err e).
  { intros p e H. unfold parse_der_recursive, der_read_element_header. now rewrite H. }
  assert (Hbt : forall t p e, header_from_ber p = Err e -> parse_ber_with_tag L p t = Err e).
  { intros t' p e H. unfold parse_ber_with_tag, ber_read_element_header. now rewrite H. }
  assert (Hdt : forall t p e, header_from_der p = Err e -> parse_der_with_tag L p t = Err e).
  { intros t' p e H. unfold parse_der_with_tag, der_read_element_header. now rewrite H. }
  assert (Hpos : forall c : bytes, c <> [] -> N.of_nat (length (@nil N)) < N.of_nat (length c)).
  { intros c Hne. destruct c; [congruence|cbn [length]; lia]. }
  repeat apply conj.
  - intros s r o n Hok H El. apply C55_parse_ber_exact in H as (bs & c & -> & He & Hv); [|exact Hok].
    assert (Hbs : parse_ber_recursive L bs d = Ok ([], o)).
    { apply C55_parse_ber_exact; [now apply bytes_ok_app in Hok|]. exists bs, c. rewrite app_nil_r. auto. }
    pose proof He as (hb & b & -> & Hh & Hbd & Hc).
    inversion Hbd as [d' h' n' b' Hl' Hn|d' h' b' Hl' _ _]; subst; [|congruence]. rewrite El in Hl'. injection Hl' as ->.
    assert (Hm := fun m Hlt => proj1 (C54_missing_content_partial L _ hb m (N.of_nat (length b)) d Hh El Hlt Hd)).
    exists hb, b. repeat (split; [auto|]).
    + intros p q E Hq. apply (header_error header_from_ber (fun i => parse_ber_recursive L i d) (o_header o) hb p q Hh E Hq); auto.
    + intros Hne. specialize (Hm [] (Hpos _ Hne)). now rewrite app_nil_r, N.sub_0_r in Hm.
    + eauto.
  - intros s r o n Hok H _.
    apply parse_der_definite in H as (bs & c & -> & (hb & -> & Hh & Hl) & Hm & Ho); [|exact Hok].
    assert (Hbs : parse_der_recursive L (hb ++ c) d = Ok ([], o)).
    { apply parse_der_iff. exists (o_header o), c. rewrite app_nil_r. split; [|auto].
      apply header_from_der_complete; [exact Hh|congruence]. }
    assert (Hx := fun m Hlt => proj2 (C54_missing_content_partial L _ hb m (N.of_nat (length c)) d Hh Hl Hlt Hd) Hm).
    exists hb, c. repeat (split; [auto|]).
    + intros p q E Hq. apply (header_error header_from_der (fun i => parse_der_recursive L i d) (o_header o) hb p q Hh E Hq); auto.
      right. split; [reflexivity|congruence].
    + intros Hne. specialize (Hx [] (Hpos _ Hne)). rewrite app_nil_r, N.sub_0_r in Hx. now destruct (h_class (o_header o)).
    + eauto.
  - intros s r o n Hok H El.
    apply with_tag_exact in H as (bs & c & -> & He & Ht & Hm & Hv); [|exact Hok].
    assert (Hbs : parse_ber_with_tag L bs t = Ok ([], o)).
    { apply with_tag_exact; [now apply bytes_ok_app in Hok|]. exists bs, c. rewrite app_nil_r. auto. }
    pose proof He as (hb & b & -> & Hh & Hbd & Hc).
    inversion Hbd as [d' h' n' b' Hl' Hn|d' h' b' Hl' _ _]; subst; [|congruence]. rewrite El in Hl'. injection Hl' as ->.
    assert (Hx := fun m Hlt => proj1 (proj1 (C54_missing_typed_partial L _ hb m (N.of_nat (length b)) Hh El Hlt) (Hm _ El))).
    exists hb, b. repeat (split; [auto|]).
    + intros p q E Hq. apply (header_error header_from_ber (fun i => parse_ber_with_tag L i _) (o_header o) hb p q Hh E Hq); auto.
    + intros Hne. specialize (Hx [] (Hpos _ Hne)). now rewrite app_nil_r in Hx.
    + eauto.
  - intros s r o n Hok H _.
    apply der_with_tag_exact in H as (bs & c & -> & He & Ht & Hrest); [|exact Hok].
    assert (Hbs : parse_der_with_tag L bs t = Ok ([], o)).
    { apply der_with_tag_exact; [now apply bytes_ok_app in Hok|]. exists bs, c. rewrite app_nil_r. auto. }
    destruct He as (hb & -> & Hh & Hl).
    assert (Hx := fun m Hlt => proj1 (proj2 (C54_missing_typed_partial L _ hb m (N.of_nat (length c)) Hh Hl Hlt))).
    rewrite Ht in Hx. exists hb, c. repeat (split; [auto|]).
    + intros p q E Hq. apply (header_error header_from_der (fun i => parse_der_with_tag L i t) (o_header o) hb p q Hh E Hq); auto.
      right. split; [reflexivity|congruence].
    + intros Hne. specialize (Hx [] (Hpos _ Hne)). now rewrite app_nil_r in Hx.
    + eauto.
Qed.

(** The loop reads exactly the element.  It gives up only inside a long-form tag, and
    never when the length is definite and the tag of the element itself is a short one. *)
Theorem C110_demand : forall L d t, (1 <= d)%nat ->
  demand_exact (fun i => parse_ber_recursive L i d) /\ demand_exact (fun i => parse_der_recursive L i d)
  /\ demand_exact (fun i => parse_ber_with_tag L i t) /\ demand_exact (fun i => parse_der_with_tag L i t).
Proof.
  intros L d t Hd.
  assert (Hdef : forall f, header_then_content f -> forall s r o n, bytes_ok s -> f s = Ok (r, o) ->
    h_length (o_header o) = Definite n ->
    reads_just f cut_tag s o r /\ (short_tag s -> on_demand f (length s) [] s = Answer (Ok ([], o)) r)).
  { intros f Hf s r o n Hok H El. destruct (Hf _ _ _ _ Hok H El) as (hb & c & -> & Hh & Hall & Hcut & Hask & _).
    now apply (demand_exact_definite f (o_header o)). }
  assert (Hind : forall f : bytes -> iresult berror obj, extends f -> forall bs r o, f bs = Ok ([], o) ->
    (forall p q, bs = p ++ q -> (exists r', f p = Ok (r', o)) \/ cut_short (nlen q) p (f p)) ->
    reads_just f cut_tag (bs ++ r) o r).
  { intros f He bs r o Hf Hcut. apply (reads_just_of f (fun _ => True)); [exact I|].
    intros p q E _. destruct (Hcut _ _ E) as [(r' & H)|[(n & H & Hn)|H]]; [left|right; left; eauto|right; right; exact H].
    pose proof (He _ q _ _ H) as H'. rewrite <- E, Hf in H'. injection H' as H'. symmetry in H'.
    apply app_eq_nil in H' as [-> ->]. auto. }
  destruct (readers_header_then_content L d t Hd) as (R1 & R2 & R3 & R4).
  repeat apply conj.
  - intros s r o Hok H. destruct (h_length (o_header o)) as [n|] eqn:El.
    + destruct (Hdef _ R1 _ _ _ _ Hok H El) as [Hx Hy]. auto.
    + split; [|congruence]. apply C55_parse_ber_exact in H as (bs & c & -> & He & Hv); [|exact Hok].
      apply Hind; [intros i x r' v; apply C03_parse_ber| |].
      { apply C55_parse_ber_exact; [now apply bytes_ok_app in Hok|]. exists bs, c. rewrite app_nil_r. auto. }
      intros p q E. apply (C54_ber_partial L p q d [] o). rewrite <- E.
      apply C55_parse_ber_exact; [now apply bytes_ok_app in Hok|]. exists bs, c. rewrite app_nil_r. auto.
  - intros s r o Hok H. destruct (h_length (o_header o)) as [n|] eqn:El.
    + destruct (Hdef _ R2 _ _ _ _ Hok H El) as [Hx Hy]. auto.
    + exfalso. apply parse_der_definite in H as (bs & c & -> & (hb & -> & Hh & Hl) & _); [congruence|exact Hok].
  - intros s r o Hok H. destruct (h_length (o_header o)) as [n|] eqn:El.
    + destruct (Hdef _ R3 _ _ _ _ Hok H El) as [Hx Hy]. auto.
    + split; [|congruence]. apply with_tag_exact in H as (bs & c & -> & He & Ht & Hm & Hv); [|exact Hok].
      assert (Hbs : parse_ber_with_tag L bs t = Ok ([], o)).
      { apply with_tag_exact; [now apply bytes_ok_app in Hok|]. exists bs, c. rewrite app_nil_r. auto. }
      apply Hind; [intros i x r' v; apply C03_with_tag|exact Hbs|].
      intros p q E. apply (with_tag_cut L p q t [] o); [now rewrite <- E|exact El].
  - intros s r o Hok H. destruct (h_length (o_header o)) as [n|] eqn:El.
    + destruct (Hdef _ R4 _ _ _ _ Hok H El) as [Hx Hy]. auto.
    + exfalso. apply der_with_tag_exact in H as (bs & c & -> & (hb & -> & Hh & Hl) & _); [congruence|exact Hok].
Qed.
Print Assumptions C110_demand.

(** ** Definite lengths and short tags *)

Lemma prefix_cases {A} (p q a b : list A) : p ++ q = a ++ b ->
  (exists m, p = a ++ m /\ b = m ++ q) \/ (exists m, a = p ++ m /\ q = m ++ b /\ m <> []).
Proof.
  revert a. induction p as [|x p IH]; intros a H.
  - cbn [app] in H. subst q. destruct a as [|y a]; [left; exists []; auto|right; exists (y :: a); repeat split; auto; discriminate].
  - destruct a as [|y a]; [left; exists (x :: p); auto|]. cbn [app] in H. injection H as -> H.
    destruct (IH _ H) as [(m & -> & Hm)|(m & -> & Hm & Hne)]; [left; exists m; auto|right; exists m; auto].
Qed.

(** The header has a single identifier octet and a definite length: whatever the pieces
    are, the element is read. *)
Definition chunks_exact (f : bytes -> iresult berror obj) : Prop :=
  forall chunks r o, bytes_ok (concat chunks) -> f (concat chunks) = Ok (r, o) ->
  h_length (o_header o) <> Indefinite -> short_tag (concat chunks) ->
  exists r' unread, by_chunks f [] chunks = Answer (Ok (r', o)) unread /\ r = r' ++ concat unread.

Lemma chunks_exact_of (f : bytes -> iresult berror obj) :
  chunks_agree f -> extends f -> header_then_content f -> chunks_exact f.
Proof.
  intros Ha He Hf chunks r o Hok H Hl Hs.
  destruct (h_length (o_header o)) as [n|] eqn:El; [clear Hl|congruence].
  destruct (Hf _ _ _ _ Hok H El) as (hb & c & E & Hh & Hbs & Hcut & _ & Hask).
  pose proof (Ha chunks Hok) as Hc. destruct (by_chunks f [] chunks) as [x unread|].
  - destruct Hc as (read & -> & Hx & [Hm|[-> _]]).
    + rewrite H in Hm. destruct x as [[r' v]|e| |]; cbn [with_more] in Hm; try discriminate.
      injection Hm as -> ->. eauto.
    + exfalso. rewrite concat_app in E, Hs. rewrite <- app_assoc in E.
      destruct (prefix_cases _ _ _ _ E) as [(m & Em & Eq)|(m & Em & Eq & Hne)].
      * rewrite Em in Hx. destruct (N.lt_ge_cases (N.of_nat (length m)) (N.of_nat (length c))) as [Hlt|Hge].
        -- destruct (Hask _ Hlt) as (n' & H'). congruence.
        -- symmetry in Eq. destruct (prefix_cases _ _ _ _ Eq) as [(k & Ek & _)|(k & Ek & _ & Hk)].
           ++ subst m. rewrite app_assoc in Hx. rewrite (He _ k _ _ Hbs) in Hx. discriminate.
           ++ subst c. rewrite app_length in Hge. destruct k; [easy|]. cbn [length] in Hge. lia.
      * destruct (Hcut _ _ Em Hne) as [(n' & H' & _)|(_ & _ & H')]; [congruence|]. apply H'.
        rewrite E in Hs. eapply short_tag_app, Hs. eapply header_octets_some, Hh.
  - destruct Hc as (n' & Hc). congruence.
Qed.

Theorem C110_short_tags : forall L d t, (1 <= d)%nat ->
  chunks_exact (fun i => parse_ber_recursive L i d) /\ chunks_exact (fun i => parse_ber_with_tag L i t)
  /\ chunks_exact (fun i => parse_der_with_tag L i t)
  /\ (no_unknown_tag L -> chunks_exact (fun i => parse_der_recursive L i d)).
Proof.
  intros L d t Hd. destruct (readers_header_then_content L d t Hd) as (R1 & R2 & R3 & R4).
  destruct (C110_chunks L d t) as (H1 & H2 & H3 & H4).
  repeat apply conj; [| | |intros HL]; apply chunks_exact_of; auto.
  - intros i x r v. apply C03_parse_ber.
  - intros i x r v. apply C03_with_tag.
  - intros i x r v. apply C03_with_tag.
  - intros i x r v. apply C03_parse_der.
Qed.
Print Assumptions C110_short_tags.

(** ** What goes wrong *)

(** The exception of a long-form tag is real: the stream carries an element, both loops
    give up. *)
Theorem C110_refuted : exists chunks r o,
  parse_ber SL (concat chunks) = Ok (r, o) /\ parse_der SL (concat chunks) = Ok (r, o)
  /\ by_chunks (parse_ber SL) [] chunks = Answer (Err (Error InvalidTag)) (tl (tl chunks))
  /\ by_chunks (parse_der SL) [] chunks = Answer (Err (Error InvalidTag)) (tl (tl chunks))
  /\ on_demand (parse_ber SL) (length (concat chunks)) [] (concat chunks) = Answer (Err (Error InvalidTag)) (tl (concat chunks)).
Proof.
  exists [[]; [159]; [129; 1; 0]], []. eexists. split; [vm_compute; reflexivity|]. split; [vm_compute; reflexivity|].
  split; [vm_compute; reflexivity|]. split; vm_compute; reflexivity.
Qed.
Print Assumptions C110_refuted.

Example C110_ex : let s := [48; 6; 2; 1; 5; 4; 1; 7; 255; 255] in
  bytes_ok s /\ short_tag s
  /\ (exists o, on_demand (parse_der SL) (length s) [] s = Answer (Ok ([], o)) [255; 255]
        /\ on_demand (parse_ber SL) (length s) [] s = Answer (Ok ([], o)) [255; 255]
        /\ by_chunks (parse_der SL) [] [[48]; [6; 2]; [1; 5; 4; 1; 7; 255]; [255]] = Answer (Ok ([255], o)) [[255]])
  /\ by_chunks (parse_ber SL) [] [[48]; [2; 2]; [1]; [0]; [0]] = Starved
  /\ by_chunks (parse_ber SL) [] [[48; 128]; [2; 1]; [5; 0]; [0; 9]]
     = by_chunks (parse_ber SL) [] [[48; 128; 2; 1; 5; 0; 0; 9]].
Proof.
  cbv zeta. split; [bok|]. split; [exists 48; eexists; split; [reflexivity|discriminate]|].
  split; [eexists; split; [vm_compute; reflexivity|]; split; vm_compute; reflexivity|]. split; vm_compute; reflexivity.
Qed.
