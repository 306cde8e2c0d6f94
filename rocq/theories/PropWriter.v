(** * Properties C80, C81: encoding into any writer. *)

From Coq Require Import String.
From Verif Require Import Base Asn1rs Ber Serialize Writer Spec SpecValue SpecComb SpecSer
  LemBase LemHeader LemSer Conformance PropSer.
Local Open Scope string_scope.
Local Open Scope N_scope.
Local Open Scope list_scope.

(** ** Specification *)

(** A writer that keeps what it is given: it is empty at first, and when it says that
    it took everything, it holds what it held before and then the new octets. *)
Definition appends (W : writer) : Prop :=
  w_as_ref W (w_default W) = []
  /\ forall w d w' n, w_write W w d = Some (w', n) -> nlen d <= n ->
       w_as_ref W w' = w_as_ref W w ++ d.

(** A writer that always takes everything. *)
Definition takes_all (W : writer) : Prop :=
  forall w d, exists w' n, w_write W w d = Some (w', n) /\ nlen d <= n.

(** ** Same octets as with a [Vec] *)

Definition agrees (W : writer) (f : w_type W -> res generr (w_type W)) (g : gen) : Prop :=
  forall out, match f out with
    | Ok out' => exists b, g = Ok b /\ w_as_ref W out' = w_as_ref W out ++ b
    | Panic => g = Panic
    | Err _ => ~ takes_all W
    | Diverge => False
    end.

Section Agrees.
Context (W : writer) (HW : appends W).

Lemma agrees_slice d : agrees W (w_slice W d) (Ok d).
Proof.
  intros out. unfold w_slice. destruct (w_write W out d) as [[w' n]|] eqn:E.
  - destruct (n <? nlen d) eqn:En.
    + intros H. destruct (H out d) as (w2 & n2 & E2 & H2). rewrite E in E2. inv E2. lia.
    + exists d. split; [reflexivity|]. eapply HW; [exact E|lia].
  - intros H. destruct (H out d) as (w2 & n2 & E2 & H2). congruence.
Qed.

Lemma agrees_tuple f f' g g' : agrees W f g -> agrees W f' g' -> agrees W (w_tuple f f') (gen_seq g g').
Proof.
  intros H H' out. specialize (H out). unfold w_tuple, gen_seq. destruct (f out) as [out1|e| |]; cbn [bind]; auto.
  - destruct H as (b & -> & Hb). specialize (H' out1). destruct (f' out1) as [out2|e| |]; cbn [bind]; auto.
    + destruct H' as (b' & -> & Hb'). exists (b ++ b'). split; [reflexivity|]. now rewrite Hb', Hb, app_assoc.
    + now rewrite H'.
  - now rewrite H.
Qed.

Lemma agrees_header h : agrees W (w_encode_header W h) (ber_encode_header h).
Proof.
  unfold w_encode_header, ber_encode_header. destruct (30 <? h_tag h); [intros out; reflexivity|].
  apply agrees_tuple; [apply agrees_slice|]. unfold w_encode_length, encode_length.
  destruct (h_length h) as [n|]; [|apply agrees_slice]. destruct (n <=? 127); [apply agrees_slice|].
  apply agrees_tuple; apply agrees_slice.
Qed.

Lemma agrees_with_header h f g : agrees W f g -> agrees W (w_with_header W h f) (with_header h g).
Proof.
  intros H out. unfold w_with_header, with_header. specialize (H (w_default W)).
  destruct (f (w_default W)) as [v|e| |]; cbn [bind]; auto; [|now rewrite H].
  destruct H as (b & -> & Hb). rewrite (proj1 HW) in Hb. cbn [app] in Hb. rewrite Hb. cbn [bind].
  pose proof (agrees_header (with_length h (Definite (nlen b))) (w_default W)) as Hh.
  destruct (w_encode_header W _ (w_default W)) as [vh|e| |]; cbn [bind]; auto; [|now rewrite Hh].
  destruct Hh as (hb & -> & Hhb). rewrite (proj1 HW) in Hhb. cbn [app] in Hhb. rewrite Hhb. cbn [bind].
  exact (agrees_tuple _ _ _ _ (agrees_slice hb) (agrees_slice b) out).
Qed.

Lemma agrees_many {A} (f : A -> w_type W -> res generr (w_type W)) g l :
  Forall (fun x => agrees W (f x) (g x)) l -> agrees W (w_many f l) (gen_many g l).
Proof.
  induction 1 as [|x l Hx Hl IH].
  - intros out. exists []. split; [reflexivity|]. cbn. now rewrite app_nil_r.
  - exact (agrees_tuple _ _ _ _ Hx IH).
Qed.

Lemma agrees_encode L :
  (forall o, agrees W (w_encode_object W L o) (ber_encode_object L o))
  /\ (forall c, agrees W (w_encode_object_content W L c) (ber_encode_object_content L c)).
Proof.
  apply obj_content_ind.
  - intros h c Hc. apply (agrees_with_header h _ _ Hc).
  - intros l Hl. apply (agrees_many _ _ _ Hl).
  - intros l Hl. apply (agrees_many _ _ _ Hl).
  - intros h c Hc _. exact Hc.
  - intros k t o Ho. exact Ho.
  - intros c Hc. destruct c as [| | | | | | | | | | | |l|l| | |[]| |]; try (destruct Hc; fail);
      try (apply agrees_slice).
    + apply agrees_tuple; apply agrees_slice.
    + intros out. exists []. split; [reflexivity|]. now rewrite app_nil_r.
Qed.

End Agrees.

(** If the encoder succeeds, the writer holds what it held before and then
    exactly the octets of [to_vec]: nothing is lost, cut short or doubled, whatever the writer refuses or
    takes only in part.  The encoder panics only where [to_vec] does. *)
Theorem C80_same_octets : forall W L o w, appends W ->
  (forall w', w_encode_object W L o w = Ok w' ->
     exists b, to_vec L o = Ok b /\ w_as_ref W w' = w_as_ref W w ++ b)
  /\ (w_encode_object W L o w = Panic -> to_vec L o = Panic)
  /\ w_encode_object W L o w <> Diverge.
Proof.
  intros W L o w HW. pose proof (proj1 (agrees_encode W HW L) o w) as H.
  destruct (w_encode_object W L o w); split; try split; try discriminate; auto; try easy.
  intros w' E. inv E. exact H.
Qed.
Print Assumptions C80_same_octets.

(** The other public functions. *)
Theorem C80_others : forall W L w, appends W ->
  (forall h w', w_encode_header W h w = Ok w' ->
     exists b, ber_encode_header h = Ok b /\ w_as_ref W w' = w_as_ref W w ++ b)
  /\ (forall h c w', w_encode_object_raw W L h c w = Ok w' ->
     exists b, ber_encode_object_raw L h c = Ok b /\ w_as_ref W w' = w_as_ref W w ++ b)
  /\ (forall t c o w', w_encode_tagged_explicit W L t c o w = Ok w' ->
     exists b, ber_encode_tagged_explicit L t c o = Ok b /\ w_as_ref W w' = w_as_ref W w ++ b)
  /\ (forall t c o w', w_encode_tagged_implicit W L t c o w = Ok w' ->
     exists b, ber_encode_tagged_implicit L t c o = Ok b /\ w_as_ref W w' = w_as_ref W w ++ b).
Proof.
  intros W L w HW. destruct (agrees_encode W HW L) as [Ho Hc].
  split; [|split; [|split]].
  - intros h w' E. pose proof (agrees_header W HW h w) as H. now rewrite E in H.
  - intros h c w' E. pose proof (agrees_tuple W _ _ _ _ (agrees_header W HW h) (Hc c) w) as H.
    unfold w_encode_object_raw in E. now rewrite E in H.
  - intros t c o w' E.
    pose proof (agrees_with_header W HW (header_new c true t (Definite 0)) _ _ (Ho o) w) as H.
    unfold w_encode_tagged_explicit in E. rewrite E in H. exact H.
  - intros t c o w' E.
    pose proof (agrees_with_header W HW (header_new c (h_constructed (o_header o)) t (Definite 0)) _ _
                  (Hc (o_content o)) w) as H.
    unfold w_encode_tagged_implicit in E. rewrite E in H. exact H.
Qed.
Print Assumptions C80_others.

(** A writer that takes everything, such as [Vec<u8>]: the only failure is the panic of
    [to_vec]. *)
Theorem C80_no_refusal : forall W L o w, appends W -> takes_all W ->
  (tag_too_large o /\ w_encode_object W L o w = Panic)
  \/ exists w' b, w_encode_object W L o w = Ok w' /\ to_vec L o = Ok b
       /\ w_as_ref W w' = w_as_ref W w ++ b.
Proof.
  intros W L o w HW HT. pose proof (proj1 (agrees_encode W HW L) o w) as H.
  destruct (w_encode_object W L o w) as [w'|e| |]; try easy.
  - right. destruct H as (b & E & Hb). eauto.
  - left. split; [now apply (C38_panics L)|reflexivity].
Qed.
Print Assumptions C80_no_refusal.

Lemma vec_appends : appends vec_writer.
Proof. split; [reflexivity|]. cbn. intros w d w' n E _. now inv E. Qed.

Lemma vec_takes_all : takes_all vec_writer.
Proof. intros w d. cbn. eexists _, _. split; [reflexivity|lia]. Qed.

(** The encoder of Serialize.v is this one with a [Vec<u8>]. *)
Theorem C80_vec : forall L o w,
  (forall b, to_vec L o = Ok b -> w_encode_object vec_writer L o w = Ok (w ++ b))
  /\ (to_vec L o = Panic -> w_encode_object vec_writer L o w = Panic).
Proof.
  intros L o w. destruct (C80_no_refusal vec_writer L o w vec_appends vec_takes_all) as [[Ht E]|(w' & b & E & Eb & Hw)].
  - apply (C38_panics L) in Ht. split; [congruence|auto].
  - cbn [w_as_ref vec_writer] in Hw. subst w'. rewrite Eb.
    split; [|discriminate]. intros b' E'. injection E' as <-. exact E.
Qed.
Print Assumptions C80_vec.

Lemma array_appends cap : appends (array_writer cap).
Proof.
  split; [reflexivity|]. cbn. intros w d w' n E Hn. inv E. f_equal. apply firstn_all2.
  unfold nlen in Hn. rewrite firstn_length in Hn. lia.
Qed.

(** A writer that answers with an error when it is handed an octet 7. *)
Definition picky_writer : writer :=
  mkWriter bytes [] (fun v => v)
    (fun v d => if existsb (N.eqb 7) d then None else Some (v ++ d, nlen d)).

Example C80_ex :
  let o := from_seq [from_obj (COctetString (hx "01 02 03")); from_obj CNull] in
  let bad := Obj (header_new ContextSpecific false 31 (Definite 0)) (COctetString []) in
  appends vec_writer /\ takes_all vec_writer /\ appends (array_writer 9) /\ appends picky_writer
  /\ w_encode_object vec_writer SL o (hx "AA") = Ok (hx "AA 30 07 04 03 01 02 03 05 00")
  /\ w_encode_object (array_writer 9) SL o (hx "") = Ok (hx "30 07 04 03 01 02 03 05 00")
  /\ w_encode_object (array_writer 9) SL o (hx "AA") = Err (BufferTooSmall 1)
  /\ w_encode_object picky_writer SL o (hx "") = Err IoError
  /\ w_encode_object vec_writer SL bad (hx "") = Panic.
Proof.
  intros o bad. split; [apply vec_appends|]. split; [apply vec_takes_all|]. split; [apply array_appends|].
  split.
  { split; [reflexivity|]. cbn. intros w d w' n E _. destruct (existsb (N.eqb 7) d); now inv E. }
  vm_compute. repeat split.
Qed.

(** ** Room *)

Definition arr_fits (cap : nat) (f : bytes -> res generr bytes) (g : gen) : Prop :=
  forall b, g = Ok b -> forall out, (length out <= cap)%nat ->
    if (length out + length b <=? cap)%nat then f out = Ok (out ++ b)
    else exists n, f out = Err (BufferTooSmall n)
           /\ 1 <= n <= N.of_nat (length out + length b - cap).

Section Room.
Context (cap : nat).
Notation W := (array_writer cap).

Lemma fits_slice d : arr_fits cap (w_slice W d) (Ok d).
Proof.
  intros b E out Ho. inv E. unfold w_slice, nlen. cbn [array_writer w_write]. unfold nlen.
  destruct (length out + length b <=? cap)%nat eqn:El.
  - rewrite firstn_all2 by lia. rewrite N.ltb_irrefl. reflexivity.
  - rewrite firstn_length. destruct (N.of_nat _ <? N.of_nat _) eqn:E; [|lia].
    eexists. split; [reflexivity|lia].
Qed.

Lemma fits_tuple f f' g g' : arr_fits cap f g -> arr_fits cap f' g' ->
  arr_fits cap (@w_tuple W f f') (gen_seq g g').
Proof.
  intros H H' b E out Ho. unfold gen_seq in E. bind_inv E. bind_inv E. inv E.
  specialize (H _ eq_refl out Ho). unfold w_tuple. rewrite app_length.
  destruct (length out + length a <=? cap)%nat eqn:E1.
  - rewrite H. cbn [bind]. specialize (H' _ eq_refl (out ++ a)). rewrite app_length in H'.
    specialize (H' ltac:(lia)). rewrite <- Nat.add_assoc in H'.
    destruct (length out + (length a + length a0) <=? cap)%nat; [now rewrite app_assoc|exact H'].
  - destruct H as (n & -> & Hn). cbn [bind].
    destruct (length out + (length a + length a0) <=? cap)%nat eqn:E2; [lia|].
    eexists. split; [reflexivity|lia].
Qed.

Lemma fits_hdr h : arr_fits cap (w_encode_header W h) (ber_encode_header h).
Proof.
  unfold w_encode_header, ber_encode_header. destruct (30 <? h_tag h); [intros b E; discriminate|].
  apply fits_tuple; [apply fits_slice|]. unfold w_encode_length, encode_length.
  destruct (h_length h) as [n|]; [|apply fits_slice]. destruct (n <=? 127); [apply fits_slice|].
  apply fits_tuple; apply fits_slice.
Qed.

Lemma fits_with_header h f g : arr_fits cap f g -> arr_fits cap (w_with_header W h f) (with_header h g).
Proof.
  intros H b E out Ho. unfold with_header in E.
  destruct g as [a| | |]; cbn [bind] in E; try discriminate.
  destruct (ber_encode_header (with_length h (Definite (nlen a)))) as [a0| | |] eqn:E0; cbn [bind] in E; try discriminate. inv E.
  unfold w_with_header. specialize (H _ eq_refl [] ltac:(cbn; lia)). cbn [length Nat.add app] in H.
  rewrite app_length. cbn [w_default w_as_ref array_writer].
  destruct (length a <=? cap)%nat eqn:E1.
  2:{ destruct H as (n & -> & Hn). cbn [bind].
      destruct (length out + (length a0 + length a) <=? cap)%nat eqn:E2; [lia|].
      eexists. split; [reflexivity|lia]. }
  rewrite H. cbn [bind].
  pose proof (fits_hdr _ _ E0 [] ltac:(cbn; lia)) as Hh. cbn [length Nat.add app] in Hh.
  destruct (length a0 <=? cap)%nat eqn:E2.
  2:{ destruct Hh as (n & Hh & Hn). cbn [w_default array_writer] in Hh. rewrite Hh. cbn [bind].
      destruct (length out + (length a0 + length a) <=? cap)%nat eqn:E3; [lia|].
      eexists. split; [reflexivity|lia]. }
  cbn [w_default array_writer] in Hh. rewrite Hh. cbn [bind].
  pose proof (fits_tuple _ _ _ _ (fits_slice a0) (fits_slice a) (a0 ++ a) eq_refl out Ho) as Ht.
  rewrite app_length in Ht. exact Ht.
Qed.

Lemma fits_many {A} (f : A -> bytes -> res generr bytes) g l :
  Forall (fun x => arr_fits cap (f x) (g x)) l -> arr_fits cap (@w_many W A f l) (gen_many g l).
Proof.
  induction 1 as [|x l Hx Hl IH].
  - intros b E out Ho. inv E. cbn. rewrite Nat.add_0_r, app_nil_r.
    destruct (length out <=? cap)%nat eqn:E; [reflexivity|lia].
  - exact (fits_tuple _ _ _ _ Hx IH).
Qed.

Lemma fits_encode L :
  (forall o, arr_fits cap (w_encode_object W L o) (ber_encode_object L o))
  /\ (forall c, arr_fits cap (w_encode_object_content W L c) (ber_encode_object_content L c)).
Proof.
  apply obj_content_ind.
  - intros h c Hc. apply (fits_with_header h _ _ Hc).
  - intros l Hl. apply (fits_many _ _ _ Hl).
  - intros l Hl. apply (fits_many _ _ _ Hl).
  - intros h c Hc _. exact Hc.
  - intros k t o Ho. exact Ho.
  - intros c Hc. destruct c as [| | | | | | | | | | | |l|l| | |[]| |]; try (destruct Hc; fail);
      try (apply fits_slice).
    + apply fits_tuple; apply fits_slice.
    + intros b E out Ho. inv E. cbn. rewrite Nat.add_0_r, app_nil_r.
      destruct (length out <=? cap)%nat eqn:E; [reflexivity|lia].
Qed.
End Room.

(** A writer with room for [cap] octets that holds [w]: the object is written exactly if
    there is room for the octets of [to_vec]; otherwise the encoder answers
    [BufferTooSmall], with a number of missing octets from 1 to what is missing in all.
    The new writers made inside never run out first. *)
Theorem C81_partial : forall cap L o b w,
  to_vec L o = Ok b -> (length w <= cap)%nat ->
  ((length w + length b <= cap)%nat -> w_encode_object (array_writer cap) L o w = Ok (w ++ b))
  /\ ((cap < length w + length b)%nat ->
        exists n, w_encode_object (array_writer cap) L o w = Err (BufferTooSmall n)
          /\ 1 <= n <= N.of_nat (length w + length b - cap)).
Proof.
  intros cap L o b w E Hw. pose proof (proj1 (fits_encode cap L) o b E w Hw) as H.
  destruct (length w + length b <=? cap)%nat eqn:El; split; intros Hl; try lia; exact H.
Qed.
Print Assumptions C81_partial.

Definition small_or_panic (x : res generr bytes) : Prop :=
  match x with Err (BufferTooSmall _) | Panic => True | _ => False end.
Definition no_io_error (x : res generr bytes) : Prop :=
  match x with Err IoError | Diverge => False | _ => True end.

Lemma slice_no_io d out : no_io_error (w_slice slice_writer d out).
Proof. unfold w_slice. cbn [slice_writer w_write]. destruct (_ <? _); exact I. Qed.

Lemma slice_tuple d d' out : no_io_error (w_tuple (W := slice_writer) (w_slice slice_writer d) (w_slice slice_writer d') out).
Proof.
  unfold w_tuple. pose proof (slice_no_io d out) as H. destruct (w_slice slice_writer d out) as [v|e| |];
    cbn [bind]; try exact H. apply slice_no_io.
Qed.

Lemma slice_header_empty h : small_or_panic (w_encode_header slice_writer h []).
Proof. unfold w_encode_header. destruct (30 <? h_tag h); exact I. Qed.

Lemma slice_with_header h f out : (forall out, no_io_error (f out)) ->
  small_or_panic (w_with_header slice_writer h f out).
Proof.
  intros H. unfold w_with_header. cbn [w_default slice_writer]. specialize (H []).
  destruct (f []) as [v|e| |]; cbn [bind]; try exact H.
  pose proof (slice_header_empty (with_length h (Definite (nlen v)))) as Hh. cbn [w_as_ref slice_writer].
  destruct (w_encode_header slice_writer _ []) as [vh|e| |]; cbn [bind]; try exact Hh. destruct Hh.
Qed.

Lemma weaken x : small_or_panic x -> no_io_error x.
Proof. destruct x as [v|[n|]| |]; cbn; auto. Qed.

Lemma slice_many l : forall L out,
  Forall (fun o => forall out, small_or_panic (w_encode_object slice_writer L o out)) l ->
  no_io_error (w_many (W := slice_writer) (w_encode_object slice_writer L) l out).
Proof.
  intros L out H. destruct H as [|x l Hx Hl]; [exact I|]. cbn [w_many]. specialize (Hx out).
  destruct (w_encode_object slice_writer L x out) as [v|e| |]; cbn [bind]; try destruct Hx; try exact I.
  destruct e; [exact I|destruct Hx].
Qed.

Lemma slice_encode L :
  (forall o out, small_or_panic (w_encode_object slice_writer L o out))
  /\ (forall c out, no_io_error (w_encode_object_content slice_writer L c out)).
Proof.
  apply obj_content_ind.
  - intros h c Hc out. exact (slice_with_header h _ out Hc).
  - intros l Hl out. apply slice_many, Hl.
  - intros l Hl out. apply slice_many, Hl.
  - intros h c Hc _. exact Hc.
  - intros k t o Ho out. apply weaken, Ho.
  - intros c Hc out. destruct c as [| | | | | | | | | | | |l|l| | |[]| |]; try (destruct Hc; fail);
      try (apply slice_no_io); [|exact I].
    apply slice_tuple.
Qed.

(** A panic is a panic of [to_vec], for every writer. *)
Definition pan {W : writer} (f : w_type W -> res generr (w_type W)) (g : gen) : Prop :=
  ((exists b, g = Ok b) \/ g = Panic) /\ forall out, f out = Panic -> g = Panic.

Lemma pan_slice W d : pan (w_slice W d) (Ok d).
Proof.
  split; [eauto|]. intros out. unfold w_slice. destruct (w_write W out d) as [[]|]; [|discriminate].
  destruct (_ <? _); discriminate.
Qed.

Lemma pan_tuple W f f' g g' : pan (W := W) f g -> pan f' g' -> pan (w_tuple f f') (gen_seq g g').
Proof.
  intros [Hg Hf] [Hg' Hf']. unfold gen_seq, w_tuple. split.
  - destruct Hg as [[b ->]| ->]; [|right; reflexivity]. destruct Hg' as [[b' ->]| ->]; cbn; eauto.
  - intros out E. specialize (Hf out). destruct (f out) as [o1| | |]; cbn [bind] in E; try discriminate.
    + apply Hf' in E. rewrite E. destruct Hg as [[b ->]| ->]; reflexivity.
    + rewrite Hf by reflexivity. reflexivity.
Qed.

Lemma pan_header W h : pan (w_encode_header W h) (ber_encode_header h).
Proof.
  unfold w_encode_header, ber_encode_header. destruct (30 <? h_tag h); [split; auto|].
  apply pan_tuple; [apply pan_slice|]. unfold w_encode_length, encode_length.
  destruct (h_length h) as [n|]; [|apply pan_slice]. destruct (n <=? 127); [apply pan_slice|].
  apply pan_tuple; apply pan_slice.
Qed.

Lemma hdr_panic W h out : w_encode_header W h out = Panic -> 30 <? h_tag h = true.
Proof.
  unfold w_encode_header. destruct (30 <? h_tag h); [reflexivity|]. intros E. exfalso.
  assert (H : pan (w_encode_length W (h_length h)) (encode_length (h_length h))).
  { unfold w_encode_length, encode_length.
    destruct (h_length h) as [n|]; [|apply pan_slice]. destruct (n <=? 127); [apply pan_slice|].
    apply pan_tuple; apply pan_slice. }
  apply (pan_tuple W _ _ _ _ (pan_slice W _) H) in E. unfold gen_seq, encode_length in E.
  destruct (h_length h) as [n|]; [|discriminate]. destruct (n <=? 127); discriminate.
Qed.

Lemma pan_with_header W h f g : pan f g -> pan (w_with_header W h f) (with_header h g).
Proof.
  intros [Hg Hf]. unfold w_with_header, with_header. split.
  - destruct Hg as [[b ->]| ->]; [|right; reflexivity]. cbn [bind].
    destruct (pan_header W (with_length h (Definite (nlen b)))) as [[[hb ->]| ->] _]; cbn; eauto.
  - intros out E. specialize (Hf (w_default W)). destruct (f (w_default W)) as [v| | |]; cbn [bind] in E; try discriminate.
    2:{ rewrite Hf by reflexivity. reflexivity. }
    destruct Hg as [[b ->]| ->]; [|reflexivity]. cbn [bind].
    match type of E with bind ?x _ = _ => destruct x as [vh| | |] eqn:Eh end; cbn [bind] in E; try discriminate.
    + destruct (pan_tuple W _ _ _ _ (pan_slice W (w_as_ref W vh)) (pan_slice W (w_as_ref W v))) as [_ H].
      apply H in E. discriminate.
    + apply hdr_panic in Eh. cbn [with_length h_tag] in Eh. unfold ber_encode_header. cbn [with_length h_tag].
      now rewrite Eh.
Qed.

Lemma pan_many W {A} (f : A -> w_type W -> res generr (w_type W)) g l :
  Forall (fun x => pan (f x) (g x)) l -> pan (w_many f l) (gen_many g l).
Proof.
  induction 1 as [|x l Hx Hl IH].
  - split; [left; eexists; reflexivity|discriminate].
  - exact (pan_tuple W _ _ _ _ Hx IH).
Qed.

Lemma pan_encode W L :
  (forall o, pan (w_encode_object W L o) (ber_encode_object L o))
  /\ (forall c, pan (w_encode_object_content W L c) (ber_encode_object_content L c)).
Proof.
  apply obj_content_ind.
  - intros h c Hc. apply (pan_with_header W h _ _ Hc).
  - intros l Hl. apply (pan_many W _ _ _ Hl).
  - intros l Hl. apply (pan_many W _ _ _ Hl).
  - intros h c Hc _. exact Hc.
  - intros k t o Ho. exact Ho.
  - intros c Hc. destruct c as [| | | | | | | | | | | |l|l| | |[]| |]; try (destruct Hc; fail);
      try (apply pan_slice).
    + apply pan_tuple; apply pan_slice.
    + split; [left; eexists; reflexivity|discriminate].
Qed.

(** Into a [&mut [u8]] no object can be encoded, however much room there is: the new writer
    made for the header is an empty slice. *)
Theorem C81_slice_partial : forall L o room,
  (exists n, w_encode_object slice_writer L o room = Err (BufferTooSmall n))
  \/ (tag_too_large o /\ w_encode_object slice_writer L o room = Panic).
Proof.
  intros L o room. pose proof (proj1 (slice_encode L) o room) as H.
  destruct (w_encode_object slice_writer L o room) as [v|[n|]| |] eqn:E; try destruct H; eauto.
  right. split; [|reflexivity]. apply (C38_panics L), (proj2 (proj1 (pan_encode slice_writer L) o) _ E).
Qed.
Print Assumptions C81_slice_partial.

Lemma skipn_plus {A} m : forall n (l : list A), skipn n (skipn m l) = skipn (m + n) l.
Proof.
  induction m as [|m IH]; intros n l; [reflexivity|]. destruct l as [|x l]; [now rewrite skipn_nil|]. apply IH.
Qed.

(** A header alone is written into a slice if there is room: what is left is the rest
    of the slice. *)
Theorem C81_slice_header : forall h b room, ber_encode_header h = Ok b ->
  ((length b <= length room)%nat -> w_encode_header slice_writer h room = Ok (skipn (length b) room))
  /\ ((length room < length b)%nat -> exists n, w_encode_header slice_writer h room = Err (BufferTooSmall n)
        /\ 1 <= n <= N.of_nat (length b - length room)).
Proof.
  set (fit := fun (f : bytes -> res generr bytes) (g : gen) => forall b, g = Ok b -> forall room,
    if (length b <=? length room)%nat then f room = Ok (skipn (length b) room)
    else exists n, f room = Err (BufferTooSmall n) /\ 1 <= n <= N.of_nat (length b - length room)).
  assert (Hs : forall d, fit (w_slice slice_writer d) (Ok d)).
  { intros d b E room. injection E as <-. unfold w_slice, nlen. cbn [slice_writer w_write].
    destruct (length d <=? length room)%nat eqn:El.
    - rewrite Nat.min_r by lia. rewrite N.ltb_irrefl. reflexivity.
    - rewrite Nat.min_l by lia. destruct (N.of_nat _ <? N.of_nat _) eqn:E; [|lia].
      eexists. split; [reflexivity|lia]. }
  assert (Ht : forall f f' g g', fit f g -> fit f' g' -> fit (@w_tuple slice_writer f f') (gen_seq g g')).
  { intros f f' g g' H H' b E room. unfold gen_seq in E. destruct g as [a| | |]; try discriminate.
    destruct g' as [a'| | |]; try discriminate. cbn [bind] in E. injection E as <-.
    specialize (H _ eq_refl room). unfold w_tuple. rewrite app_length.
    destruct (length a <=? length room)%nat eqn:E1.
    - rewrite H. cbn [bind]. specialize (H' _ eq_refl (skipn (length a) room)). rewrite skipn_length in H'.
      destruct (length a' <=? length room - length a)%nat eqn:E2;
        destruct (length a + length a' <=? length room)%nat eqn:E3; try lia.
      + rewrite H', skipn_plus. reflexivity.
      + destruct H' as (n & -> & Hn). eexists. split; [reflexivity|lia].
    - destruct H as (n & -> & Hn). cbn [bind].
      destruct (length a + length a' <=? length room)%nat eqn:E3; [lia|]. eexists. split; [reflexivity|lia]. }
  assert (Hh : forall h, fit (w_encode_header slice_writer h) (ber_encode_header h)).
  { intros h. unfold w_encode_header, ber_encode_header. destruct (30 <? h_tag h); [intros b E; discriminate|].
    apply Ht; [apply Hs|]. unfold w_encode_length, encode_length.
    destruct (h_length h) as [n|]; [|apply Hs]. destruct (n <=? 127); [apply Hs|]. apply Ht; apply Hs. }
  intros h b room E. specialize (Hh h b E room).
  destruct (length b <=? length room)%nat eqn:El; split; intros Hl; try lia; exact Hh.
Qed.
Print Assumptions C81_slice_header.

Example C81_slice_ex :
  let h := header_new Universal true 16 (Definite 300) in
  ber_encode_header h = Ok (hx "30 82 01 2C")
  /\ w_encode_header slice_writer h (hx "00 00 00 00 00 AA") = Ok (hx "00 AA")
  /\ w_encode_header slice_writer h (hx "00 00 00") = Err (BufferTooSmall 1).
Proof. vm_compute. repeat split. Qed.

(** So the claim is false: with room for a hundred octets, a NULL is refused. *)
Theorem C81_refuted : exists W L o b (w : w_type W),
  to_vec L o = Ok b
  /\ (exists w', w_write W w b = Some (w', nlen b))
  /\ exists e, w_encode_object W L o w = Err e.
Proof.
  exists slice_writer, SL, (from_obj CNull), [5; 0], (repeat 0 100).
  split; [reflexivity|]. split; [eexists; reflexivity|]. eexists. vm_compute. reflexivity.
Qed.
Print Assumptions C81_refuted.

Example C81_ex :
  let o := from_seq [from_obj (CInteger [5]); from_set [from_obj CNull]] in
  to_vec SL o = Ok (hx "30 07 02 01 05 31 02 05 00")
  /\ w_encode_object (array_writer 12) SL o (hx "AA BB CC") = Ok (hx "AA BB CC 30 07 02 01 05 31 02 05 00")
  /\ w_encode_object (array_writer 11) SL o (hx "AA BB CC") = Err (BufferTooSmall 1)
  /\ w_encode_object (array_writer 2) SL o (hx "") = Err (BufferTooSmall 1)
  /\ w_encode_object slice_writer SL o (repeat 0 1000) = Err (BufferTooSmall 1).
Proof. vm_compute. repeat split. Qed.
