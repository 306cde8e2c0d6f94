(** * Independent specification of traversal. *)

From Coq Require Import Sorting.Sorted.
From Verif Require Import Base Visit.

(** The members of a SEQUENCE or SET. *)
Definition children (o : obj) : list obj :=
  match o with
  | Obj _ (CSequence l) | Obj _ (CSet l) => l
  | _ => []
  end.

(** [at_path o p x]: [x] is reached from [o] by the child indices [p]. *)
Inductive at_path : obj -> list nat -> obj -> Prop :=
| path_here o : at_path o [] o
| path_child o i c p x : nth_error (children o) i = Some c -> at_path c p x -> at_path o (i :: p) x.

(** Document order of paths: a parent comes before what is below it, a child
    and everything below it before the next child. *)
Inductive before : list nat -> list nat -> Prop :=
| before_parent i p : before [] (i :: p)
| before_sibling i j p q : (i < j)%nat -> before (i :: p) (j :: q)
| before_below i p q : before p q -> before (i :: p) (i :: q).

(** The callback that goes with a content, with its arguments. *)
Definition callback_of (c : content) : callback :=
  match c with
  | CEndOfContent => CbEndOfContent
  | CBoolean b => CbBoolean b
  | CInteger s => CbInteger s
  | CBitString u s => CbBitString u s
  | COctetString s => CbOctetString s
  | CNull => CbNull
  | CEnum n => CbEnum n
  | COID o => CbOid o
  | CRelativeOID o => CbRelativeOid o
  | CStr k s => CbStr k s
  | CBmpString s => CbBmpString s
  | CUniversalString s => CbUniversalString s
  | CSequence l => CbSequence l
  | CSet l => CbSet l
  | CUTCTime t => CbUtcTime t
  | CGeneralizedTime t => CbGeneralizedTime t
  | COptional o => CbOptional o
  | CTagged c t o => CbTagged c t o
  | CUnknown a => CbUnknown a
  end.

(** The two calls made for the object [x] found at path [p], when the root has
    depth [d]. *)
Definition calls_at (d : nat) (px : list nat * obj) : list call :=
  let (p, x) := px in
  [VisitBer x (d + length p); VisitCb (callback_of (o_content x)) (d + length p)].

(** [visits] lists the objects of [o] reachable through SEQUENCE and SET, each
    exactly once, in document order. *)
Definition document_order (o : obj) (visits : list (list nat * obj)) : Prop :=
  StronglySorted before (map fst visits)
  /\ forall p x, In (p, x) visits <-> at_path o p x.

(** ** Mutable traversal *)

(** [edited g d o o']: [o'] is [o] with the content [c] of each visited leaf at
    depth [n] replaced by [g c n]; headers and nesting are kept. *)
Inductive edited (g : content -> nat -> content) (d : nat) : obj -> obj -> Prop :=
| edited_leaf h c : (forall l, c <> CSequence l) -> (forall l, c <> CSet l) ->
    edited g d (Obj h c) (Obj h (g c d))
| edited_seq h l l' : Forall2 (edited g (S d)) l l' -> edited g d (Obj h (CSequence l)) (Obj h (CSequence l'))
| edited_set h l l' : Forall2 (edited g (S d)) l l' -> edited g d (Obj h (CSet l)) (Obj h (CSet l')).

(** [g] keeps the variant of a content, and does not touch what the callbacks
    get by shared reference. *)
Definition allowed (c c' : content) : Prop :=
  match c with
  | CEndOfContent | CNull | COctetString _ | CStr KUTF8 _ | CGeneralizedTime _ | CUTCTime _
  | COptional None => c' = c
  | CBoolean _ => exists b, c' = CBoolean b
  | CInteger _ => exists s, c' = CInteger s
  | CBitString _ _ => exists u s, c' = CBitString u s
  | CEnum _ => exists n, c' = CEnum n
  | COID _ => exists o, c' = COID o
  | CRelativeOID _ => exists o, c' = CRelativeOID o
  | CStr k _ => exists s, c' = CStr k s
  | CBmpString _ => exists s, c' = CBmpString s
  | CUniversalString _ => exists s, c' = CUniversalString s
  | COptional (Some _) => exists o, c' = COptional (Some o)
  | CTagged _ _ _ => exists k t o, c' = CTagged k t o
  | CUnknown _ => exists a, c' = CUnknown a
  | CSequence _ | CSet _ => True
  end.

(** Same headers, same variants, same nesting; leaves changed as [allowed]. *)
Inductive same_shape : obj -> obj -> Prop :=
| shape_leaf h c c' : (forall l, c <> CSequence l) -> (forall l, c <> CSet l) -> allowed c c' ->
    same_shape (Obj h c) (Obj h c')
| shape_seq h l l' : Forall2 same_shape l l' -> same_shape (Obj h (CSequence l)) (Obj h (CSequence l'))
| shape_set h l l' : Forall2 same_shape l l' -> same_shape (Obj h (CSet l)) (Obj h (CSet l')).

(** ** Visitors that rewrite objects

    [rewritten g gs gt d s o s' o']: starting in state [s] with [o] at depth [d],
    each object is first replaced through [g]; the members of the SEQUENCE (SET)
    that this leaves are replaced through [gs] ([gt]) as a list, and then each of
    the new members is rewritten in turn, one level deeper, from left to right. *)
Section Rewriting.
  Context {St : Type} (g : St -> obj -> nat -> St * obj) (gs gt : St -> list obj -> nat -> St * list obj).

  Inductive rewritten : nat -> St -> obj -> St -> obj -> Prop :=
  | rw_leaf d s o s1 h c :
      g s o d = (s1, Obj h c) -> (forall l, c <> CSequence l) -> (forall l, c <> CSet l) ->
      rewritten d s o s1 (Obj h c)
  | rw_seq d s o s1 h l s2 l2 s3 l3 :
      g s o d = (s1, Obj h (CSequence l)) -> gs s1 l d = (s2, l2) -> rewritten_all (S d) s2 l2 s3 l3 ->
      rewritten d s o s3 (Obj h (CSequence l3))
  | rw_set d s o s1 h l s2 l2 s3 l3 :
      g s o d = (s1, Obj h (CSet l)) -> gt s1 l d = (s2, l2) -> rewritten_all (S d) s2 l2 s3 l3 ->
      rewritten d s o s3 (Obj h (CSet l3))
  with rewritten_all : nat -> St -> list obj -> St -> list obj -> Prop :=
  | rw_nil d s : rewritten_all d s [] s []
  | rw_cons d s o l s1 o' s2 l' :
      rewritten d s o s1 o' -> rewritten_all d s1 l s2 l' -> rewritten_all d s (o :: l) s2 (o' :: l').
End Rewriting.
