(** * What a parser composed for a type accepts (for C98, C99)

    Said in terms of elements, their contents and the values these denote; no
    function of the model is used. *)

From Verif Require Import Base Asn1rs Spec SpecValue SpecComb SpecSchema.

(** [pieces P c os]: [c] is used up by elements of the kind [P], which give [os].
    [P i r o]: an element at the front of [i] gives [o] and leaves [r]. *)
Inductive pieces (P : bytes -> bytes -> obj -> Prop) : bytes -> list obj -> Prop :=
| pieces_none : pieces P [] []
| pieces_one c rest o os :
    P c rest o -> (length rest < length c)%nat -> pieces P rest os -> pieces P c (o :: os).

Section Accepted.
Context (L : leaves) (der : bool).

Definition an_element (h : header) (c bs : bytes) : Prop :=
  if der then definite_element h c bs else element 50 h c bs.

(** The header of a universal type with the form and length of [h]. *)
Definition taken_as (u : tag) (h : header) : header :=
  mkHeader Universal (h_constructed h) u (h_length h) None.

(** [c], under the header [h], are contents of the universal type [u] with the
    value [k]. *)
Definition contents_as (u : tag) (h : header) (c : bytes) (k : content) : Prop :=
  (if der then (u <> 3 -> N.of_nat (length c) <= 4294967295)
      /\ der_checked u (h_constructed h) c /\ (u = 3 -> der_bit_string (h_constructed h) c)
   else forall n, h_length h = Definite n -> n <= 4294967295)
  /\ value L 50 (taken_as u h) c k.

(** Under an implicit tag; elements of indefinite length are never read (see C70). *)
Definition implicit_contents (u : tag) (h : header) (c : bytes) (k : content) : Prop :=
  h_length h <> Indefinite /\ contents_as u h c k.

Definition made_header (t : tag) : header := mkHeader Universal true t (Definite 0) None.

(** [accepted e i r o]: the parser for [e], given [i], leaves [r] and returns [o].
    Only the tag number of an element counts; what follows the last component in a
    SEQUENCE, a SET or an explicit tag does not count; an OPTIONAL component is
    absent if and only if no element of its type is at this place.  (For types whose
    alternatives have distinct tag numbers, see [distinct].) *)
Fixpoint accepted (e : ty) : bytes -> bytes -> obj -> Prop :=
  match e with
  | TValue t => fun i r o => exists bs h c k,
      i = bs ++ r /\ an_element h c bs /\ h_tag h = t /\ contents_as t h c k /\ o = Obj h k
  | TSequence fs => fun i r o => exists bs h c rest os,
      i = bs ++ r /\ an_element h c bs /\ h_tag h = 16 /\ accepted_fields fs c rest os
      /\ o = Obj (made_header 16) (CSequence os)
  | TSequenceOf e => fun i r o => exists bs h c os,
      i = bs ++ r /\ an_element h c bs /\ h_tag h = 16 /\ pieces (accepted e) c os
      /\ o = Obj (made_header 16) (CSequence os)
  | TSetOf e => fun i r o => exists bs h c os,
      i = bs ++ r /\ an_element h c bs /\ h_tag h = 17 /\ pieces (accepted e) c os
      /\ o = Obj (made_header 17) (CSet os)
  | TSet fs => fun i r o => exists bs h c rest os,
      i = bs ++ r /\ an_element h c bs /\ h_tag h = 17 /\ accepted_fields fs c rest os
      /\ o = Obj (made_header 17) (CSet os)
  | TExplicit _ t e => fun i r o => exists bs h c rest x,
      i = bs ++ r /\ an_element h c bs /\ h_class h <> Universal /\ h_tag h = t /\ h_constructed h = true
      /\ accepted e c rest x /\ o = Obj h (CTagged (h_class h) t x)
  | TImplicit _ t u => fun i r o => exists bs h c k,
      i = bs ++ r /\ an_element h c bs /\ h_tag h = t /\ implicit_contents u h c k /\ o = Obj h k
  | TImplicitSequence _ t fs => fun i r o => exists bs h c rest os,
      i = bs ++ r /\ an_element h c bs /\ h_tag h = t /\ accepted_fields fs c rest os
      /\ o = Obj h (CSequence os)
  | TChoice e1 e2 => fun i r o => accepted e1 i r o \/ accepted e2 i r o
  end
with accepted_fields (fs : fields) : bytes -> bytes -> list obj -> Prop :=
  match fs with
  | FNil => fun i r os => r = i /\ os = []
  | FCons false e fs => fun i r os => exists m o os',
      accepted e i m o /\ accepted_fields fs m r os' /\ os = o :: os'
  | FCons true e fs => fun i r os =>
      (exists m o os', accepted e i m o /\ accepted_fields fs m r os'
         /\ os = Obj (o_header o) (COptional (Some o)) :: os')
      \/ ((forall m o, ~ accepted e i m o)
          /\ exists os', accepted_fields fs i r os'
               /\ os = Obj (mkHeader Universal false 0 (Definite 0) None) (COptional None) :: os')
  end.
End Accepted.

(** ** The shape of what is returned

    In the words of a program that has the object and knows the type. *)

(** The variant that holds values of the universal type with tag number [t]. *)
Definition variant (t : tag) (k : content) : Prop :=
  match t with
  | 0 => k = CEndOfContent
  | 1 => exists b, k = CBoolean b
  | 2 => exists s, k = CInteger s
  | 3 => exists u s, k = CBitString u s
  | 4 => exists s, k = COctetString s
  | 5 => k = CNull
  | 6 => exists s, k = COID (mkOid false s)
  | 7 => exists s, k = CStr KObjectDescriptor s
  | 10 => exists n, k = CEnum n
  | 12 => exists s, k = CStr KUTF8 s
  | 13 => exists s, k = CRelativeOID (mkOid true s)
  | 16 => exists l, k = CSequence l
  | 17 => exists l, k = CSet l
  | 18 => exists s, k = CStr KNumeric s
  | 19 => exists s, k = CStr KPrintable s
  | 20 => exists s, k = CStr KT61 s
  | 21 => exists s, k = CStr KVideotex s
  | 22 => exists s, k = CStr KIA5 s
  | 23 => exists t, k = CUTCTime t
  | 24 => exists t, k = CGeneralizedTime t
  | 25 => exists s, k = CStr KGraphic s
  | 26 => exists s, k = CStr KVisible s
  | 27 => exists s, k = CStr KGeneral s
  | 28 => exists s, k = CUniversalString s
  | 30 => exists s, k = CBmpString s
  | _ => exists a, k = CUnknown a /\ h_tag (a_header a) = t
  end.

Fixpoint shaped (e : ty) (o : obj) : Prop :=
  match e with
  | TValue t => h_tag (o_header o) = t /\ variant t (o_content o)
  | TSequence fs => exists os, o_content o = CSequence os /\ shaped_fields fs os
  | TSequenceOf e => exists os, o_content o = CSequence os /\ Forall (shaped e) os
  | TSetOf e => exists os, o_content o = CSet os /\ Forall (shaped e) os
  | TSet fs => exists os, o_content o = CSet os /\ shaped_fields fs os
  | TExplicit _ t e => exists cl x, o_content o = CTagged cl t x /\ cl = h_class (o_header o)
      /\ cl <> Universal /\ h_tag (o_header o) = t /\ shaped e x
  | TImplicit _ t u => h_tag (o_header o) = t /\ variant u (o_content o)
  | TImplicitSequence _ t fs => h_tag (o_header o) = t
      /\ exists os, o_content o = CSequence os /\ shaped_fields fs os
  | TChoice e1 e2 => shaped e1 o \/ shaped e2 o
  end
with shaped_fields (fs : fields) (os : list obj) : Prop :=
  match fs, os with
  | FNil, [] => True
  | FCons false e fs, o :: os => shaped e o /\ shaped_fields fs os
  | FCons true e fs, o :: os =>
      (exists x, o_content o = COptional x /\ match x with Some x => shaped e x | None => True end)
      /\ shaped_fields fs os
  | _, _ => False
  end.

(** The alternatives of every CHOICE have distinct tag numbers. *)
Fixpoint distinct (e : ty) : Prop :=
  match e with
  | TValue _ | TImplicit _ _ _ => True
  | TSequence fs | TSet fs | TImplicitSequence _ _ fs => distinct_fields fs
  | TSequenceOf e | TSetOf e | TExplicit _ _ e => distinct e
  | TChoice e1 e2 => distinct e1 /\ distinct e2 /\ apart (ty_tags e1) (ty_tags e2)
  end
with distinct_fields (fs : fields) : Prop :=
  match fs with
  | FNil => True
  | FCons _ e fs => distinct e /\ distinct_fields fs
  end.

(** Types without OPTIONAL components. *)
Fixpoint mandatory (e : ty) : Prop :=
  match e with
  | TValue _ | TImplicit _ _ _ => True
  | TSequence fs | TSet fs | TImplicitSequence _ _ fs => mandatory_fields fs
  | TSequenceOf e | TSetOf e | TExplicit _ _ e => mandatory e
  | TChoice e1 e2 => mandatory e1 /\ mandatory e2
  end
with mandatory_fields (fs : fields) : Prop :=
  match fs with
  | FNil => True
  | FCons optional e fs => optional = false /\ mandatory e /\ mandatory_fields fs
  end.
