(** * Types and their encodings (for C89)

    A small schema language in the manner of X.680, the data a type describes,
    the encodings X.690 gives it, and the objects a parser for the type should
    return.  No function of the model is used. *)

From Coq Require Import Permutation Sorted.
From Verif Require Import Base Asn1rs Spec SpecOid SpecAbstract.

(** [TValue t]: the values of the universal type with tag number [t] (the
    contents of a SEQUENCE or SET are not looked into); SEQUENCE with its
    components, each mandatory or OPTIONAL; SEQUENCE OF; SET OF; SET with its
    components; explicit tagging; implicit tagging of the primitive types and of
    SEQUENCE; CHOICE between two types (of which one may be a CHOICE again). *)
Inductive ty :=
| TValue (t : tag)
| TSequence (fs : fields)
| TSequenceOf (e : ty)
| TSetOf (e : ty)
| TSet (fs : fields)
| TExplicit (cl : class) (t : tag) (e : ty)
| TImplicit (cl : class) (t u : tag)
| TImplicitSequence (cl : class) (t : tag) (fs : fields)
| TChoice (e1 e2 : ty)
with fields :=
| FNil
| FCons (optional : bool) (e : ty) (fs : fields).

Inductive data :=
| DValue (v : asn1)
| DRecord (l : list (option data))
| DList (l : list data)
| DInside (d : data)
| DFirst (d : data)
| DSecond (d : data).

(** The types between which a CHOICE chooses in the end; of another type, itself. *)
Fixpoint alternatives (e : ty) : list ty :=
  match e with
  | TChoice e1 e2 => alternatives e1 ++ alternatives e2
  | _ => [e]
  end.

(** The tag number every encoding of the type starts with ([ty_tag] of a CHOICE means
    nothing), and the tag numbers an encoding may start with. *)
Definition ty_tag (e : ty) : tag :=
  match e with
  | TValue t => t
  | TSequence _ | TSequenceOf _ => 16
  | TSetOf _ | TSet _ => 17
  | TExplicit _ t _ | TImplicit _ t _ | TImplicitSequence _ t _ => t
  | TChoice _ _ => 0
  end.

Definition ty_tags (e : ty) : list tag := map ty_tag (alternatives e).

(** No tag number is in both lists. *)
Definition apart (l l' : list tag) : Prop := forall t, In t l -> ~ In t l'.

(** The tag numbers the remaining components may start with. *)
Fixpoint firsts (fs : fields) : list tag :=
  match fs with
  | FNil => []
  | FCons true e fs => ty_tags e ++ firsts fs
  | FCons false e _ => ty_tags e
  end.

(** X.680 25.6: the tag of an OPTIONAL component differs from those of the
    components after it, up to and including the first mandatory one; 29.3: the
    tags of the alternatives of a CHOICE are distinct.  Here tag numbers must differ (the library does not compare classes).  Tag numbers are
    below 2^32. *)
Fixpoint proper (e : ty) : Prop :=
  match e with
  | TValue _ => True
  | TSequence fs | TSet fs => proper_fields fs
  | TSequenceOf e | TSetOf e => proper e
  | TExplicit cl t e => cl <> Universal /\ t < 2 ^ 32 /\ proper e
  | TImplicit cl t _ => cl <> Universal /\ t < 2 ^ 32
  | TImplicitSequence cl t fs => cl <> Universal /\ t < 2 ^ 32 /\ proper_fields fs
  | TChoice e1 e2 => proper e1 /\ proper e2 /\ apart (ty_tags e1) (ty_tags e2)
  end
with proper_fields (fs : fields) : Prop :=
  match fs with
  | FNil => True
  | FCons optional e fs =>
      proper e /\ proper_fields fs /\ (optional = true -> apart (ty_tags e) (firsts fs))
  end.

Definition universal_value (v : asn1) : Prop :=
  match v with AExplicit _ _ _ => False | _ => True end.

(** ** Encodings

    [encodes_as e n d bs]: [bs] is an encoding of [d] as a value of type [e], with
    at most [n] levels.  X.690 8.9, 8.10, 8.12 (components in order, absent ones
    left out), 8.13 (a CHOICE is encoded as the alternative chosen), 8.14 (tagging).  Of the encodings of a SET those are meant that have
    its components in the order of the type (for the others see [encodes_set]); the
    order 11.6 asks of a SET OF is free here.  With [lim], empty contents under an implicit tag
    with number 0 are left out: the library takes such an element for
    end-of-contents octets. *)
Section Encodings.
Context (ru : rules) (lim : bool).

Inductive encodes_as : ty -> nat -> data -> bytes -> Prop :=
| as_value n v bs :
    encodes ru n v bs -> universal_value v -> supported v ->
    encodes_as (TValue (value_tag v)) n (DValue v) bs
| as_sequence n fs ds c bs :
    encodes_fields fs n ds c -> wrapped ru Universal 16 c bs ->
    encodes_as (TSequence fs) (S n) (DRecord ds) bs
| as_sequence_of n e ds c bs :
    encodes_each e n ds c -> wrapped ru Universal 16 c bs ->
    encodes_as (TSequenceOf e) (S n) (DList ds) bs
| as_set_of n e ds c bs :
    encodes_each e n ds c -> wrapped ru Universal 17 c bs ->
    encodes_as (TSetOf e) (S n) (DList ds) bs
| as_set n fs ds c bs :
    encodes_fields fs n ds c -> wrapped ru Universal 17 c bs ->
    encodes_as (TSet fs) (S n) (DRecord ds) bs
| as_explicit n cl t e d c bs :
    encodes_as e n d c -> wrapped ru cl t c bs ->
    encodes_as (TExplicit cl t e) (S n) (DInside d) bs
| as_implicit n cl t v c ib lb :
    contents ru v c -> supported v ->
    identifier cl false t ib -> definite_length ru (N.of_nat (length c)) lb ->
    (lim = true -> t = 0 -> c <> []) ->
    encodes_as (TImplicit cl t (value_tag v)) (S n) (DValue v) (ib ++ lb ++ c)
| as_implicit_sequence n cl t fs ds c bs :
    encodes_fields fs n ds c -> wrapped ru cl t c bs ->
    (lim = true -> t = 0 -> c <> []) ->
    encodes_as (TImplicitSequence cl t fs) (S n) (DRecord ds) bs
| as_first n e1 e2 d bs : encodes_as e1 n d bs -> encodes_as (TChoice e1 e2) n (DFirst d) bs
| as_second n e1 e2 d bs : encodes_as e2 n d bs -> encodes_as (TChoice e1 e2) n (DSecond d) bs
with encodes_fields : fields -> nat -> list (option data) -> bytes -> Prop :=
| as_no_field n : encodes_fields FNil n [] []
| as_present n optional e fs d ds bs rest :
    encodes_as e n d bs -> encodes_fields fs n ds rest ->
    encodes_fields (FCons optional e fs) n (Some d :: ds) (bs ++ rest)
| as_absent n e fs ds rest :
    encodes_fields fs n ds rest -> encodes_fields (FCons true e fs) n (None :: ds) rest
with encodes_each : ty -> nat -> list data -> bytes -> Prop :=
| as_no_element e n : encodes_each e n [] []
| as_element e n d ds bs rest :
    encodes_as e n d bs -> encodes_each e n ds rest -> encodes_each e n (d :: ds) (bs ++ rest).

End Encodings.

(** ** Decoded objects

    [decoded ru e d o]: the object [o] holds the data [d] of type [e]; its header
    has the tag number of the type (of the alternative chosen, for a CHOICE). *)
Inductive decoded (ru : rules) : ty -> data -> obj -> Prop :=
| dec_value v o :
    h_tag (o_header o) = value_tag v -> denotes ru o v -> decoded ru (TValue (value_tag v)) (DValue v) o
| dec_sequence fs ds h os :
    h_tag h = 16 -> decoded_fields ru fs ds os -> decoded ru (TSequence fs) (DRecord ds) (Obj h (CSequence os))
| dec_sequence_of e ds h os :
    h_tag h = 16 -> decoded_each ru e ds os -> decoded ru (TSequenceOf e) (DList ds) (Obj h (CSequence os))
| dec_set_of e ds h os :
    h_tag h = 17 -> decoded_each ru e ds os -> decoded ru (TSetOf e) (DList ds) (Obj h (CSet os))
| dec_set fs ds h os :
    h_tag h = 17 -> decoded_fields ru fs ds os -> decoded ru (TSet fs) (DRecord ds) (Obj h (CSet os))
| dec_explicit cl t e d h o :
    h_class h = cl -> h_tag h = t -> decoded ru e d o ->
    decoded ru (TExplicit cl t e) (DInside d) (Obj h (CTagged cl t o))
| dec_implicit cl t v h k :
    h_class h = cl -> h_tag h = t -> denotes ru (Obj h k) v ->
    decoded ru (TImplicit cl t (value_tag v)) (DValue v) (Obj h k)
| dec_implicit_sequence cl t fs ds h os :
    h_class h = cl -> h_tag h = t -> decoded_fields ru fs ds os ->
    decoded ru (TImplicitSequence cl t fs) (DRecord ds) (Obj h (CSequence os))
| dec_first e1 e2 d o : decoded ru e1 d o -> decoded ru (TChoice e1 e2) (DFirst d) o
| dec_second e1 e2 d o : decoded ru e2 d o -> decoded ru (TChoice e1 e2) (DSecond d) o
with decoded_fields (ru : rules) : fields -> list (option data) -> list obj -> Prop :=
| dec_no_field : decoded_fields ru FNil [] []
| dec_mandatory e fs d ds o os :
    decoded ru e d o -> decoded_fields ru fs ds os ->
    decoded_fields ru (FCons false e fs) (Some d :: ds) (o :: os)
| dec_present e fs d ds h o os :
    decoded ru e d o -> decoded_fields ru fs ds os ->
    decoded_fields ru (FCons true e fs) (Some d :: ds) (Obj h (COptional (Some o)) :: os)
| dec_absent e fs ds h os :
    decoded_fields ru fs ds os ->
    decoded_fields ru (FCons true e fs) (None :: ds) (Obj h (COptional None) :: os)
with decoded_each (ru : rules) : ty -> list data -> list obj -> Prop :=
| dec_no_element e : decoded_each ru e [] []
| dec_element e d ds o os :
    decoded ru e d o -> decoded_each ru e ds os -> decoded_each ru e (d :: ds) (o :: os).

(** ** Objects made to be encoded (for C90)

    [made e n o d]: [o] is an object for the data [d] of type [e], built the way
    the library's constructors do it (see [stands]).  An absent component is left
    out; a present OPTIONAL one may be wrapped as [Optional], under its own class,
    form and tag number. *)
Inductive made : ty -> nat -> obj -> data -> Prop :=
| b_value n o v :
    stands Der n o v -> universal_value v -> supported v -> made (TValue (value_tag v)) n o (DValue v)
| b_sequence n fs h os ds :
    header_is h Universal true 16 -> made_fields fs n os ds ->
    made (TSequence fs) (S n) (Obj h (CSequence os)) (DRecord ds)
| b_sequence_of n e h os ds :
    header_is h Universal true 16 -> made_each e n os ds ->
    made (TSequenceOf e) (S n) (Obj h (CSequence os)) (DList ds)
| b_set_of n e h os ds :
    header_is h Universal true 17 -> made_each e n os ds ->
    made (TSetOf e) (S n) (Obj h (CSet os)) (DList ds)
| b_set n fs h os ds :
    header_is h Universal true 17 -> made_fields fs n os ds ->
    made (TSet fs) (S n) (Obj h (CSet os)) (DRecord ds)
| b_explicit n cl t e h o d :
    header_is h cl true t -> t < 31 -> made e n o d ->
    made (TExplicit cl t e) (S n) (Obj h (CTagged cl t o)) (DInside d)
| b_implicit n cl t h k v :
    header_is h cl false t -> t < 31 -> stored Der k v -> supported v ->
    made (TImplicit cl t (value_tag v)) (S n) (Obj h k) (DValue v)
| b_implicit_sequence n cl t fs h os ds :
    header_is h cl true t -> t < 31 -> made_fields fs n os ds ->
    made (TImplicitSequence cl t fs) (S n) (Obj h (CSequence os)) (DRecord ds)
| b_first n e1 e2 o d : made e1 n o d -> made (TChoice e1 e2) n o (DFirst d)
| b_second n e1 e2 o d : made e2 n o d -> made (TChoice e1 e2) n o (DSecond d)
with made_fields : fields -> nat -> list obj -> list (option data) -> Prop :=
| b_no_field n : made_fields FNil n [] []
| b_component n optional e fs o os d ds :
    made e n o d -> made_fields fs n os ds ->
    made_fields (FCons optional e fs) n (o :: os) (Some d :: ds)
| b_optional n e fs h h' k os d ds :
    made e n (Obj h' k) d -> header_is h (h_class h') (h_constructed h') (h_tag h') ->
    made_fields fs n os ds ->
    made_fields (FCons true e fs) n (Obj h (COptional (Some (Obj h' k))) :: os) (Some d :: ds)
| b_absent n e fs os ds :
    made_fields fs n os ds -> made_fields (FCons true e fs) n os (None :: ds)
with made_each : ty -> nat -> list obj -> list data -> Prop :=
| b_no_element e n : made_each e n [] []
| b_element e n o os d ds :
    made e n o d -> made_each e n os ds -> made_each e n (o :: os) (d :: ds).

(** Data that can be written from the object the reader returns: no component is
    absent (for C91). *)
Inductive rewritable : ty -> data -> Prop :=
| rw_value v : writable v -> rewritable (TValue (value_tag v)) (DValue v)
| rw_sequence fs ds : rewritable_fields fs ds -> rewritable (TSequence fs) (DRecord ds)
| rw_sequence_of e ds : rewritable_each e ds -> rewritable (TSequenceOf e) (DList ds)
| rw_set_of e ds : rewritable_each e ds -> rewritable (TSetOf e) (DList ds)
| rw_set fs ds : rewritable_fields fs ds -> rewritable (TSet fs) (DRecord ds)
| rw_explicit cl t e d : t < 31 -> rewritable e d -> rewritable (TExplicit cl t e) (DInside d)
| rw_implicit cl t v : t < 31 -> writable v -> rewritable (TImplicit cl t (value_tag v)) (DValue v)
| rw_implicit_sequence cl t fs ds :
    t < 31 -> rewritable_fields fs ds -> rewritable (TImplicitSequence cl t fs) (DRecord ds)
| rw_first e1 e2 d : rewritable e1 d -> rewritable (TChoice e1 e2) (DFirst d)
| rw_second e1 e2 d : rewritable e2 d -> rewritable (TChoice e1 e2) (DSecond d)
with rewritable_fields : fields -> list (option data) -> Prop :=
| rw_no_field : rewritable_fields FNil []
| rw_component optional e fs d ds :
    rewritable e d -> rewritable_fields fs ds -> rewritable_fields (FCons optional e fs) (Some d :: ds)
with rewritable_each : ty -> list data -> Prop :=
| rw_no_element e : rewritable_each e []
| rw_element e d ds : rewritable e d -> rewritable_each e ds -> rewritable_each e (d :: ds).

(** ** SET with components (for C97)

    X.690 8.11: the sender puts the components in any order; 10.3: in a distinguished
    encoding they are in the canonical order of their tags, X.680 8.6: by class
    (universal, application, context-specific, private), then by number.  For a CHOICE
    the tag of the alternative chosen counts (10.3, note).  [ty_class] and [tag_before]
    are meant for types that are not a CHOICE. *)
Definition ty_class (e : ty) : class :=
  match e with
  | TExplicit cl _ _ | TImplicit cl _ _ | TImplicitSequence cl _ _ => cl
  | _ => Universal
  end.

Definition class_rank (c : class) : N :=
  match c with Universal => 0 | Application => 1 | ContextSpecific => 2 | Private => 3 end.

Definition tag_before (e e' : ty) : Prop :=
  class_rank (ty_class e) < class_rank (ty_class e')
  \/ class_rank (ty_class e) = class_rank (ty_class e') /\ ty_tag e < ty_tag e'.

(** The alternative chosen. *)
Fixpoint chosen (e : ty) (d : data) : ty :=
  match e, d with
  | TChoice e1 _, DFirst d => chosen e1 d
  | TChoice _ e2, DSecond d => chosen e2 d
  | _, _ => e
  end.

(** The components that are present, each with its type and its encoding. *)
Inductive encodes_parts (ru : rules) (lim : bool) : fields -> nat -> list (option data) -> list (ty * bytes) -> Prop :=
| part_none n : encodes_parts ru lim FNil n [] []
| part_present n optional e fs d ds bs ps :
    encodes_as ru lim e n d bs -> encodes_parts ru lim fs n ds ps ->
    encodes_parts ru lim (FCons optional e fs) n (Some d :: ds) ((chosen e d, bs) :: ps)
| part_absent n e fs ds ps :
    encodes_parts ru lim fs n ds ps -> encodes_parts ru lim (FCons true e fs) n (None :: ds) ps.

(** [encodes_set fs n ds bs]: [bs] encodes [ds] as a SET with the components [fs]. *)
Definition encodes_set (ru : rules) (lim : bool) (fs : fields) (n : nat) (ds : list (option data)) (bs : bytes) : Prop :=
  exists ps ps', encodes_parts ru lim fs n ds ps /\ Permutation ps ps'
    /\ (ru = Der -> StronglySorted tag_before (map fst ps'))
    /\ wrapped ru Universal 17 (concat (map snd ps')) bs.

(** The type lists its components in canonical order, whichever alternatives are
    chosen. *)
Fixpoint field_types (fs : fields) : list ty :=
  match fs with FNil => [] | FCons _ e fs => e :: field_types fs end.

Definition all_before (e e' : ty) : Prop :=
  forall x y, In x (alternatives e) -> In y (alternatives e') -> tag_before x y.

Definition canonical (fs : fields) : Prop := StronglySorted all_before (field_types fs).

(** X.690 11.6: the order of the encodings in a SET OF.  (No encoding is a beginning
    of another, so padding is not needed.) *)
Inductive octets_before : bytes -> bytes -> Prop :=
| ob_here x y a b : x < y -> octets_before (x :: a) (y :: b)
| ob_later x a b : octets_before a b -> octets_before (x :: a) (x :: b).
