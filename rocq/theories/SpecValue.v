(** * Independent specification of decoded values.

    From Asn1rs.v only the record [leaves] (the abstract leaf decoders) is
    used. *)

From Verif Require Import Base Asn1rs Spec.

(** ** Object trees *)

(** [node n o]: [n] is [o] or an object contained in it. *)
Inductive node : obj -> obj -> Prop :=
| node_self o : node o o
| node_seq n x h l : In x l -> node n x -> node n (Obj h (CSequence l))
| node_set n x h l : In x l -> node n x -> node n (Obj h (CSet l))
| node_optional n x h : node n x -> node n (Obj h (COptional (Some x)))
| node_tagged n x h c t : node n x -> node n (Obj h (CTagged c t x)).

(** Number of SEQUENCE/SET levels. *)
Fixpoint nesting (o : obj) : nat :=
  match o with Obj _ c => nesting_content c end
with nesting_content (c : content) : nat :=
  match c with
  | CSequence l => S (list_max (map nesting l))
  | CSet l => S (list_max (map nesting l))
  | COptional (Some o) => nesting o
  | CTagged _ _ o => nesting o
  | _ => O
  end.

(** The byte strings stored in a node itself. *)
Definition raw_tag_slices (h : header) : list bytes :=
  match h_raw_tag h with Some s => [s] | None => [] end.
Definition slices (o : obj) : list bytes :=
  match o with
  | Obj h c =>
      raw_tag_slices h ++
      match c with
      | CInteger s | COctetString s | CBitString _ s | CStr _ s
      | CBmpString s | CUniversalString s => [s]
      | COID x | CRelativeOID x => [oid_bytes x]
      | CUnknown a => a_data a :: raw_tag_slices (a_header a)
      | _ => []
      end
  end.

(** ** Universal tags (X.680 8.4, table 1) *)

Definition str_tag (k : strkind) : tag :=
  match k with
  | KObjectDescriptor => 7 | KUTF8 => 12 | KNumeric => 18 | KPrintable => 19 | KT61 => 20
  | KVideotex => 21 | KIA5 => 22 | KGraphic => 25 | KVisible => 26 | KGeneral => 27
  end.

(** The universal tag number whose values a content variant represents. *)
Definition variant_tag (c : content) : option tag :=
  match c with
  | CEndOfContent => Some 0 | CBoolean _ => Some 1 | CInteger _ => Some 2
  | CBitString _ _ => Some 3 | COctetString _ => Some 4 | CNull => Some 5
  | COID _ => Some 6 | CEnum _ => Some 10 | CRelativeOID _ => Some 13
  | CSequence _ => Some 16 | CSet _ => Some 17
  | CUTCTime _ => Some 23 | CGeneralizedTime _ => Some 24
  | CUniversalString _ => Some 28 | CBmpString _ => Some 30
  | CStr k _ => Some (str_tag k)
  | COptional _ | CTagged _ _ _ | CUnknown _ => None
  end.

(** The universal tags that have a variant of their own. *)
Definition mapped_tags : list tag :=
  [0; 1; 2; 3; 4; 5; 6; 7; 10; 12; 13; 16; 17; 18; 19; 20; 21; 22; 23; 24; 25; 26; 27; 28; 30].

(** Permitted contents of the [&str] types; the loosely specified ones are
    decided by the abstract [lf_charset]. *)
Definition repertoire (L : leaves) (k : strkind) (s : bytes) : Prop :=
  match k with
  | KNumeric => Forall numeric_permitted s
  | KVisible => Forall visible_permitted s
  | KPrintable => Forall printable_permitted s
  | KIA5 => Forall ia5_permitted s
  | KUTF8 => utf8_text s
  | _ => lf_charset L k s = true
  end.

(** ** Values

    [value L d h c k]: an element with header [h] and content octets [c]
    denotes the content [k]; [d] bounds the nesting.  [series L d c l]: the
    octets [c] are a series of elements denoting the objects [l].
    The elements inside a SEQUENCE or SET are delimited with at most 50
    levels of indefinite-length nesting. *)
Inductive value (L : leaves) : nat -> header -> bytes -> content -> Prop :=
| v_other_class d h c :
    h_class h <> Universal -> value L (S d) h c (CUnknown (mkAny h c))
| v_unmapped d h c :
    h_class h = Universal -> ~ In (h_tag h) mapped_tags ->
    value L (S d) h c (CUnknown (mkAny h c))
| v_end_of_content d h c :
    h_class h = Universal -> h_tag h = 0 -> value L (S d) h c CEndOfContent
| v_boolean d h b :
    h_class h = Universal -> h_tag h = 1 -> h_length h = Definite 1 ->
    value L (S d) h [b] (CBoolean (negb (b =? 0)))
| v_integer d h c :
    h_class h = Universal -> h_tag h = 2 -> value L (S d) h c (CInteger c)
| v_bit_string d h u c :
    h_class h = Universal -> h_tag h = 3 -> h_constructed h = false ->
    value L (S d) h (u :: c) (CBitString u c)
| v_octet_string d h c :
    h_class h = Universal -> h_tag h = 4 -> value L (S d) h c (COctetString c)
| v_null d h c :
    h_class h = Universal -> h_tag h = 5 -> value L (S d) h c CNull
| v_oid d h c :
    h_class h = Universal -> h_tag h = 6 -> lf_oid_check L (h_constructed h) (h_length h) c = None ->
    value L (S d) h c (COID (mkOid false c))
| v_enumerated d h c :
    h_class h = Universal -> h_tag h = 10 -> h_constructed h = false -> unsigned c < 2 ^ 32 ->
    value L (S d) h c (CEnum (unsigned c))
| v_relative_oid d h c :
    h_class h = Universal -> h_tag h = 13 -> lf_reloid_check L (h_constructed h) (h_length h) c = None ->
    value L (S d) h c (CRelativeOID (mkOid true c))
| v_sequence d h c l :
    h_class h = Universal -> h_tag h = 16 -> h_constructed h = true -> series L d c l ->
    value L (S d) h c (CSequence l)
| v_set d h c l :
    h_class h = Universal -> h_tag h = 17 -> h_constructed h = true -> series L d c l ->
    value L (S d) h c (CSet l)
| v_utc_time d h c t :
    h_class h = Universal -> h_tag h = 23 -> lf_utctime L (h_constructed h) (h_length h) c = inr t ->
    value L (S d) h c (CUTCTime t)
| v_generalized_time d h c t :
    h_class h = Universal -> h_tag h = 24 -> lf_gentime L (h_constructed h) (h_length h) c = inr t ->
    value L (S d) h c (CGeneralizedTime t)
| v_universal_string d h c :
    h_class h = Universal -> h_tag h = 28 -> h_constructed h = false ->
    value L (S d) h c (CUniversalString c)
| v_bmp_string d h c :
    h_class h = Universal -> h_tag h = 30 -> h_constructed h = false -> utf16be_text c ->
    value L (S d) h c (CBmpString c)
| v_string d h k c :
    h_class h = Universal -> h_tag h = str_tag k -> h_constructed h = false ->
    repertoire L k c -> utf8_text c ->
    value L (S d) h c (CStr k c)
with series (L : leaves) : nat -> bytes -> list obj -> Prop :=
| s_nil d : series L d [] []
| s_cons d bs h c k rest l :
    element 50 h c bs -> value L d h c k -> series L d rest l ->
    series L d (bs ++ rest) (Obj h k :: l).

(** ** Nesting of the input

    [nested n bs]: [bs] is an element with at least [n] levels of universal
    SEQUENCE/SET; at each level other elements may precede and follow the next
    level. *)
Inductive elements : bytes -> Prop :=
| elements_nil : elements []
| elements_cons h c bs rest : element 50 h c bs -> elements rest -> elements (bs ++ rest).

Inductive nested : nat -> bytes -> Prop :=
| nested_O bs : nested O bs
| nested_S n h c bs before inner after :
    element 50 h c bs -> h_class h = Universal -> (h_tag h = 16 \/ h_tag h = 17) ->
    c = before ++ inner ++ after -> elements before -> nested n inner ->
    nested (S n) bs.

(** No leaf decoder answers [UnknownTag] (an error that asn1-rs raises only
    for unknown universal tags, never for the contents of a known one). *)
Definition no_unknown_tag (L : leaves) : Prop :=
  forall pc l c t,
    lf_oid_check L pc l c <> Some (UnknownTag t)
    /\ lf_reloid_check L pc l c <> Some (UnknownTag t)
    /\ lf_utctime L pc l c <> inl (UnknownTag t)
    /\ lf_gentime L pc l c <> inl (UnknownTag t).

(** ** Headers that differ at most in the raw tag, which counts only when both have
    one.  (The [==] of the crate leaves the length out too, see SpecEqual.v.) *)
Definition same_header (h h' : header) : Prop :=
  h_class h = h_class h' /\ h_constructed h = h_constructed h' /\ h_tag h = h_tag h'
  /\ h_length h = h_length h'
  /\ (h_raw_tag h = None \/ h_raw_tag h' = None \/ h_raw_tag h = h_raw_tag h').

(** The same content, except that an undecoded element may be kept under two
    headers that compare equal. *)
Definition same_content (k k' : content) : Prop :=
  k = k' \/ exists h h' c, k = CUnknown (mkAny h c) /\ k' = CUnknown (mkAny h' c) /\ same_header h h'.

(** ** DER

    The constraints the DER reader imposes on the element it is given (not on
    those nested in it). *)
Definition der_bit_string (constructed : bool) (c : bytes) : Prop :=
  constructed = false
  /\ exists u data, c = u :: data /\ u <= 7 /\ (data <> [] -> last data 0 mod 2 ^ u = 0).

Definition der_element_ok (h : header) (c : bytes) : Prop :=
  h_class h = Universal ->
  der_checked (h_tag h) (h_constructed h) c
  /\ (h_tag h = 3 -> der_bit_string (h_constructed h) c).

(** The header under which the DER reader decodes an element (and that an
    [Unknown] content carries): the raw tag of a universal element is lost. *)
Definition der_view (h : header) : header :=
  match h_class h with
  | Universal => mkHeader Universal (h_constructed h) (h_tag h) (h_length h) None
  | _ => h
  end.
