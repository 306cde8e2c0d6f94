(** * Independent specification for the serializer. *)

From Verif Require Import Base Asn1rs Spec SpecValue.

(** An object without the fields that encoding does not preserve: length and
    raw tag of every header. *)
Definition erase_h (h : header) : header :=
  mkHeader (h_class h) (h_constructed h) (h_tag h) (Definite 0) None.
Fixpoint erase (o : obj) : obj :=
  match o with Obj h c => Obj (erase_h h) (erase_content c) end
with erase_content (c : content) : content :=
  match c with
  | CSequence l => CSequence (map erase l)
  | CSet l => CSet (map erase l)
  | COptional (Some o) => COptional (Some (erase o))
  | CTagged k t o => CTagged k t (erase o)
  | CUnknown a => CUnknown (mkAny (erase_h (a_header a)) (a_data a))
  | c => c
  end.

(** [written h o]: the header [h] has to be written to encode [o].  The header
    of the object inside an [Optional] is not: the outer object has it. *)
Inductive written (h : header) : obj -> Prop :=
| written_self c : written h (Obj h c)
| written_inside h' c : written_in h c -> written h (Obj h' c)
with written_in (h : header) : content -> Prop :=
| written_seq x l : In x l -> written h x -> written_in h (CSequence l)
| written_set x l : In x l -> written h x -> written_in h (CSet l)
| written_tagged k t o : written h o -> written_in h (CTagged k t o)
| written_optional h' c : written_in h c -> written_in h (COptional (Some (Obj h' c))).

(** No time value in the object. *)
Definition no_times (o : obj) : Prop :=
  forall n t, node n o -> o_content n <> CUTCTime t /\ o_content n <> CGeneralizedTime t.

(** The OID decoders do not insist on an indefinite or wrong length field. *)
Definition length_blind (L : leaves) : Prop :=
  forall pc l c,
    (lf_oid_check L pc l c = None -> lf_oid_check L pc (Definite (N.of_nat (length c))) c = None)
    /\ (lf_reloid_check L pc l c = None -> lf_reloid_check L pc (Definite (N.of_nat (length c))) c = None).

(** Contents without objects inside, valid for their type ([pc]: the
    constructed bit of the header). *)
Definition leaf_ok (L : leaves) (pc : bool) (k : content) : Prop :=
  match k with
  | CEndOfContent | CBoolean _ | CNull => True
  | CInteger s | COctetString s => bytes_ok s
  | CUniversalString s => pc = false /\ bytes_ok s
  | CBitString u s => pc = false /\ u < 256 /\ bytes_ok s
  | CEnum n => pc = false /\ n < 2 ^ 32
  | COID (mkOid rel s) =>
      rel = false /\ bytes_ok s /\ lf_oid_check L pc (Definite (N.of_nat (length s))) s = None
  | CRelativeOID (mkOid rel s) =>
      rel = true /\ bytes_ok s /\ lf_reloid_check L pc (Definite (N.of_nat (length s))) s = None
  | CStr k s => pc = false /\ bytes_ok s /\ repertoire L k s /\ utf8_text s
  | CBmpString s => pc = false /\ bytes_ok s /\ utf16be_text s
  | CUTCTime t =>
      let s := lf_show_datetime L t in
      bytes_ok s /\ lf_utctime L pc (Definite (N.of_nat (length s))) s = inr t
  | CGeneralizedTime t =>
      let s := lf_show_datetime L t in
      bytes_ok s /\ lf_gentime L pc (Definite (N.of_nat (length s))) s = inr t
  | CSequence _ | CSet _ | COptional _ | CTagged _ _ _ | CUnknown _ => False
  end.

(** [well_formed L d o]: the class, tag and form in the headers of [o] agree
    with the contents, which are valid for their type; at most [d] levels. *)
Inductive well_formed (L : leaves) : nat -> obj -> Prop :=
| wf_leaf d h k :
    h_class h = Universal -> variant_tag k = Some (h_tag h) -> leaf_ok L (h_constructed h) k ->
    well_formed L (S d) (Obj h k)
| wf_unknown d h a :
    (h_class h <> Universal \/ ~ In (h_tag h) mapped_tags) ->
    erase_h (a_header a) = erase_h h -> bytes_ok (a_data a) ->
    well_formed L (S d) (Obj h (CUnknown a))
| wf_sequence d h l :
    h_class h = Universal -> h_tag h = 16 -> h_constructed h = true ->
    Forall (well_formed L d) l -> well_formed L (S d) (Obj h (CSequence l))
| wf_set d h l :
    h_class h = Universal -> h_tag h = 17 -> h_constructed h = true ->
    Forall (well_formed L d) l -> well_formed L (S d) (Obj h (CSet l)).

(** ** X.690 encodings

    [x690 L o bs]: [bs] is an X.690 encoding of [o], definite length; class,
    form and tag number are those of the headers, which have to be the ones of
    the type.  Restrictions: the contents octets of a GeneralizedTime are
    whatever [lf_show_datetime] prints and those of a UTCTime are only required
    to have one of the forms of X.680 47.3. *)
Definition digit (b : N) : Prop := 48 <= b <= 57.
Definition utc_time_form (s : bytes) : Prop :=
  exists digits zone, s = digits ++ zone /\ Forall digit digits
    /\ (length digits = 10%nat \/ length digits = 12%nat)
    /\ (zone = [90]
        \/ exists sign hhmm, zone = sign :: hhmm /\ (sign = 43 \/ sign = 45)
             /\ length hhmm = 4%nat /\ Forall digit hhmm).

Inductive x690 (L : leaves) : obj -> bytes -> Prop :=
| x690_object h c lb v :
    h_class h = Universal -> variant_tag c = Some (h_tag h) ->
    h_constructed h = match c with CSequence _ | CSet _ => true | _ => false end ->
    length_octets (Definite (N.of_nat (length v))) lb ->
    x690_contents L c v ->
    x690 L (Obj h c) (leading_octet Universal (h_constructed h) (h_tag h) :: lb ++ v)
with x690_contents (L : leaves) : content -> bytes -> Prop :=
| x690_end_of_contents : x690_contents L CEndOfContent []
| x690_boolean b v : (b = false <-> v = 0) -> x690_contents L (CBoolean b) [v]
| x690_integer s : x690_contents L (CInteger s) s
| x690_bit_string u s : x690_contents L (CBitString u s) (u :: s)
| x690_octet_string s : x690_contents L (COctetString s) s
| x690_null : x690_contents L CNull []
| x690_enumerated n v :
    bytes_ok v -> minimal_integer v -> twos_complement v = Z.of_N n -> x690_contents L (CEnum n) v
| x690_oid rel s : x690_contents L (COID (mkOid rel s)) s
| x690_relative_oid rel s : x690_contents L (CRelativeOID (mkOid rel s)) s
| x690_string k s : x690_contents L (CStr k s) s
| x690_bmp_string s : x690_contents L (CBmpString s) s
| x690_universal_string s : x690_contents L (CUniversalString s) s
| x690_utc_time t v : utc_time_form v -> x690_contents L (CUTCTime t) v
| x690_generalized_time t : x690_contents L (CGeneralizedTime t) (lf_show_datetime L t)
| x690_sequence l v : x690_series L l v -> x690_contents L (CSequence l) v
| x690_set l v : x690_series L l v -> x690_contents L (CSet l) v
with x690_series (L : leaves) : list obj -> bytes -> Prop :=
| x690_nil : x690_series L [] []
| x690_cons o l bs rest : x690 L o bs -> x690_series L l rest -> x690_series L (o :: l) (bs ++ rest).

(** ** Canonical input

    Definite lengths in their shortest form and tag numbers below 31
    throughout (SEQUENCEs and SETs are looked into, elements of other classes
    are not), BOOLEANs 00 or FF, empty NULLs, ENUMERATEDs that do not start
    with a zero octet, no times, and no end-of-contents other than one with the
    single octet 00 as contents (which is what the encoder writes). *)
Definition canonical_header (h : header) (hb : bytes) : Prop :=
  exists lb, hb = leading_octet (h_class h) (h_constructed h) (h_tag h) :: lb
    /\ h_tag h <= 30 /\ length_octets (h_length h) lb
    /\ (forall lb', length_octets (h_length h) lb' -> (length lb <= length lb')%nat).

Inductive canonical : bytes -> Prop :=
| canonical_element h hb c :
    canonical_header h hb -> h_length h = Definite (N.of_nat (length c)) ->
    (h_class h = Universal -> canonical_contents (h_tag h) c) ->
    canonical (hb ++ c)
with canonical_contents : tag -> bytes -> Prop :=
| canonical_end_of_contents : canonical_contents 0 [0]
| canonical_boolean b : b = 0 \/ b = 255 -> canonical_contents 1 [b]
| canonical_null : canonical_contents 5 []
| canonical_enumerated_empty : canonical_contents 10 []
| canonical_enumerated b c : b <> 0 -> canonical_contents 10 (b :: c)
| canonical_constructed t c : t = 16 \/ t = 17 -> canonical_series c -> canonical_contents t c
| canonical_other t c : ~ In t [0; 1; 5; 10; 16; 17; 23; 24] -> canonical_contents t c
with canonical_series : bytes -> Prop :=
| canonical_nil : canonical_series []
| canonical_cons bs rest : canonical bs -> canonical_series rest -> canonical_series (bs ++ rest).
