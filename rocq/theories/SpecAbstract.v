(** * Independent specification: abstract ASN.1 values and their encodings.

    Values as X.680 sees them (no octets of an encoding in them), and the
    encodings X.690 gives them.  No function of the model is used; [denotes]
    looks at the data type of decoded objects only.  From Asn1rs.v only the
    record [leaves] is used. *)

From Verif Require Import Base Asn1rs Spec SpecOid.

(** ** Values

    Times, REAL, EXTERNAL, CHARACTER STRING, the loosely specified string types
    and implicitly tagged values are left out. *)
Inductive text_type :=
  TNumeric | TPrintable | TIA5 | TVisible | TUtf8 | TBmp | TUniversal.

Inductive asn1 :=
| ABoolean (b : bool)
| AInteger (z : Z)
| ABitString (l : list bool)
| AOctetString (s : bytes)
| ANull
| AOid (comps : list N)
| ARelativeOid (comps : list N)
| AEnumerated (z : Z)
| AText (k : text_type) (chars : list N)
| ASequence (l : list asn1)
| ASet (l : list asn1)
| AExplicit (c : class) (t : tag) (v : asn1).

(** Permitted characters, as code points (X.680 41.2, 41.4, table 8; 41.15 for
    BMPString). *)
Definition permitted (k : text_type) (c : N) : Prop :=
  match k with
  | TNumeric => numeric_permitted c
  | TPrintable => printable_permitted c
  | TIA5 => c < 128
  | TVisible => 32 <= c <= 126
  | TUtf8 => scalar c
  | TBmp => scalar c /\ c < 65536
  | TUniversal => c < 2 ^ 32
  end.

(** The octets of a text (X.690 8.23). *)
Definition u32_octets (c : N) : bytes :=
  [c / 16777216; (c / 65536) mod 256; (c / 256) mod 256; c mod 256].
Definition text_octets (k : text_type) (chars : list N) : bytes :=
  match k with
  | TNumeric | TPrintable | TIA5 | TVisible => chars
  | TUtf8 => flat_map utf8_encode chars
  | TBmp => flat_map u16_octets chars
  | TUniversal => flat_map u32_octets chars
  end.

(** Universal tags (X.680 table 1). *)
Definition text_tag (k : text_type) : tag :=
  match k with
  | TNumeric => 18 | TPrintable => 19 | TIA5 => 22 | TVisible => 26
  | TUtf8 => 12 | TBmp => 30 | TUniversal => 28
  end.
Definition value_tag (v : asn1) : tag :=
  match v with
  | ABoolean _ => 1 | AInteger _ => 2 | ABitString _ => 3 | AOctetString _ => 4 | ANull => 5
  | AOid _ => 6 | AEnumerated _ => 10 | ARelativeOid _ => 13 | ASequence _ => 16 | ASet _ => 17
  | AText k _ => text_tag k
  | AExplicit _ t _ => t
  end.

(** ** Encodings (X.690)

    [Ber]: all basic encodings; [Whole]: those where no string is split into
    segments; [Der]: the distinguished ones, except that the order of the
    elements of a SET is not looked at. *)
Inductive rules := Ber | Whole | Der.

(** 8.1.2: low tag number form below 31, otherwise base 128 without a leading
    zero. *)
Definition identifier (c : class) (constructed : bool) (t : tag) (ib : bytes) : Prop :=
  (t < 31 /\ ib = [leading_octet c constructed t])
  \/ (31 <= t /\ exists d ds, d <> 0 /\ Forall (fun x => x < 128) (d :: ds)
        /\ digits_value 128 (d :: ds) = t
        /\ ib = leading_octet c constructed 31 :: continued (d :: ds)).

(** 8.1.3, 10.1 *)
Definition definite_length (ru : rules) (n : N) (lb : bytes) : Prop :=
  length_octets (Definite n) lb
  /\ (ru = Der -> forall lb', length_octets (Definite n) lb' -> (length lb <= length lb')%nat).

(** Contents octets of the primitive encodings: 8.2 and 11.1 (boolean), 8.3,
    8.4, 8.6 and 11.2 (bit string), 8.7, 8.8, 8.19, 8.20, 8.23. *)
Inductive contents (ru : rules) : asn1 -> bytes -> Prop :=
| c_boolean b x :
    x < 256 -> (b = false <-> x = 0) -> (ru = Der -> x = 0 \/ x = 255) -> contents ru (ABoolean b) [x]
| c_integer c :
    bytes_ok c -> minimal_integer c -> contents ru (AInteger (twos_complement c)) c
| c_bit_string l pad u c :
    bytes_ok c -> u < 8 -> N.of_nat (length pad) = u -> bits c = l ++ pad ->
    (ru = Der -> Forall (eq false) pad) -> contents ru (ABitString l) (u :: c)
| c_octet_string s : bytes_ok s -> contents ru (AOctetString s) s
| c_null : contents ru ANull []
| c_oid comps c : oid_components comps -> oid_contents comps c -> contents ru (AOid comps) c
| c_relative_oid comps c :
    comps <> [] -> relative_oid_contents comps c -> contents ru (ARelativeOid comps) c
| c_enumerated c :
    bytes_ok c -> minimal_integer c -> contents ru (AEnumerated (twos_complement c)) c
| c_text k chars : Forall (permitted k) chars -> contents ru (AText k chars) (text_octets k chars).

(** 8.1.3.2, 8.1.3.6: constructed encodings, of definite or (not in DER)
    indefinite length. *)
Definition wrapped (ru : rules) (c : class) (t : tag) (inner bs : bytes) : Prop :=
  exists ib, identifier c true t ib
  /\ ((exists lb, definite_length ru (N.of_nat (length inner)) lb /\ bs = ib ++ lb ++ inner)
      \/ (ru <> Der /\ bs = ib ++ 128 :: inner ++ [0; 0])).

(** 8.6.4, 8.7.3, 8.23.2: a string may be split into segments. *)
Inductive joins : asn1 -> list asn1 -> Prop :=
| joins_octets ss : joins (AOctetString (concat ss)) (map AOctetString ss)
| joins_bits ls l :
    Forall (fun x => (length x mod 8 = 0)%nat) ls ->
    joins (ABitString (concat ls ++ l)) (map ABitString (ls ++ [l]))
| joins_text k chars ss :
    text_octets k chars = concat ss -> joins (AText k chars) (map AOctetString ss).

(** [encodes ru n v bs]: [bs] is an encoding of [v] with at most [n] levels;
    [encode_all]: of a list of values, one after the other. *)
Inductive encodes (ru : rules) : nat -> asn1 -> bytes -> Prop :=
| e_primitive n v c lb :
    contents ru v c -> definite_length ru (N.of_nat (length c)) lb ->
    encodes ru (S n) v (leading_octet Universal false (value_tag v) :: lb ++ c)
| e_sequence n l c bs :
    encode_all ru n l c -> wrapped ru Universal 16 c bs -> encodes ru (S n) (ASequence l) bs
| e_set n l c bs :
    encode_all ru n l c -> wrapped ru Universal 17 c bs -> encodes ru (S n) (ASet l) bs
| e_explicit n cl t v c bs :
    cl <> Universal -> encodes ru n v c -> wrapped ru cl t c bs ->
    encodes ru (S n) (AExplicit cl t v) bs
| e_segmented n v parts c bs :
    ru = Ber -> joins v parts -> encode_all ru n parts c ->
    wrapped ru Universal (value_tag v) c bs -> encodes ru (S n) v bs
with encode_all (ru : rules) : nat -> list asn1 -> bytes -> Prop :=
| ea_nil n : encode_all ru n [] []
| ea_cons n v bs l rest :
    encodes ru n v bs -> encode_all ru n l rest -> encode_all ru n (v :: l) (bs ++ rest).

(** ** Decoded objects

    [denotes ru o v]: the object [o] stands for the value [v].  Elements of
    other classes are not decoded by the library; they keep the octets of their
    contents. *)
Definition text_content (k : text_type) (s : bytes) : content :=
  match k with
  | TNumeric => CStr KNumeric s | TPrintable => CStr KPrintable s | TIA5 => CStr KIA5 s
  | TVisible => CStr KVisible s | TUtf8 => CStr KUTF8 s
  | TBmp => CBmpString s | TUniversal => CUniversalString s
  end.

Inductive denotes (ru : rules) : obj -> asn1 -> Prop :=
| den_boolean h b : denotes ru (Obj h (CBoolean b)) (ABoolean b)
| den_integer h s : denotes ru (Obj h (CInteger s)) (AInteger (twos_complement s))
| den_bit_string h u s l pad :
    N.of_nat (length pad) = u -> bits s = l ++ pad -> denotes ru (Obj h (CBitString u s)) (ABitString l)
| den_octet_string h s : denotes ru (Obj h (COctetString s)) (AOctetString s)
| den_null h : denotes ru (Obj h CNull) ANull
| den_oid h comps s :
    oid_components comps -> oid_contents comps s -> denotes ru (Obj h (COID (mkOid false s))) (AOid comps)
| den_relative_oid h comps s :
    relative_oid_contents comps s -> denotes ru (Obj h (CRelativeOID (mkOid true s))) (ARelativeOid comps)
| den_enumerated h n : denotes ru (Obj h (CEnum n)) (AEnumerated (Z.of_N n))
| den_text h k chars :
    Forall (permitted k) chars -> denotes ru (Obj h (text_content k (text_octets k chars))) (AText k chars)
| den_sequence h os vs : denote_all ru os vs -> denotes ru (Obj h (CSequence os)) (ASequence vs)
| den_set h os vs : denote_all ru os vs -> denotes ru (Obj h (CSet os)) (ASet vs)
| den_explicit h a n v :
    h_class h <> Universal -> h_class (a_header a) = h_class h -> h_tag (a_header a) = h_tag h ->
    encodes ru n v (a_data a) ->
    denotes ru (Obj h (CUnknown a)) (AExplicit (h_class h) (h_tag h) v)
with denote_all (ru : rules) : list obj -> list asn1 -> Prop :=
| da_nil : denote_all ru [] []
| da_cons o os v vs : denotes ru o v -> denote_all ru os vs -> denote_all ru (o :: os) (v :: vs).

(** Values within the limits of the library: ENUMERATED from 0 to 2^32 - 1 and
    tag numbers below 2^32. *)
Inductive supported : asn1 -> Prop :=
| sup_enumerated z : (0 <= z < 2 ^ 32)%Z -> supported (AEnumerated z)
| sup_explicit c t v : t < 2 ^ 32 -> supported v -> supported (AExplicit c t v)
| sup_sequence l : Forall supported l -> supported (ASequence l)
| sup_set l : Forall supported l -> supported (ASet l)
| sup_other v :
    match v with AEnumerated _ | AExplicit _ _ _ | ASequence _ | ASet _ => False | _ => True end ->
    supported v.

(** ** Objects made to be encoded

    [stands ru n o v]: [o] is an object for the value [v], built the way the
    library's constructors or its readers do it: class, form and tag number of the
    header are those of the type (length field and raw tag do not matter), the
    stored octets are contents octets under the rules [ru], and an explicitly
    tagged value is kept as an object or as octets.  ENUMERATEDs other than zero
    whose first octet is below 128 (the others are not encoded correctly), tag
    numbers below 31. *)
Definition header_is (h : header) (c : class) (constructed : bool) (t : tag) : Prop :=
  h_class h = c /\ h_constructed h = constructed /\ h_tag h = t.

Inductive stored (ru : rules) : content -> asn1 -> Prop :=
| stored_boolean b : stored ru (CBoolean b) (ABoolean b)
| stored_integer z s : contents ru (AInteger z) s -> stored ru (CInteger s) (AInteger z)
| stored_bit_string l u s : contents ru (ABitString l) (u :: s) -> stored ru (CBitString u s) (ABitString l)
| stored_octet_string s : bytes_ok s -> stored ru (COctetString s) (AOctetString s)
| stored_null : stored ru CNull ANull
| stored_oid comps s : contents ru (AOid comps) s -> stored ru (COID (mkOid false s)) (AOid comps)
| stored_relative_oid comps s :
    contents ru (ARelativeOid comps) s -> stored ru (CRelativeOID (mkOid true s)) (ARelativeOid comps)
| stored_enumerated n k :
    n < 2 ^ 64 -> 256 ^ N.of_nat k <= n < 128 * 256 ^ N.of_nat k -> stored ru (CEnum n) (AEnumerated (Z.of_N n))
| stored_text k chars :
    Forall (permitted k) chars -> stored ru (text_content k (text_octets k chars)) (AText k chars).

Inductive stands (ru : rules) : nat -> obj -> asn1 -> Prop :=
| st_primitive n h k v : header_is h Universal false (value_tag v) -> stored ru k v -> stands ru (S n) (Obj h k) v
| st_sequence n h os vs :
    header_is h Universal true 16 -> stand_all ru n os vs -> stands ru (S n) (Obj h (CSequence os)) (ASequence vs)
| st_set n h os vs :
    header_is h Universal true 17 -> stand_all ru n os vs -> stands ru (S n) (Obj h (CSet os)) (ASet vs)
| st_explicit n h c t o v :
    header_is h c true t -> c <> Universal -> t < 31 -> stands ru n o v ->
    stands ru (S n) (Obj h (CTagged c t o)) (AExplicit c t v)
| st_unknown n h c t a v :
    header_is h c true t -> c <> Universal -> t < 31 -> encodes ru n v (a_data a) ->
    stands ru (S n) (Obj h (CUnknown a)) (AExplicit c t v)
with stand_all (ru : rules) : nat -> list obj -> list asn1 -> Prop :=
| sa_nil n : stand_all ru n [] []
| sa_cons n o os v vs :
    stands ru n o v -> stand_all ru n os vs -> stand_all ru n (o :: os) (v :: vs).

(** The values an object can be written for: no negative or zero ENUMERATED and none
    whose first octet is above 127, and tag numbers below 31.  What is inside an
    explicit tag is kept as octets and does not matter. *)
Inductive writable : asn1 -> Prop :=
| wr_enumerated n k : 256 ^ N.of_nat k <= n < 128 * 256 ^ N.of_nat k -> writable (AEnumerated (Z.of_N n))
| wr_explicit c t v : t < 31 -> writable (AExplicit c t v)
| wr_sequence l : Forall writable l -> writable (ASequence l)
| wr_set l : Forall writable l -> writable (ASet l)
| wr_other v :
    match v with AEnumerated _ | AExplicit _ _ _ | ASequence _ | ASet _ => False | _ => True end ->
    writable v.

(** The leaf decoders accept every valid (relative) object identifier. *)
Definition accepts_oids (L : leaves) : Prop :=
  (forall comps c l, oid_components comps -> oid_contents comps c -> lf_oid_check L false l c = None)
  /\ (forall comps c l, comps <> [] -> relative_oid_contents comps c -> lf_reloid_check L false l c = None).
