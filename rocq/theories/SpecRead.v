(** * Reading a decoded value through the library's interface (for C88)

    What a program that knows the type finds when it calls the accessors, from
    the outside in.  [parse] is the parser it uses for the contents of an
    explicitly tagged element.  The accessors and queries of an object, the
    macro encoder [encode_oid] and [bit_is_set] are those of the model, since
    the statement is about them; fields of objects are not looked at. *)

From Verif Require Import Base Asn1rs Ber Typed OidMacro Spec SpecOid SpecAbstract.

(** Octets as text, in UTF-8, as [&str] holds it. *)
Definition text_read (k : text_type) (chars : list N) (o : obj) : Prop :=
  match k with
  | TBmp | TUniversal => obj_as_slice o = Ok (text_octets k chars)
  | _ => obj_as_str o = Ok (flat_map utf8_encode chars)
         /\ obj_as_slice o = Ok (flat_map utf8_encode chars)
  end.

(** The class of the element. *)
Definition value_class (v : asn1) : class :=
  match v with AExplicit c _ _ => c | _ => Universal end.

(** [r] is [r'] for values from [lo] up to, not including, [hi]. *)
Definition in_range {A} (lo hi z : Z) (r r' : res berror A) : Prop := (lo <= z < hi)%Z -> r = r'.

Section Read.
Context (parse : bytes -> iresult berror obj).

(** Tag number and class, then by type: BOOLEAN; INTEGER in every width it fits;
    BIT STRING bit by bit, as a slice (which has the unused bits at its end) and
    as a number; OCTET STRING; OBJECT IDENTIFIER and RELATIVE-OID, which equal
    the constant that [oid!] makes of any dotted notation of their components
    ([oid!] refuses 2.40 and above); ENUMERATED; texts; SEQUENCE and SET, element
    by element; the value inside an explicit tag, parsed from the contents. *)
Fixpoint read_back (v : asn1) (o : obj) {struct v} : Prop :=
  obj_tag o = value_tag v /\ obj_class o = value_class v /\
  match v with
  | ABoolean b => obj_as_bool o = Ok b
  | AInteger z =>
      in_range (- 2 ^ 31) (2 ^ 31) z (obj_as_i32 o) (Ok z)
      /\ in_range (- 2 ^ 63) (2 ^ 63) z (obj_as_i64 o) (Ok z)
      /\ in_range 0 (2 ^ 32) z (obj_as_u32 o) (Ok (Z.to_N z))
      /\ in_range 0 (2 ^ 64) z (obj_as_u64 o) (Ok (Z.to_N z))
      /\ as_bigint (o_content o) = Ok z
      /\ ((0 <= z)%Z -> as_biguint (o_content o) = Ok (Z.to_N z))
  | ABitString l =>
      exists data tail, obj_as_bitstring o = Ok data
      /\ (forall i b, nth_error l (N.to_nat i) = Some b -> bit_is_set data i = Ok b)
      /\ obj_as_bitslice o = Ok (l ++ tail) /\ (length tail < 8)%nat
      /\ (N.of_nat (length l) <= 64 -> obj_as_u64 o = Ok (bits_value l))
      /\ (N.of_nat (length l) <= 32 -> obj_as_u32 o = Ok (bits_value l))
  | AOctetString s => obj_as_slice o = Ok s
  | ANull => True
  | AOid comps =>
      exists d, obj_as_oid o = Ok d /\ obj_as_oid_val o = Ok d
      /\ forall text, dotted comps text ->
           match comps with
           | _ :: b :: _ => b < 40 -> exists c, encode_oid text = Ok c /\ d = mkOid false c
           | _ => False
           end
  | ARelativeOid comps =>
      exists d, obj_as_oid o = Ok d /\ obj_as_oid_val o = Ok d
      /\ forall text, dotted comps text ->
           exists c, encode_oid ([114; 101; 108; 32] ++ text) = Ok c /\ d = mkOid true c
  | AEnumerated z => obj_as_u32 o = Ok (Z.to_N z) /\ obj_as_u64 o = Ok (Z.to_N z)
  | AText k chars => text_read k chars o
  | ASequence l =>
      exists os, obj_as_sequence o = Ok os
      /\ (fix all (l : list asn1) (os : list obj) : Prop :=
            match l, os with
            | [], [] => True
            | v :: l, o :: os => read_back v o /\ all l os
            | _, _ => False
            end) l os
  | ASet l =>
      exists os, obj_as_set o = Ok os
      /\ (fix all (l : list asn1) (os : list obj) : Prop :=
            match l, os with
            | [], [] => True
            | v :: l, o :: os => read_back v o /\ all l os
            | _, _ => False
            end) l os
  | AExplicit _ _ v =>
      exists s o', obj_as_slice o = Ok s /\ parse s = Ok ([], o') /\ read_back v o'
  end.

End Read.
