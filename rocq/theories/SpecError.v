(** * Independent specification of the errors of the readers.

    An error tells the first thing that is wrong with the input.  The relations
    below say which that is.  From Asn1rs.v only the record [leaves] is used. *)

From Verif Require Import Base Asn1rs Spec SpecValue SpecComb.

(** ** Headers *)

(** Nothing to read, or five subsequent octets (or all there are) and none of
    them the last of the tag number. *)
Inductive ident_fault : bytes -> nerr berror -> Prop :=
| if_nothing : ident_fault [] (Incomplete (Some 1))
| if_unending c pc rest :
    Forall (fun b => 128 <= b) (firstn 5 rest) ->
    ident_fault (leading_octet c pc 31 :: rest) (Error InvalidTag).

(** Length octets after identifier octets with the given constructed bit. *)
Inductive length_fault (der pc : bool) : bytes -> nerr berror -> Prop :=
| nf_nothing : length_fault der pc [] (Incomplete (Some 1))
| nf_indefinite_der rest :
    der = true ->
    length_fault der pc (128 :: rest) (Error (DerConstraintFailed DcIndefiniteLength))
| nf_indefinite_primitive rest :
    der = false -> pc = false ->
    length_fault der pc (128 :: rest) (Error ConstructExpected)
| nf_reserved rest : length_fault der pc (255 :: rest) (Error InvalidLength)
| nf_cut k rest :
    1 <= k <= 126 -> N.of_nat (length rest) < k ->
    length_fault der pc (128 + k :: rest) (Incomplete (Some (k - N.of_nat (length rest))))
| nf_too_large ds rest :
    (1 <= length ds <= 126)%nat -> 2 ^ 64 <= unsigned ds ->
    length_fault der pc (128 + N.of_nat (length ds) :: ds ++ rest) (Error InvalidLength).

Inductive header_fault (der : bool) : bytes -> nerr berror -> Prop :=
| hf_ident i e : ident_fault i e -> header_fault der i e
| hf_length c pc t ib i e :
    ident_octets c pc t ib -> length_fault der pc i e -> header_fault der (ib ++ i) e.

(** ** Elements *)

(** [body_fault d h i e]: the octets [i] after a header [h] do not contain the body of
    the element; [until_fault]: nor a series closed by an end-of-contents. *)
Inductive body_fault : nat -> header -> bytes -> nerr berror -> Prop :=
| bf_deep h i : body_fault O h i (Error BerMaxDepth)
| bf_short d h n i :
    h_length h = Definite n -> N.of_nat (length i) < n ->
    body_fault (S d) h i (Incomplete (Some (n - N.of_nat (length i))))
| bf_primitive d h i :
    h_length h = Indefinite -> h_constructed h = false ->
    body_fault (S d) h i (Error ConstructExpected)
| bf_inside d h i e :
    h_length h = Indefinite -> h_constructed h = true -> until_fault d i e ->
    body_fault (S d) h i e
with until_fault : nat -> bytes -> nerr berror -> Prop :=
| uf_header d i e : header_fault false i e -> until_fault d i e
| uf_body d h hb i e :
    header_octets h hb -> body_fault d h i e -> until_fault d (hb ++ i) e
| uf_later d h hb b i e :
    header_octets h hb -> ~ ends_contents h -> body d h b -> until_fault d i e ->
    until_fault d (hb ++ b ++ i) e.

(** There is no element at the start of the octets. *)
Inductive element_fault : bytes -> nerr berror -> Prop :=
| ef_header i e : header_fault false i e -> element_fault i e
| ef_body h hb i e : header_octets h hb -> body_fault 50 h i e -> element_fault (hb ++ i) e.

(** ** Contents *)

(** An error of asn1-rs as the parsers report it. *)
Definition reported (e : berror) : nerr berror :=
  match e with EIncomplete n => Incomplete n | e => Error e end.

(** [content_fault L h c e]: the octets [c] are no contents of the universal type of
    the header [h], other than SEQUENCE and SET. *)
Inductive content_fault (L : leaves) (h : header) : bytes -> nerr berror -> Prop :=
| cf_boolean c :
    h_tag h = 1 -> h_length h <> Definite 1 -> content_fault L h c (Error InvalidLength)
| cf_bit_string_empty : h_tag h = 3 -> content_fault L h [] (Error BerValueError)
| cf_bit_string u c :
    h_tag h = 3 -> h_constructed h = true -> content_fault L h (u :: c) (Error Unsupported)
| cf_oid c e :
    h_tag h = 6 -> lf_oid_check L (h_constructed h) (h_length h) c = Some e ->
    content_fault L h c (reported e)
| cf_enumerated_constructed c :
    h_tag h = 10 -> h_constructed h = true -> content_fault L h c (Error ConstructUnexpected)
| cf_enumerated_large c :
    h_tag h = 10 -> h_constructed h = false -> 2 ^ 32 <= unsigned c ->
    content_fault L h c (Error IntegerTooLarge)
| cf_relative_oid c e :
    h_tag h = 13 -> lf_reloid_check L (h_constructed h) (h_length h) c = Some e ->
    content_fault L h c (reported e)
| cf_utc_time c e :
    h_tag h = 23 -> lf_utctime L (h_constructed h) (h_length h) c = inl e ->
    content_fault L h c (reported e)
| cf_generalized_time c e :
    h_tag h = 24 -> lf_gentime L (h_constructed h) (h_length h) c = inl e ->
    content_fault L h c (reported e)
| cf_string_constructed c :
    In (h_tag h) string_tags -> h_constructed h = true -> content_fault L h c (Error Unsupported)
| cf_string k c :
    h_tag h = str_tag k -> h_constructed h = false -> ~ (repertoire L k c /\ utf8_text c) ->
    content_fault L h c (Error StringInvalidCharset)
| cf_bmp_odd c :
    h_tag h = 30 -> h_constructed h = false -> Nat.Odd (length c) ->
    content_fault L h c (Error Unsupported)
| cf_bmp_text c :
    h_tag h = 30 -> h_constructed h = false -> Nat.Even (length c) -> ~ utf16be_text c ->
    content_fault L h c (Error StringInvalidCharset).

(** [value_fault L d h c e]: the element with header [h] and contents [c] denotes no
    value; in a SEQUENCE or SET the first element that is faulty decides. *)
Inductive value_fault (L : leaves) : nat -> header -> bytes -> nerr berror -> Prop :=
| vf_deep h c : value_fault L O h c (Error BerMaxDepth)
| vf_content d h c e :
    h_class h = Universal -> content_fault L h c e -> value_fault L (S d) h c e
| vf_primitive d h c :
    h_class h = Universal -> h_tag h = 16 \/ h_tag h = 17 -> h_constructed h = false ->
    value_fault L (S d) h c (Error ConstructExpected)
| vf_inside d h c e :
    h_class h = Universal -> h_tag h = 16 \/ h_tag h = 17 -> h_constructed h = true ->
    series_fault L d c e -> value_fault L (S d) h c e
with series_fault (L : leaves) : nat -> bytes -> nerr berror -> Prop :=
| sf_element d i e : i <> [] -> element_fault i e -> series_fault L d i e
| sf_value d h c bs rest e :
    element 50 h c bs -> value_fault L d h c e -> series_fault L d (bs ++ rest) e
| sf_later d h c bs k rest e :
    element 50 h c bs -> value L d h c k -> series_fault L d rest e ->
    series_fault L d (bs ++ rest) e.

(** ** The readers *)

(** [parse_ber_recursive] with the limit [d]. *)
Inductive ber_fault (L : leaves) : nat -> bytes -> nerr berror -> Prop :=
| rf_no_depth i : ber_fault L O i (Error BerMaxDepth)
| rf_element d i e : element_fault i e -> ber_fault L (S d) i e
| rf_value d h c bs rest e :
    element 50 h c bs -> value_fault L (S d) h c e -> ber_fault L (S d) (bs ++ rest) e.

(** A whole element is asked for, with the tag number [t]: the tag is looked at before the
    value and after the extent of the element. *)
Inductive any_tag_fault (L : leaves) (t : tag) : nat -> bytes -> nerr berror -> Prop :=
| at_no_depth i : any_tag_fault L t O i (Error BerMaxDepth)
| at_element d i e : element_fault i e -> any_tag_fault L t (S d) i e
| at_tag d h c bs rest :
    element 50 h c bs -> h_tag h <> t ->
    any_tag_fault L t (S d) (bs ++ rest) (Error (UnexpectedTag (Some t) (h_tag h)))
| at_value d h c bs rest e :
    element 50 h c bs -> h_tag h = t -> value_fault L (S d) h c e ->
    any_tag_fault L t (S d) (bs ++ rest) e.

(** Contents read as a universal type [t] with a given length and constructed bit:
    the header under which this happens has no raw tag. *)
Definition read_as (t : tag) (l : blen) (pc : bool) : header := mkHeader Universal pc t l None.

Inductive ber_content_fault (L : leaves) (t : tag) (l : blen) (pc : bool) (d : nat)
  : bytes -> nerr berror -> Prop :=
| bc_large n i :
    l = Definite n -> 4294967295 < n -> ber_content_fault L t l pc d i (Error InvalidLength)
| bc_short n i :
    l = Definite n -> n <= 4294967295 -> N.of_nat (length i) < n ->
    ber_content_fault L t l pc d i (Incomplete (Some n))
| bc_indefinite i e :
    l = Indefinite -> body_fault d (read_as t l pc) i e -> ber_content_fault L t l pc d i e
| bc_no_depth n c r :
    l = Definite n -> n <= 4294967295 -> N.of_nat (length c) = n -> d = O ->
    ber_content_fault L t l pc d (c ++ r) (Error BerMaxDepth)
| bc_value b r e :
    (forall n, l = Definite n -> n <= 4294967295) ->
    body d (read_as t l pc) b -> value_fault L d (read_as t l pc) (content_octets (read_as t l pc) b) e ->
    ber_content_fault L t l pc d (b ++ r) e.

(** [parse_ber_with_tag]. *)
Inductive ber_tag_fault (L : leaves) (t : tag) : bytes -> nerr berror -> Prop :=
| bt_header i e : header_fault false i e -> ber_tag_fault L t i e
| bt_tag h hb i :
    header_octets h hb -> h_tag h <> t ->
    ber_tag_fault L t (hb ++ i) (Error (UnexpectedTag (Some t) (h_tag h)))
| bt_content h hb i e :
    header_octets h hb -> h_tag h = t ->
    ber_content_fault L t (h_length h) (h_constructed h) 50 i e -> ber_tag_fault L t (hb ++ i) e.

(** *** DER *)

(** What the DER readers check before the contents are decoded; [r] are the octets
    after the contents [c].  The first octet of an empty BIT STRING is looked for behind it. *)
Inductive der_check_fault (t : tag) (pc : bool) : bytes -> bytes -> nerr berror -> Prop :=
| dk_boolean_length c r :
    t = 1 -> length c <> 1%nat -> der_check_fault t pc c r (Error InvalidLength)
| dk_boolean b r :
    t = 1 -> b <> 0 -> b <> 255 ->
    der_check_fault t pc [b] r (Error (DerConstraintFailed DcInvalidBoolean))
| dk_integer_empty r :
    t = 2 -> der_check_fault t pc [] r (Error (DerConstraintFailed DcIntegerEmpty))
| dk_integer_zeroes b c r :
    t = 2 -> b < 128 ->
    der_check_fault t pc (0 :: b :: c) r (Error (DerConstraintFailed DcIntegerLeadingZeroes))
| dk_bit_string_constructed c r :
    t = 3 -> pc = true -> der_check_fault t pc c r (Error (DerConstraintFailed DcConstructed))
| dk_bit_string_nothing :
    t = 3 -> pc = false -> der_check_fault t pc [] [] (Incomplete (Some 1))
| dk_bit_string_empty b r :
    t = 3 -> pc = false -> b <= 7 -> der_check_fault t pc [] (b :: r) (Error InvalidLength)
| dk_bit_string_unused u c r :
    t = 3 -> pc = false -> 7 < u -> hd_error (c ++ r) = Some u ->
    der_check_fault t pc c r (Error (InvalidValue 3))
| dk_bit_string_padding u c r :
    t = 3 -> pc = false -> u <= 7 -> c <> [] -> last c 0 mod 2 ^ u <> 0 ->
    der_check_fault t pc (u :: c) r (Error (DerConstraintFailed DcUnusedBitsNotZero))
| dk_string c r :
    In t string_tags -> pc = true ->
    der_check_fault t pc c r (Error (DerConstraintFailed DcConstructed))
| dk_time c r :
    t = 23 \/ t = 24 -> ~ (exists s, c = s ++ [90]) ->
    der_check_fault t pc c r (Error (DerConstraintFailed DcMissingTimeZone)).

Inductive der_content_fault (L : leaves) (t : tag) (l : blen) (pc : bool) (d : nat)
  : bytes -> nerr berror -> Prop :=
| dc_indefinite i :
    l = Indefinite -> der_content_fault L t l pc d i (Error IndefiniteLengthUnexpected)
| dc_short n i :
    l = Definite n -> N.of_nat (length i) < n ->
    der_content_fault L t l pc d i (Incomplete (Some n))
| dc_check n c r e :
    l = Definite n -> N.of_nat (length c) = n -> der_check_fault t pc c r e ->
    der_content_fault L t l pc d (c ++ r) e
| dc_large n c r :
    l = Definite n -> N.of_nat (length c) = n -> t <> 3 -> der_checked t pc c -> 4294967295 < n ->
    der_content_fault L t l pc d (c ++ r) (Error InvalidLength)
| dc_value n c r e :
    l = Definite n -> N.of_nat (length c) = n -> t <> 3 -> der_checked t pc c -> n <= 4294967295 ->
    value_fault L d (read_as t l pc) c e -> der_content_fault L t l pc d (c ++ r) e.

(** [parse_der_with_tag]. *)
Inductive der_tag_fault (L : leaves) (t : tag) : bytes -> nerr berror -> Prop :=
| dt_header i e : header_fault true i e -> der_tag_fault L t i e
| dt_tag h hb i :
    header_octets h hb -> h_length h <> Indefinite -> h_tag h <> t ->
    der_tag_fault L t (hb ++ i) (Error (UnexpectedTag (Some t) (h_tag h)))
| dt_content h hb i e :
    header_octets h hb -> h_length h <> Indefinite -> h_tag h = t ->
    der_content_fault L t (h_length h) (h_constructed h) 50 i e -> der_tag_fault L t (hb ++ i) e.

(** [parse_der_recursive] with the limit [d]. *)
Inductive der_fault (L : leaves) (d : nat) : bytes -> nerr berror -> Prop :=
| df_header i e : header_fault true i e -> der_fault L d i e
| df_large h hb n i :
    header_octets h hb -> h_length h = Definite n -> 4294967295 < n ->
    der_fault L d (hb ++ i) (Error InvalidLength)
| df_content h hb n i e :
    header_octets h hb -> h_length h = Definite n -> n <= 4294967295 -> h_class h = Universal ->
    der_content_fault L (h_tag h) (Definite n) (h_constructed h) d i e ->
    der_fault L d (hb ++ i) e
| df_body h hb n i e :
    header_octets h hb -> h_length h = Definite n -> n <= 4294967295 -> h_class h <> Universal ->
    body_fault d h i e -> der_fault L d (hb ++ i) e.

(** ** The combinators

    Errors of type [E], made from an error of the readers by [into] and from one of
    nom's by [kind]. *)

Section combinators.
Context {E : Type} (into : berror -> E) (kind : bytes -> error_kind -> E).

(** An error of a reader passed on. *)
Definition passed (e : nerr berror) : nerr E :=
  match e with
  | Incomplete n => Incomplete n
  | Error e => Error (into e)
  | Failure e => Failure (into e)
  end.

(** The container readers find no element.  If the length is definite and octets are
    missing they do not ask for more. *)
Inductive container_fault (der : bool) : bytes -> nerr E -> Prop :=
| kf_header i e : header_fault der i e -> container_fault der i (passed e)
| kf_short h hb n i :
    header_octets h hb -> h_length h = Definite n -> N.of_nat (length i) < n ->
    container_fault der (hb ++ i) (Error (kind i EkEof))
| kf_body h hb i e :
    der = false -> header_octets h hb -> h_length h = Indefinite -> body_fault 50 h i e ->
    container_fault der (hb ++ i) (passed e).

Definition framed (der : bool) (h : header) (c bs : bytes) : Prop :=
  if der then definite_element h c bs else element 50 h c bs.

(** What a combinator demands of the header. *)
Definition wants_tag (t : tag) (h : header) (e : berror) : Prop :=
  h_tag h <> t /\ e = UnexpectedTag (Some t) (h_tag h).

Inductive wants_explicit (t : tag) (h : header) : berror -> Prop :=
| we_class : h_class h = Universal -> wants_explicit t h (UnexpectedClass None Universal)
| we_tag e : h_class h <> Universal -> wants_tag t h e -> wants_explicit t h e
| we_form :
    h_class h <> Universal -> h_tag h = t -> h_constructed h = false ->
    wants_explicit t h ConstructExpected.

(** A combinator fails: there is no element, the header is not the one wanted, or it is
    and the callback fails ([fails c h e]). *)
Inductive combinator_fault (der : bool) (wants : header -> berror -> Prop)
    (fails : bytes -> header -> nerr E -> Prop) : bytes -> nerr E -> Prop :=
| xf_container i e : container_fault der i e -> combinator_fault der wants fails i e
| xf_header h c bs r e :
    framed der h c bs -> wants h e -> combinator_fault der wants fails (bs ++ r) (Error (into e))
| xf_callback h c bs r e :
    framed der h c bs -> (forall x, ~ wants h x) -> fails c h e ->
    combinator_fault der wants fails (bs ++ r) e.

(** Reading [c] as elements with [f] fails at [c']: an error of [f] cannot be recovered
    from, what is incomplete is what is left over, and [f] must read something. *)
Inductive elements_fault {A} (f : bytes -> iresult E A) (c : bytes) : nerr E -> Prop :=
| lf_error c' e : reaches f c c' -> f c' = Err (Error e) -> elements_fault f c (Failure e)
| lf_failure c' e : reaches f c c' -> f c' = Err (Failure e) -> elements_fault f c (Failure e)
| lf_left c' n :
    reaches f c c' -> f c' = Err (Incomplete n) -> c' <> [] -> elements_fault f c (Error (kind c' EkEof))
| lf_stuck c' v : reaches f c c' -> f c' = Ok (c', v) -> elements_fault f c (Error (kind c' EkMany0)).
End combinators.
