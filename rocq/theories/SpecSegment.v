(** * Independent specification: strings split into segments.

    What is left of a value when its encoding is read by a decoder that does not put
    segments together.  No function of the model is used. *)

From Verif Require Import Base Spec SpecAbstract.

(** [seen n v bs v']: [bs] is a basic encoding of [v]; without putting segments together it
    looks like [v'].  The contents of a segmented OCTET STRING are taken for its value; what
    is inside an explicit tag is not looked at; other segmented strings do not look like
    anything. *)
Inductive seen : nat -> asn1 -> bytes -> asn1 -> Prop :=
| seen_primitive n v c lb :
    contents Ber v c -> definite_length Ber (N.of_nat (length c)) lb ->
    seen (S n) v (leading_octet Universal false (value_tag v) :: lb ++ c) v
| seen_sequence n l c l' bs :
    seen_all n l c l' -> wrapped Ber Universal 16 c bs -> seen (S n) (ASequence l) bs (ASequence l')
| seen_set n l c l' bs :
    seen_all n l c l' -> wrapped Ber Universal 17 c bs -> seen (S n) (ASet l) bs (ASet l')
| seen_explicit n cl t v c bs :
    cl <> Universal -> encodes Ber n v c -> wrapped Ber cl t c bs ->
    seen (S n) (AExplicit cl t v) bs (AExplicit cl t v)
| seen_segments n ss c bs :
    encode_all Ber n (map AOctetString ss) c -> wrapped Ber Universal 4 c bs ->
    seen (S n) (AOctetString (concat ss)) bs (AOctetString c)
with seen_all : nat -> list asn1 -> bytes -> list asn1 -> Prop :=
| sa_nil n : seen_all n [] [] []
| sa_cons n v bs v' l rest l' :
    seen n v bs v' -> seen_all n l rest l' -> seen_all n (v :: l) (bs ++ rest) (v' :: l').

(** [split_text n v bs]: the encoding [bs] of [v] contains, not inside an explicit tag, a BIT
    STRING or a character string in segments ([st_here]: the first one). *)
Inductive split_text : nat -> asn1 -> bytes -> Prop :=
| sp_bits n ls l c bs :
    Forall (fun x => (length x mod 8 = 0)%nat) ls ->
    encode_all Ber n (map ABitString (ls ++ [l])) c -> wrapped Ber Universal 3 c bs ->
    split_text (S n) (ABitString (concat ls ++ l)) bs
| sp_text n k chars ss c bs :
    text_octets k chars = concat ss ->
    encode_all Ber n (map AOctetString ss) c -> wrapped Ber Universal (text_tag k) c bs ->
    split_text (S n) (AText k chars) bs
| sp_sequence n l c bs :
    split_texts n l c -> wrapped Ber Universal 16 c bs -> split_text (S n) (ASequence l) bs
| sp_set n l c bs :
    split_texts n l c -> wrapped Ber Universal 17 c bs -> split_text (S n) (ASet l) bs
with split_texts : nat -> list asn1 -> bytes -> Prop :=
| st_here n v bs l rest :
    split_text n v bs -> encode_all Ber n l rest -> split_texts n (v :: l) (bs ++ rest)
| st_later n v bs v' l rest :
    seen n v bs v' -> split_texts n l rest -> split_texts n (v :: l) (bs ++ rest).

(** [whole n v bs]: [bs] is a basic encoding of [v] where only strings inside explicit tags are
    split, apart from OCTET STRINGs of no segments at all. *)
Inductive whole : nat -> asn1 -> bytes -> Prop :=
| wh_primitive n v c lb :
    contents Ber v c -> definite_length Ber (N.of_nat (length c)) lb ->
    whole (S n) v (leading_octet Universal false (value_tag v) :: lb ++ c)
| wh_sequence n l c bs :
    whole_all n l c -> wrapped Ber Universal 16 c bs -> whole (S n) (ASequence l) bs
| wh_set n l c bs :
    whole_all n l c -> wrapped Ber Universal 17 c bs -> whole (S n) (ASet l) bs
| wh_explicit n cl t v c bs :
    cl <> Universal -> encodes Ber n v c -> wrapped Ber cl t c bs -> whole (S n) (AExplicit cl t v) bs
| wh_no_segments n bs :
    wrapped Ber Universal 4 [] bs -> whole (S n) (AOctetString []) bs
with whole_all : nat -> list asn1 -> bytes -> Prop :=
| wa_nil n : whole_all n [] []
| wa_cons n v bs l rest :
    whole n v bs -> whole_all n l rest -> whole_all n (v :: l) (bs ++ rest).
