(** * Independent specification.

    Nothing in this file refers to a function of the model; only the data
    types of Base.v are used.  The property theorems relate the model to these
    definitions. *)

From Verif Require Import Base.

(** ** Numbers *)

(** Value of a list of digits in a base, most significant digit first. *)
Fixpoint digits_value (base : N) (ds : list N) : N :=
  match ds with
  | [] => 0
  | d :: r => d * base ^ N.of_nat (length r) + digits_value base r
  end.

(** Unsigned and two's complement value of content octets (X.690 8.3.3). *)
Definition unsigned (s : bytes) : N := digits_value 256 s.
Definition twos_complement (s : bytes) : Z :=
  match s with
  | b :: _ => (Z.of_N (unsigned s)
               - (if (128 <=? b)%N then 256 ^ Z.of_nat (length s) else 0))%Z
  | [] => 0%Z
  end.

(** The first nine bits are neither all zero nor all one, and there is at
    least one octet (X.690 8.3.1, 8.3.2). *)
Definition minimal_integer (s : bytes) : Prop :=
  match s with
  | [] => False
  | [_] => True
  | b :: c :: _ => ~ (b = 0 /\ c < 128) /\ ~ (b = 255 /\ 128 <= c)
  end.

(** Bits of an octet string, most significant bit of the first octet first. *)
Definition octet_bits (b : N) : list bool :=
  map (N.testbit b) [7; 6; 5; 4; 3; 2; 1; 0].
Definition bits (s : bytes) : list bool := flat_map octet_bits s.
Definition bits_value (l : list bool) : N :=
  digits_value 2 (map N.b2n l).

(** ** Identifier and length octets (X.690 8.1.2, 8.1.3) *)

Definition class_code (c : class) : N :=
  match c with Universal => 0 | Application => 1 | ContextSpecific => 2 | Private => 3 end.

Definition leading_octet (c : class) (constructed : bool) (low : N) : N :=
  class_code c * 64 + (if constructed then 32 else 0) + low.

(** Octets of the high tag number form: bit 8 set on all but the last. *)
Fixpoint continued (ds : list N) : bytes :=
  match ds with
  | [] => []
  | [d] => [d]
  | d :: r => (128 + d) :: continued r
  end.

(** Low tag number form, or high tag number form with one to five subsequent
    octets; the number is kept modulo 2^32 (documented limit of the crate). *)
Inductive ident_octets : class -> bool -> tag -> bytes -> Prop :=
| ident_low c constructed t :
    t < 31 -> ident_octets c constructed t [leading_octet c constructed t]
| ident_high c constructed ds :
    (1 <= length ds <= 5)%nat -> Forall (fun d => d < 128) ds ->
    ident_octets c constructed (digits_value 128 ds mod 2 ^ 32)
      (leading_octet c constructed 31 :: continued ds).

(** Short form, long form (1 to 126 octets, value below 2^64), indefinite. *)
Inductive length_octets : blen -> bytes -> Prop :=
| length_short n : n < 128 -> length_octets (Definite n) [n]
| length_long ds :
    (1 <= length ds <= 126)%nat -> bytes_ok ds -> unsigned ds < 2 ^ 64 ->
    length_octets (Definite (unsigned ds)) (128 + N.of_nat (length ds) :: ds)
| length_indefinite : length_octets Indefinite [128].

(** Octets [bs] denote the header [h]. *)
Definition header_octets (h : header) (bs : bytes) : Prop :=
  exists ib lb,
    bs = ib ++ lb
    /\ ident_octets (h_class h) (h_constructed h) (h_tag h) ib
    /\ length_octets (h_length h) lb
    /\ h_raw_tag h = Some ib
    /\ (h_length h = Indefinite -> h_constructed h = true).

(** ** Elements (TLV)

    What the library takes for the end of indefinite-length content: a header
    with tag number 0 and length 0 (whatever its class and form). *)
Definition ends_contents (h : header) : Prop :=
  h_tag h = 0 /\ h_length h = Definite 0.

(** [body d h bs]: [bs] are the octets that follow a header [h] and belong to
    the element: the announced number of octets, or elements up to and including an
    end-of-contents; [d] bounds the nesting of indefinite-length elements.
    [until_eoc d bs]: [bs] is a series of elements closed by one
    end-of-contents header. *)
Inductive body : nat -> header -> bytes -> Prop :=
| body_definite d h n bs :
    h_length h = Definite n -> N.of_nat (length bs) = n -> body (S d) h bs
| body_indefinite d h bs :
    h_length h = Indefinite -> h_constructed h = true -> until_eoc d bs ->
    body (S d) h bs
with until_eoc : nat -> bytes -> Prop :=
| eoc_now d h hb :
    header_octets h hb -> ends_contents h -> until_eoc (S d) hb
| eoc_later d h hb b rest :
    header_octets h hb -> ~ ends_contents h -> body d h b -> until_eoc d rest ->
    until_eoc d (hb ++ b ++ rest).

(** The content octets of a body: for the indefinite form the last two octets
    (normally 00 00) are not content. *)
Definition content_octets (h : header) (b : bytes) : bytes :=
  match h_length h with
  | Definite _ => b
  | Indefinite => firstn (length b - 2) b
  end.

(** [element d h c bs]: [bs] is one element with header [h] and content octets
    [c]. *)
Definition element (d : nat) (h : header) (c : bytes) (bs : bytes) : Prop :=
  exists hb b, bs = hb ++ b /\ header_octets h hb /\ body d h b /\ c = content_octets h b.

(** [bs] is a part of the contiguous octets [i]. *)
Definition subslice (bs i : bytes) : Prop := exists pre post, i = pre ++ bs ++ post.

(** ** DER constraints checked on one element (tag number, constructed bit,
    content octets) other than BIT STRING. *)

(** ObjectDescriptor, UTF8String, NumericString, PrintableString, T61String,
    VideotexString, IA5String, GraphicString, VisibleString, GeneralString,
    UniversalString, BMPString. *)
Definition string_tags : list tag := [7; 12; 18; 19; 20; 21; 22; 25; 26; 27; 28; 30].

Definition der_checked (t : tag) (constructed : bool) (c : bytes) : Prop :=
  (t = 1 -> c = [0] \/ c = [255])
  /\ (t = 2 -> match c with
               | [] => False
               | [_] => True
               | b0 :: b1 :: _ => ~ (b0 = 0 /\ b1 < 128)
               end)
  /\ (In t string_tags -> constructed = false)
  /\ (t = 23 \/ t = 24 -> exists s, c = s ++ [90]).

(** ** Text *)

(** Unicode scalar values, and their UTF-8 and UTF-16BE encodings. *)
Definition scalar (c : N) : Prop := c < 55296 \/ 57344 <= c < 1114112.

Definition utf8_encode (c : N) : bytes :=
  if c <? 128 then [c]
  else if c <? 2048 then [192 + c / 64; 128 + c mod 64]
  else if c <? 65536 then [224 + c / 4096; 128 + (c / 64) mod 64; 128 + c mod 64]
  else [240 + c / 262144; 128 + (c / 4096) mod 64; 128 + (c / 64) mod 64; 128 + c mod 64].

Definition utf8_text (s : bytes) : Prop :=
  exists cps, Forall scalar cps /\ s = flat_map utf8_encode cps.

Definition utf16_encode (c : N) : list N :=
  if c <? 65536 then [c]
  else [55296 + (c - 65536) / 1024; 56320 + (c - 65536) mod 1024].

Definition u16_octets (u : N) : bytes := [u / 256; u mod 256].

Definition utf16be_text (s : bytes) : Prop :=
  exists cps, Forall scalar cps /\ s = flat_map u16_octets (flat_map utf16_encode cps).

(** Permitted characters (X.680 table 8 and 10; IA5: ISO 646).  asn1-rs also
    lets DEL (127) through in a VisibleString. *)
Definition numeric_permitted (b : N) : Prop := 48 <= b <= 57 \/ b = 32.
Definition printable_permitted (b : N) : Prop :=
  48 <= b <= 57 \/ 65 <= b <= 90 \/ 97 <= b <= 122
  \/ In b [32; 39; 40; 41; 43; 44; 45; 46; 47; 58; 61; 63].
(** asn1-rs also lets DEL through, which X.680 does not. *)
Definition visible_permitted (b : N) : Prop := 32 <= b <= 127.
Definition ia5_permitted (b : N) : Prop := b <= 127.

(** ** Results *)

(** A call returns to its caller (with a value or an error): it neither panics
    nor runs forever. *)
Definition returns {E A} (r : res E A) : Prop :=
  (exists a, r = Ok a) \/ (exists e, r = Err e).
