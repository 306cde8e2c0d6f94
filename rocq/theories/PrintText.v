(** * Model of the text src/ber/print.rs produces ([impl Debug for PrettyBer]).

    Texts are sequences of octets (UTF-8).  Simplifications: the writer never
    fails (a [String]); indentation is unbounded (the program adds [usize]
    values); the [Display]/[Debug] texts of types of other crates are the
    fields of [texts]. *)

From Coq Require Import String Ascii.
From Verif Require Import Base Ber Print.
Local Open Scope string_scope.
Local Open Scope N_scope.
Local Open Scope list_scope.

(** The characters of a literal of /repo/src/ber/print.rs (ASCII). *)
Definition str (s : string) : bytes := map N_of_ascii (list_ascii_of_string s).

(** Texts made by other crates or by the standard library, used at
    /repo/src/ber/print.rs:83-98,109-133,138-171,193. *)
Record texts := mkTexts {
  tx_hex : bytes -> bytes;          (* Debug of HexSlice (rusticata-macros) *)
  tx_oid : oid -> bytes;            (* Debug of asn1-rs Oid *)
  tx_time : datetime -> bytes;      (* Display of asn1-rs ASN1DateTime *)
  tx_utf16 : list N -> option bytes; (* String::from_utf16, None = Err *)
  tx_utf16_err : bytes;             (* Debug of its error *)
  tx_utf32 : list N -> option bytes; (* char::from_u32 on each, None = not a scalar *)
  tx_octets : bytes -> bytes;       (* Debug of &[u8] *)
  tx_class : class -> bytes;        (* Display of asn1-rs Class *)
  tx_tag : tag -> bytes;            (* Display of asn1-rs Tag *)
  tx_debug : obj -> bytes }.        (* derived Debug of BerObject *)

(** Digits of [n] put in front of [acc], least significant first; part of [dec],
    /repo/src/ber/print.rs:84. *)
Fixpoint dec_digits (fuel : nat) (n : N) (acc : bytes) : bytes :=
  match fuel with
  | O => acc
  | S f =>
      let acc' := (48 + n mod 10) :: acc in
      if n / 10 =? 0 then acc' else dec_digits f (n / 10) acc'
  end.
(** [Display] of an unsigned integer, /repo/src/ber/print.rs:84,140,146. *)
Definition dec (n : N) : bytes := dec_digits (S (N.to_nat (N.log2 n))) n [].

(** /repo/src/ber/print.rs:105-107: [write!(f, "{:1$}", " ", indent)] if
    [indent > 0], i.e. [indent] spaces. *)
Definition pad (indent : N) : bytes := repeat 32 (N.to_nat indent).

(** /repo/src/ber/print.rs:81-101 *)
Definition dbg_header (T : texts) (h : header) : bytes :=
  let s_constructed := if h_constructed h then str "+" else [] in
  let l := match h_length h with Definite sz => dec sz | Indefinite => str "Indefinite" end in
  match h_class h with
  | Universal => str "[" ++ tx_tag T (h_tag h) ++ str "]" ++ s_constructed ++ str " " ++ l
  | ContextSpecific => str "[" ++ dec (h_tag h) ++ str "]" ++ s_constructed ++ str " " ++ l
  | c => str "[" ++ tx_class T c ++ str " " ++ dec (h_tag h) ++ str "]" ++ s_constructed ++ str " " ++ l
  end.

(** /repo/src/ber/print.rs:126-128: [chunks_exact(4)], big endian. *)
Fixpoint be_u32_units (s : bytes) : list N :=
  match s with
  | a :: b :: c :: d :: r => (((a * 256 + b) * 256 + c) * 256 + d) :: be_u32_units r
  | _ => []
  end.

(** /repo/src/ber/print.rs:112-123 *)
Definition print_utf16_string_with_type (T : texts) (s : bytes) (ty : bytes) : bytes :=
  match tx_utf16 T (be_u16_units s) with
  | Some t => ty ++ str "(""" ++ t ++ str """)" ++ [10]
  | None => ty ++ str "(" ++ tx_utf16_err T ++ str ") <error decoding utf32 string>" ++ [10]
  end.

(** /repo/src/ber/print.rs:124-134 *)
Definition print_utf32_string_with_type (T : texts) (s : bytes) (ty : bytes) : bytes :=
  match tx_utf32 T (be_u32_units s) with
  | Some t => ty ++ str "(""" ++ t ++ str """)" ++ [10]
  | None => ty ++ str "(" ++ tx_octets T s ++ str ") <error decoding utf32 string>" ++ [10]
  end.

(** The name and quotes printed around a restricted string,
    /repo/src/ber/print.rs:147-156. *)
Definition fmt_str (k : strkind) (s : bytes) : bytes :=
  match k with
  | KVisible => str "VisibleString(""" ++ s ++ str """)"
  | KGeneral => str "GeneralString(""" ++ s ++ str """)"
  | KGraphic => str "GraphicString(""" ++ s ++ str """)"
  | KPrintable => str "PrintableString(""" ++ s ++ str """)"
  | KNumeric => str "NumericString(""" ++ s ++ str """)"
  | KUTF8 => str "UTF8String(""" ++ s ++ str """)"
  | KIA5 => str "IA5String(""" ++ s ++ str """)"
  | KT61 => str "T61String(" ++ s ++ str ")"
  | KVideotex => str "VideotexString(" ++ s ++ str ")"
  | KObjectDescriptor => str "ObjectDescriptor(""" ++ s ++ str """)"
  end.

(** /repo/src/ber/print.rs:103-197.  The fields of [PrettyBer] are arguments;
    [next_indent] (66-73) adds [inc] to [indent] and keeps the flags. *)
Fixpoint fmt_obj (T : texts) (flags : list flag) (indent inc : N) (o : obj) : bytes :=
  match o with
  | Obj h c =>
      pad indent
      ++ (if existsb (flag_eqb ShowHeader) flags then dbg_header T h ++ str " " else [])
      ++ match c with
         | CEndOfContent => str "EndOfContent"
         | CBoolean b => str "Boolean(" ++ (if b then str "true" else str "false") ++ str ")"
         | CInteger i => str "Integer(" ++ tx_hex T i ++ str ")"
         | CEnum i => str "Enum(" ++ dec i ++ str ")"
         | COID v => str "OID(" ++ tx_oid T v ++ str ")"
         | CRelativeOID v => str "RelativeOID(" ++ tx_oid T v ++ str ")"
         | CNull => str "Null"
         | COctetString v => str "OctetString(" ++ tx_hex T v ++ str ")"
         | CBitString u v => str "BitString(" ++ dec u ++ str "," ++ tx_hex T v ++ str ")"
         | CGeneralizedTime t => str "GeneralizedTime(""" ++ tx_time T t ++ str """)"
         | CUTCTime t => str "UTCTime(""" ++ tx_time T t ++ str """)"
         | CStr k s => fmt_str k s
         | CBmpString s => print_utf16_string_with_type T s (str "BmpString")
         | CUniversalString s => print_utf32_string_with_type T s (str "UniversalString")
         | COptional (Some x) => str "OPTION " ++ tx_debug T x
         | COptional None => str "NONE"
         | CTagged cl t x =>
             str "ContextSpecific [" ++ tx_class T cl ++ str " " ++ dec t ++ str "] {" ++ [10]
             ++ fmt_obj T flags (indent + inc) inc x ++ pad indent ++ str "}"
         | CSet l | CSequence l =>
             let ty := if h_tag h =? T_Sequence then str "Sequence" else str "Set" in
             if existsb (flag_eqb Recursive) flags then
               ty ++ str "[" ++ [10] ++ flat_map (fmt_obj T flags (indent + inc) inc) l
               ++ pad indent ++ str "]"
             else ty
         | CUnknown a => str "Unknown " ++ tx_hex T (a_data a)
         end
  end.

(** [format!("{:?}", p)], /repo/src/ber/print.rs:103-197 *)
Definition pretty_text (T : texts) (p : pretty) : bytes :=
  fmt_obj T (p_flags p) (p_indent p) (p_inc p) (p_obj p).
