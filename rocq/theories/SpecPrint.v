(** * What the pretty printer should write (for C65-C67) *)

From Coq Require Import String.
From Verif Require Import Base Ber Print PrintText Spec.
Local Open Scope string_scope.
Local Open Scope N_scope.
Local Open Scope list_scope.

(** The objects written inside another one: the object below a tag, and, when
    printing recursively, the members of a SEQUENCE or SET. *)
Definition inner (rec : bool) (o : obj) : list obj :=
  match o with
  | Obj _ (CSequence l) | Obj _ (CSet l) => if rec then l else []
  | Obj _ (CTagged _ _ x) => [x]
  | _ => []
  end.

(** [written rec o p x]: [x] is reached from [o] by the indices [p]. *)
Inductive written (rec : bool) : obj -> list nat -> obj -> Prop :=
| written_here o : written rec o [] o
| written_inner o i c p x :
    nth_error (inner rec o) i = Some c -> written rec c p x -> written rec o (i :: p) x.

(** The closing bracket of an object that was opened by one. *)
Definition closing (rec : bool) (o : obj) : option bytes :=
  match o with
  | Obj _ (CSequence _) | Obj _ (CSet _) => if rec then Some (str "]") else None
  | Obj _ (CTagged _ _ _) => Some (str "}")
  | _ => None
  end.

(** A piece of text: the beginning ([false]) or the end ([true]) of the object
    at a path. *)
Definition mark := (list nat * bool)%type.

(** Order of the pieces: the beginning of an object, then everything inside
    it in order, then its end. *)
Inductive mark_before : mark -> mark -> Prop :=
| mb_begin i p b : mark_before ([], false) (i :: p, b)
| mb_begin_end : mark_before ([], false) ([], true)
| mb_end i p b : mark_before (i :: p, b) ([], true)
| mb_sibling i j p q a b : (i < j)%nat -> mark_before (i :: p, a) (j :: q, b)
| mb_inside i p q a b : mark_before (p, a) (q, b) -> mark_before (i :: p, a) (i :: q, b).

(** [s] is [n] in decimal: digits without superfluous leading zero. *)
Definition decimal (n : N) (s : bytes) : Prop :=
  Forall (fun b => 48 <= b <= 57) s /\ digits_value 10 (map (fun b => b - 48) s) = n
  /\ (exists b r, s = b :: r /\ (b = 48 -> r = [])).

Definition named (name : string) (value : bytes) : bytes := str name ++ str "(" ++ value ++ str ")".
Definition quoted (s : bytes) : bytes := [34] ++ s ++ [34].

(** Class (not for UNIVERSAL and CONTEXT-SPECIFIC), tag (by name for
    UNIVERSAL), "+" if constructed, length. *)
Definition header_text (T : texts) (h : header) : bytes :=
  str "["
  ++ (match h_class h with Application | Private => tx_class T (h_class h) ++ [32] | _ => [] end)
  ++ (match h_class h with Universal => tx_tag T (h_tag h) | _ => dec (h_tag h) end)
  ++ str "]" ++ (if h_constructed h then str "+" else []) ++ [32]
  ++ (match h_length h with Definite n => dec n | Indefinite => str "Indefinite" end).

(** The octets of a string taken two (four) at a time, an incomplete rest left
    out. *)
Fixpoint grouped (n : nat) (fuel : nat) (s : bytes) : list N :=
  match fuel with
  | O => []
  | S f => if (length s <? n)%nat then [] else unsigned (firstn n s) :: grouped n f (skipn n s)
  end.

Definition string_name (k : strkind) : string :=
  match k with
  | KVisible => "VisibleString" | KGeneral => "GeneralString" | KGraphic => "GraphicString"
  | KPrintable => "PrintableString" | KNumeric => "NumericString" | KUTF8 => "UTF8String"
  | KIA5 => "IA5String" | KT61 => "T61String" | KVideotex => "VideotexString"
  | KObjectDescriptor => "ObjectDescriptor"
  end.

(** What is written for the object itself. *)
Definition own_text (T : texts) (rec : bool) (o : obj) : bytes :=
  match o_content o with
  | CEndOfContent => str "EndOfContent"
  | CNull => str "Null"
  | CBoolean true => str "Boolean(true)"
  | CBoolean false => str "Boolean(false)"
  | CInteger s => named "Integer" (tx_hex T s)
  | COctetString s => named "OctetString" (tx_hex T s)
  | CBitString u s => named "BitString" (dec u ++ [44] ++ tx_hex T s)
  | CEnum n => named "Enum" (dec n)
  | COID v => named "OID" (tx_oid T v)
  | CRelativeOID v => named "RelativeOID" (tx_oid T v)
  | CStr k s => named (string_name k) (match k with KT61 | KVideotex => s | _ => quoted s end)
  | CUTCTime t => named "UTCTime" (quoted (tx_time T t))
  | CGeneralizedTime t => named "GeneralizedTime" (quoted (tx_time T t))
  | CBmpString s =>
      match tx_utf16 T (grouped 2 (length s) s) with
      | Some t => named "BmpString" (quoted t) ++ [10]
      | None => named "BmpString" (tx_utf16_err T) ++ str " <error decoding utf32 string>" ++ [10]
      end
  | CUniversalString s =>
      match tx_utf32 T (grouped 4 (length s) s) with
      | Some t => named "UniversalString" (quoted t) ++ [10]
      | None => named "UniversalString" (tx_octets T s) ++ str " <error decoding utf32 string>" ++ [10]
      end
  | COptional None => str "NONE"
  | COptional (Some x) => str "OPTION " ++ tx_debug T x
  | CTagged c t _ => str "ContextSpecific [" ++ tx_class T c ++ [32] ++ dec t ++ str "] {" ++ [10]
  | CSequence _ | CSet _ =>
      (if h_tag (o_header o) =? 16 then str "Sequence" else str "Set")
      ++ (if rec then str "[" ++ [10] else [])
  | CUnknown a => str "Unknown " ++ tx_hex T (a_data a)
  end.

Definition spaces (n : N) : bytes := repeat 32 (N.to_nat n).

(** The text of one piece, indented by the depth of its path. *)
Definition piece (T : texts) (rec hdr : bool) (indent inc : N) (m : mark * obj) : bytes :=
  let '((p, b), x) := m in
  spaces (indent + inc * N.of_nat (length p))
  ++ (if b then match closing rec x with Some s => s | None => [] end
      else (if hdr then header_text T (o_header x) ++ [32] else []) ++ own_text T rec x).
