(** * Model of src/ber/print.rs for a writer that may fail.

    [impl Debug for PrettyBer] as a program that calls [fmt::Write::write_str]
    and passes every error on.  How the text of one [write!] is divided into
    calls is the standard library's business: it is a parameter, [cut].
    The other simplifications are those of PrintText.v. *)

From Coq Require Import String.
From Verif Require Import Base Ber Print PrintText.
Local Open Scope string_scope.
Local Open Scope N_scope.
Local Open Scope list_scope.

Section Writer.
  (** The writer behind the [fmt::Formatter] of /repo/src/ber/print.rs:81,104: its state
      and [write_str], false = [Err(fmt::Error)]; [cut] as above. *)
  Context {S : Type} (write_str : S -> bytes -> S * bool) (cut : bytes -> list bytes).

  (** A function that writes, e.g. /repo/src/ber/print.rs:81,104. *)
  Definition writing : Type := S -> S * bool.

  (** core [fmt::write]: one [write_str] after the other until one fails; called by
      [write!] in /repo/src/ber/print.rs:88-193. *)
  Fixpoint write_all (l : list bytes) : writing :=
    fun s =>
      match l with
      | [] => (s, true)
      | c :: r => let (s1, ok) := write_str s c in if ok then write_all r s1 else (s1, false)
      end.

  (** One [write!(f, ..)], e.g. /repo/src/ber/print.rs:106. *)
  Definition wr (text : bytes) : writing := write_all (cut text).

  (** [a?; b], e.g. /repo/src/ber/print.rs:109-110. *)
  Definition next (a b : writing) : writing :=
    fun s => let (s1, ok) := a s in if ok then b s1 else (s1, false).
  (** [Ok(())], /repo/src/ber/print.rs:99,173,190. *)
  Definition done : writing := fun s => (s, true).

  (** /repo/src/ber/print.rs:105-107,169-171,183-185 *)
  Definition wr_pad (indent : N) : writing := if 0 <? indent then wr (pad indent) else done.

  (** [for o in v { write!(..)?; }], /repo/src/ber/print.rs:180-182. *)
  Definition wr_each (f : obj -> writing) : list obj -> writing :=
    fix go l := match l with [] => done | o :: r => next (f o) (go r) end.

  (** The arms of /repo/src/ber/print.rs:136-165,192-194 that are one [write!]: its text. *)
  Definition single_text (T : texts) (c : content) : bytes :=
    match c with
    | CEndOfContent => str "EndOfContent"
    | CBoolean b => str "Boolean(" ++ (if b then str "true" else str "false") ++ str ")"
    | CInteger i => str "Integer(" ++ tx_hex T i ++ str ")"
    | CEnum i => str "Enum(" ++ dec i ++ str ")"
    | COID v => str "OID(" ++ tx_oid T v ++ str ")"
    | CRelativeOID v => str "RelativeOID(" ++ tx_oid T v ++ str ")"
    | CNull => str "Null"
    | COctetString v => str "OctetString(" ++ tx_hex T v ++ str ")"
    | CBitString u v => str "BitString(" ++ dec u ++ str "," ++ tx_hex T v ++ str ")"
    | CGeneralizedTime t => str "GeneralizedTime(""" ++ tx_time T t ++ str """)"
    | CUTCTime t => str "UTCTime(""" ++ tx_time T t ++ str """)"
    | CStr k s => fmt_str k s
    | CBmpString s => print_utf16_string_with_type T s (str "BmpString")
    | CUniversalString s => print_utf32_string_with_type T s (str "UniversalString")
    | COptional (Some x) => str "OPTION " ++ tx_debug T x
    | COptional None => str "NONE"
    | CUnknown a => str "Unknown " ++ tx_hex T (a_data a)
    | CTagged _ _ _ | CSet _ | CSequence _ => []
    end.

  (** /repo/src/ber/print.rs:103-197 *)
  Fixpoint fmt_write (T : texts) (flags : list flag) (indent inc : N) (o : obj) : writing :=
    match o with
    | Obj h c =>
        next (wr_pad indent)                                                      (* l.105-107 *)
          (next (if existsb (flag_eqb ShowHeader) flags                           (* l.108-111 *)
                 then next (wr (dbg_header T h)) (wr (str " ")) else done)
             match c with
             | CTagged cl t x =>                                                  (* l.166-174 *)
                 next (wr (str "ContextSpecific [" ++ tx_class T cl ++ str " " ++ dec t ++ str "] {" ++ [10]))
                   (next (fmt_write T flags (indent + inc) inc x)
                      (next (wr_pad indent) (wr (str "}"))))
             | CSet l | CSequence l =>                                            (* l.175-191 *)
                 let ty := if h_tag h =? T_Sequence then str "Sequence" else str "Set" in
                 if existsb (flag_eqb Recursive) flags then
                   next (wr (ty ++ str "[" ++ [10]))
                     (next (wr_each (fmt_write T flags (indent + inc) inc) l)
                        (next (wr_pad indent) (wr (str "]"))))
                 else wr ty
             | c => wr (single_text T c)
             end)
    end.
End Writer.

(** [write!(w, "{:?}", p)], /repo/src/ber/print.rs:103-197 *)
Definition pretty_write {S} (write_str : S -> bytes -> S * bool) (cut : bytes -> list bytes)
    (T : texts) (p : pretty) : S -> S * bool :=
  fmt_write write_str cut T (p_flags p) (p_indent p) (p_inc p) (p_obj p).
