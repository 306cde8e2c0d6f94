(** * Model of src/ber/visit.rs and src/ber/visit_mut.rs. *)

From Verif Require Import Base.

(** One constructor per callback of the [Visit] trait other than [visit_ber]
    (/repo/src/ber/visit.rs:24-105), with its arguments (the depth is kept
    apart).  [CbStr k] stands for the ten callbacks taking a [&str]. *)
Inductive callback :=
| CbBitString (ignored : N) (data : bytes)
| CbBmpString (s : bytes)
| CbBoolean (b : bool)
| CbEndOfContent
| CbEnum (n : N)
| CbStr (k : strkind) (s : bytes)
| CbGeneralizedTime (t : datetime)
| CbInteger (s : bytes)
| CbNull
| CbOid (o : oid)
| CbOctetString (s : bytes)
| CbOptional (o : option obj)
| CbRelativeOid (o : oid)
| CbSequence (l : list obj)
| CbSet (l : list obj)
| CbTagged (c : class) (t : tag) (o : obj)
| CbUtcTime (t : datetime)
| CbUniversalString (s : bytes)
| CbUnknown (a : any).

(** A call made to the visitor: [visit_ber(ber, depth)] or one of the others. The
    methods of the trait [Visit], /repo/src/ber/visit.rs:12-107. *)
Inductive call :=
| VisitBer (ber : obj) (depth : nat)
| VisitCb (cb : callback) (depth : nat).

(** A visitor is a state and what each call does to it ([&mut self]). The trait
    [Visit], /repo/src/ber/visit.rs:12-107. *)
Definition visitor (S : Type) := S -> call -> S.

(** The [for item in l.iter()] loops of /repo/src/ber/visit.rs:156-158,162-164. *)
Definition visit_children {S} (visit1 : S -> obj -> S) : S -> list obj -> S :=
  fix go s l :=
    match l with
    | [] => s
    | item :: r => go (visit1 s item) r
    end.

(** /repo/src/ber/visit.rs:124-177 [visit_ber_bfs].  Simplification: [depth] is a
    number without bound, so the overflow of [depth + 1] (lines 157, 163), which takes a
    [run_at] that starts within the nesting of the tree below [usize::MAX], is not modelled;
    the same holds for [visit_ber_bfs_mut]. *)
Fixpoint visit_ber_bfs {S} (v : visitor S) (s : S) (ber : obj) (depth : nat) {struct ber} : S :=
  let s := v s (VisitBer ber depth) in
  match ber with
  | Obj _ c =>
      match c with
      | CBitString ignored data => v s (VisitCb (CbBitString ignored data) depth)
      | CBmpString x => v s (VisitCb (CbBmpString x) depth)
      | CBoolean b => v s (VisitCb (CbBoolean b) depth)
      | CEndOfContent => v s (VisitCb CbEndOfContent depth)
      | CEnum n => v s (VisitCb (CbEnum n) depth)
      | CStr k x => v s (VisitCb (CbStr k x) depth)
      | CGeneralizedTime t => v s (VisitCb (CbGeneralizedTime t) depth)
      | CInteger x => v s (VisitCb (CbInteger x) depth)
      | CNull => v s (VisitCb CbNull depth)
      | COID o => v s (VisitCb (CbOid o) depth)
      | COctetString x => v s (VisitCb (CbOctetString x) depth)
      | COptional o => v s (VisitCb (CbOptional o) depth)
      | CRelativeOID o => v s (VisitCb (CbRelativeOid o) depth)
      | CSequence l =>
          let s := v s (VisitCb (CbSequence l) depth) in
          visit_children (fun s item => visit_ber_bfs v s item (Datatypes.S depth)) s l
      | CSet l =>
          let s := v s (VisitCb (CbSet l) depth) in
          visit_children (fun s item => visit_ber_bfs v s item (Datatypes.S depth)) s l
      | CTagged cl t o => v s (VisitCb (CbTagged cl t o) depth)
      | CUTCTime t => v s (VisitCb (CbUtcTime t) depth)
      | CUniversalString x => v s (VisitCb (CbUniversalString x) depth)
      | CUnknown a => v s (VisitCb (CbUnknown a) depth)
      end
  end.

(** /repo/src/ber/visit.rs:110-121 *)
Definition visit_run {S} (v : visitor S) (s : S) (ber : obj) : S := visit_ber_bfs v s ber 0.
(** /repo/src/ber/visit.rs:117-121 [run_at] *)
Definition visit_run_at {S} (v : visitor S) (s : S) (ber : obj) (depth : nat) : S :=
  visit_ber_bfs v s ber depth.

(** ** Mutable traversal (src/ber/visit_mut.rs) *)

(** A visitor: what each callback of the [VisitMut] trait does to the state
    ([&mut self]) and to the arguments it gets by [&mut]
    (/repo/src/ber/visit_mut.rs:20-119).  A callback that only gets shared
    references returns the state alone: octet strings, UTF8Strings and both
    times (lines 48, 77, 108, 111).  [vm_str k] stands for the nine callbacks
    taking a [&mut &str].  [visit_ber_optional_mut] gets an
    [Option<&mut BerObject>] (line 80): it can change the object, not whether
    there is one, hence two fields. *)
Record visitor_mut (S : Type) := mkVisitorMut {
  vm_ber : S -> obj -> nat -> S * obj;
  vm_bitstring : S -> N -> bytes -> nat -> S * (N * bytes);
  vm_bmpstring : S -> bytes -> nat -> S * bytes;
  vm_boolean : S -> bool -> nat -> S * bool;
  vm_endofcontent : S -> nat -> S;
  vm_enum : S -> N -> nat -> S * N;
  vm_str : strkind -> S -> bytes -> nat -> S * bytes;
  vm_utf8string : S -> bytes -> nat -> S;
  vm_generalizedtime : S -> datetime -> nat -> S;
  vm_integer : S -> bytes -> nat -> S * bytes;
  vm_null : S -> nat -> S;
  vm_oid : S -> oid -> nat -> S * oid;
  vm_octetstring : S -> bytes -> nat -> S;
  vm_optional_some : S -> obj -> nat -> S * obj;
  vm_optional_none : S -> nat -> S;
  vm_relative_oid : S -> oid -> nat -> S * oid;
  vm_sequence : S -> list obj -> nat -> S * list obj;
  vm_set : S -> list obj -> nat -> S * list obj;
  vm_tagged : S -> class -> tag -> obj -> nat -> S * (class * tag * obj);
  vm_utctime : S -> datetime -> nat -> S;
  vm_universalstring : S -> bytes -> nat -> S * bytes;
  vm_unknown : S -> any -> nat -> S * any
}.
Arguments vm_ber {S}. Arguments vm_bitstring {S}. Arguments vm_bmpstring {S}. Arguments vm_boolean {S}.
Arguments vm_endofcontent {S}. Arguments vm_enum {S}. Arguments vm_str {S}. Arguments vm_utf8string {S}.
Arguments vm_generalizedtime {S}. Arguments vm_integer {S}. Arguments vm_null {S}. Arguments vm_oid {S}.
Arguments vm_octetstring {S}. Arguments vm_optional_some {S}. Arguments vm_optional_none {S}.
Arguments vm_relative_oid {S}. Arguments vm_sequence {S}. Arguments vm_set {S}. Arguments vm_tagged {S}.
Arguments vm_utctime {S}. Arguments vm_universalstring {S}. Arguments vm_unknown {S}.

(** The [for item in l.iter_mut()] loops of
    /repo/src/ber/visit_mut.rs:170-172,176-178. *)
Definition visit_children_mut {S} (visit1 : S -> obj -> res unit (S * obj))
  : S -> list obj -> res unit (S * list obj) :=
  fix go s l :=
    match l with
    | [] => Ok (s, [])
    | item :: r =>
        let* (s1, item') := visit1 s item in
        let* (s2, r') := go s1 r in
        Ok (s2, item' :: r')
    end.

(** /repo/src/ber/visit_mut.rs:138-191 [visit_ber_bfs_mut].  A callback may
    grow the tree it is walking, so Rust's recursion has no structural bound;
    the model takes [fuel] (nesting depth of the walk) and returns [Diverge]
    when it is exhausted. *)
Fixpoint visit_ber_bfs_mut {S} (v : visitor_mut S) (fuel : nat) (s : S) (ber : obj) (depth : nat)
  : res unit (S * obj) :=
  match fuel with
  | O => Diverge
  | Datatypes.S fuel' =>
      let (s1, ber1) := vm_ber v s ber depth in
      let h := o_header ber1 in
      match o_content ber1 with
      | CBitString ignored data =>
          let (s2, r) := vm_bitstring v s1 ignored data depth in Ok (s2, Obj h (CBitString (fst r) (snd r)))
      | CBmpString x => let (s2, x') := vm_bmpstring v s1 x depth in Ok (s2, Obj h (CBmpString x'))
      | CBoolean b => let (s2, b') := vm_boolean v s1 b depth in Ok (s2, Obj h (CBoolean b'))
      | CEndOfContent => Ok (vm_endofcontent v s1 depth, Obj h CEndOfContent)
      | CEnum n => let (s2, n') := vm_enum v s1 n depth in Ok (s2, Obj h (CEnum n'))
      | CStr KUTF8 x => Ok (vm_utf8string v s1 x depth, Obj h (CStr KUTF8 x))
      | CStr k x => let (s2, x') := vm_str v k s1 x depth in Ok (s2, Obj h (CStr k x'))
      | CGeneralizedTime t => Ok (vm_generalizedtime v s1 t depth, Obj h (CGeneralizedTime t))
      | CInteger x => let (s2, x') := vm_integer v s1 x depth in Ok (s2, Obj h (CInteger x'))
      | CNull => Ok (vm_null v s1 depth, Obj h CNull)
      | COID x => let (s2, x') := vm_oid v s1 x depth in Ok (s2, Obj h (COID x'))
      | COctetString x => Ok (vm_octetstring v s1 x depth, Obj h (COctetString x))
      | COptional (Some o) =>
          let (s2, o') := vm_optional_some v s1 o depth in Ok (s2, Obj h (COptional (Some o')))
      | COptional None => Ok (vm_optional_none v s1 depth, Obj h (COptional None))
      | CRelativeOID x => let (s2, x') := vm_relative_oid v s1 x depth in Ok (s2, Obj h (CRelativeOID x'))
      | CSequence l =>
          let (s2, l2) := vm_sequence v s1 l depth in
          let* (s3, l') := visit_children_mut
              (fun s item => visit_ber_bfs_mut v fuel' s item (Datatypes.S depth)) s2 l2 in
          Ok (s3, Obj h (CSequence l'))
      | CSet l =>
          let (s2, l2) := vm_set v s1 l depth in
          let* (s3, l') := visit_children_mut
              (fun s item => visit_ber_bfs_mut v fuel' s item (Datatypes.S depth)) s2 l2 in
          Ok (s3, Obj h (CSet l'))
      | CTagged cl t o =>
          let '(s2, (cl', t', o')) := vm_tagged v s1 cl t o depth in Ok (s2, Obj h (CTagged cl' t' o'))
      | CUTCTime t => Ok (vm_utctime v s1 t depth, Obj h (CUTCTime t))
      | CUniversalString x =>
          let (s2, x') := vm_universalstring v s1 x depth in Ok (s2, Obj h (CUniversalString x'))
      | CUnknown a => let (s2, a') := vm_unknown v s1 a depth in Ok (s2, Obj h (CUnknown a'))
      end
  end.

(** /repo/src/ber/visit_mut.rs:124-135 *)
Definition visit_mut_run {S} (v : visitor_mut S) (fuel : nat) (s : S) (ber : obj) :=
  visit_ber_bfs_mut v fuel s ber 0.
