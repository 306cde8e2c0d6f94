(** * The encoder with a count of the octets it writes

    The same functions as in Serialize.v, writing to a [Vec<u8>], each also returning how
    many octets it passed to [write] of any [Vec]: the one of the caller and those it
    makes itself. *)

From Verif Require Import Base Asn1rs Ber Serialize Cost.

(** cookie-factory [slice(data)], and [be_u8(b)] for one octet, e.g.
    /repo/src/ber/serialize.rs:20,30,59. *)
Definition e_slice (data : bytes) : nat * gen := (length data, Ok data).

(** cookie-factory [tuple((a, b))], e.g. /repo/src/ber/serialize.rs:30,53. *)
Definition e_seq (a b : nat * gen) : nat * gen :=
  cbind a (fun x => cbind b (fun y => (O, Ok (x ++ y)))).

(** cookie-factory [many_ref(v, f)], /repo/src/ber/serialize.rs:73. *)
Definition e_many {A} (f : A -> nat * gen) : list A -> nat * gen :=
  fix go l :=
    match l with
    | [] => (O, Ok [])
    | x :: r => e_seq (f x) (go r)
    end.

(** /repo/src/ber/serialize.rs:13-36 *)
Definition e_length (l : blen) : nat * gen :=
  match l with
  | Definite sz =>
      if sz <=? 127 then e_slice [sz]
      else
        let v := skip_zeroes (to_be_bytes 8 sz) in
        let b0 := N.lor 128 (nlen v mod 256) in
        e_seq (e_slice [b0]) (e_slice v)
  | Indefinite => e_slice [128]
  end.

(** /repo/src/ber/serialize.rs:42-54 *)
Definition e_header (hdr : header) : nat * gen :=
  let class_u8 := N.shiftl (class_to_u8 (h_class hdr)) 6 in
  let pc_u8 := N.shiftl (if h_constructed hdr then 1 else 0) 5 in
  if 30 <? h_tag hdr then (O, Panic)
  else
    let byte_0 := N.lor (N.lor class_u8 pc_u8) (h_tag hdr mod 256) in
    e_seq (e_slice [byte_0]) (e_length (h_length hdr)).

(** /repo/src/ber/serialize.rs:202-206 (90-93 and 109-112 are the same lines): contents
    into a new [Vec], header into another, then both copied. *)
Definition e_with_header (hdr : header) (content : nat * gen) : nat * gen :=
  cbind content (fun v =>
  cbind (e_header (with_length hdr (Definite (nlen v)))) (fun v_hdr =>
  e_seq (e_slice v_hdr) (e_slice v))).

(** /repo/src/ber/serialize.rs:116-172 and 197-208 *)
Fixpoint e_object_content (L : leaves) (c : content) {struct c} : nat * gen :=
  match c with
  | CEndOfContent => e_slice [0]
  | CBoolean b => e_slice [if b then 255 else 0]
  | CInteger s => e_slice s
  | CBitString ignored_bits s => e_seq (e_slice [ignored_bits]) (e_slice s)
  | COctetString s => e_slice s
  | CNull => (O, Ok [])
  | CEnum i => e_slice (skip_zeroes (to_be_bytes 8 i))
  | COID o => e_slice (oid_bytes o)
  | CRelativeOID o => e_slice (oid_bytes o)
  | CUTCTime t => e_slice (lf_show_datetime L t)
  | CGeneralizedTime t => e_slice (lf_show_datetime L t)
  | CStr _ s => e_slice s
  | CBmpString s => e_slice s
  | CUniversalString s => e_slice s
  | CSequence v => e_many (e_object L) v
  | CSet v => e_many (e_object L) v
  | COptional (Some (Obj _ c')) => e_object_content L c'
  | COptional None => e_slice []
  | CTagged _ _ inner => e_object L inner
  | CUnknown a => e_slice (a_data a)
  end
with e_object (L : leaves) (o : obj) {struct o} : nat * gen :=
  match o with
  | Obj hdr c => e_with_header hdr (e_object_content L c)
  end.

(** /repo/src/ber/serialize.rs:80-94 *)
Definition e_tagged_explicit (L : leaves) (t : tag) (c : class) (o : obj) : nat * gen :=
  e_with_header (header_new c true t (Definite 0)) (e_object L o).

(** /repo/src/ber/serialize.rs:100-114 *)
Definition e_tagged_implicit (L : leaves) (t : tag) (c : class) (o : obj) : nat * gen :=
  e_with_header (header_new c (h_constructed (o_header o)) t (Definite 0)) (e_object_content L (o_content o)).

(** /repo/src/ber/serialize.rs:181-186 *)
Definition e_object_raw (L : leaves) (hdr : header) (c : content) : nat * gen :=
  e_seq (e_header hdr) (e_object_content L c).
