(** * Model of src/ber/serialize.rs for any writer.

    Serialize.v models the encoder writing to a [Vec<u8>].  The functions are generic
    in [W: Write + Default + AsRef<[u8]>]; here [W] is any type with those three
    operations.  A writer may refuse (an [io::Error], whose kind is not
    modelled) or take only part of what it is given. *)

From Verif Require Import Base Asn1rs Ber Serialize.

(** The bounds on [W] at /repo/src/ber/serialize.rs:70,80,100,116,181,197.  [w_write]
    is [io::Write::write]: the writer afterwards and how many octets it took,
    [None] for an error.  It does not panic (simplification). *)
Record writer := mkWriter {
  w_type : Type;
  w_default : w_type;
  w_as_ref : w_type -> bytes;
  w_write : w_type -> bytes -> option (w_type * N);
}.

(** cookie-factory [GenError] (imported at /repo/src/ber/serialize.rs:10): the two
    variants that [slice] and [be_u8] produce. *)
Inductive generr :=
  | BufferTooSmall (missing : N)
  | IoError.

(** cookie-factory [combinator::slice(data)], and [bytes::be_u8(b)] for one octet: one
    call of [write]; a short count is [BufferTooSmall].  Used throughout, e.g.
    /repo/src/ber/serialize.rs:20,30,59. *)
Definition w_slice (W : writer) (data : bytes) (out : w_type W) : res generr (w_type W) :=
  match w_write W out data with
  | None => Err IoError
  | Some (out', n) =>
      if n <? nlen data then Err (BufferTooSmall (nlen data - n)) else Ok out'
  end.

(** cookie-factory [sequence::tuple((a, b))], e.g. /repo/src/ber/serialize.rs:30,53. *)
Definition w_tuple {W : writer} (a b : w_type W -> res generr (w_type W)) (out : w_type W)
  : res generr (w_type W) :=
  let* out := a out in b out.

(** cookie-factory [multi::many_ref(v, f)], /repo/src/ber/serialize.rs:73. *)
Definition w_many {W : writer} {A} (f : A -> w_type W -> res generr (w_type W)) :
    list A -> w_type W -> res generr (w_type W) :=
  fix go l out :=
    match l with
    | [] => Ok out
    | x :: r => let* out := f x out in go r out
    end.

(** /repo/src/ber/serialize.rs:13-36 *)
Definition w_encode_length (W : writer) (l : blen) (out : w_type W) : res generr (w_type W) :=
  match l with
  | Definite sz =>
      if sz <=? 127 then w_slice W [sz] out
      else
        let v := skip_zeroes (to_be_bytes 8 sz) in
        let b0 := N.lor 128 (nlen v mod 256) in
        w_tuple (w_slice W [b0]) (w_slice W v) out
  | Indefinite => w_slice W [128] out
  end.

(** /repo/src/ber/serialize.rs:42-54 *)
Definition w_encode_header (W : writer) (hdr : header) (out : w_type W) : res generr (w_type W) :=
  let class_u8 := N.shiftl (class_to_u8 (h_class hdr)) 6 in
  let pc_u8 := N.shiftl (if h_constructed hdr then 1 else 0) 5 in
  if 30 <? h_tag hdr then Panic
  else
    let byte_0 := N.lor (N.lor class_u8 pc_u8) (h_tag hdr mod 256) in
    w_tuple (w_slice W [byte_0]) (w_encode_length W (h_length hdr)) out.

(** /repo/src/ber/serialize.rs:202-206 (90-92 and 109-112 are the same lines): contents
    into a new writer, header with the number of octets found there into
    another, then both copied to [out]. *)
Definition w_with_header (W : writer) (hdr : header)
    (content : w_type W -> res generr (w_type W)) (out : w_type W) : res generr (w_type W) :=
  let* v := content (w_default W) in
  let len := nlen (w_as_ref W v) in
  let* v_hdr := w_encode_header W (with_length hdr (Definite len)) (w_default W) in
  w_tuple (w_slice W (w_as_ref W v_hdr)) (w_slice W (w_as_ref W v)) out.

(** /repo/src/ber/serialize.rs:116-172 and 197-208 *)
Fixpoint w_encode_object_content (W : writer) (L : leaves) (c : content) (out : w_type W) {struct c}
  : res generr (w_type W) :=
  match c with
  | CEndOfContent => w_slice W [0] out
  | CBoolean b => w_slice W [if b then 255 else 0] out
  | CInteger s => w_slice W s out
  | CBitString ignored_bits s => w_tuple (w_slice W [ignored_bits]) (w_slice W s) out
  | COctetString s => w_slice W s out
  | CNull => Ok out
  | CEnum i => w_slice W (skip_zeroes (to_be_bytes 8 i)) out
  | COID o => w_slice W (oid_bytes o) out
  | CRelativeOID o => w_slice W (oid_bytes o) out
  | CUTCTime t => w_slice W (lf_show_datetime L t) out
  | CGeneralizedTime t => w_slice W (lf_show_datetime L t) out
  | CStr _ s => w_slice W s out
  | CBmpString s => w_slice W s out
  | CUniversalString s => w_slice W s out
  | CSequence v => w_many (w_encode_object W L) v out
  | CSet v => w_many (w_encode_object W L) v out
  | COptional (Some (Obj _ c')) => w_encode_object_content W L c' out
  | COptional None => w_slice W [] out
  | CTagged _ _ inner => w_encode_object W L inner out
  | CUnknown a => w_slice W (a_data a) out
  end
with w_encode_object (W : writer) (L : leaves) (o : obj) (out : w_type W) {struct o}
  : res generr (w_type W) :=
  match o with
  | Obj hdr c => w_with_header W hdr (w_encode_object_content W L c) out
  end.

(** /repo/src/ber/serialize.rs:80-94 *)
Definition w_encode_tagged_explicit (W : writer) (L : leaves) (t : tag) (c : class) (o : obj)
    (out : w_type W) : res generr (w_type W) :=
  w_with_header W (header_new c true t (Definite 0)) (w_encode_object W L o) out.

(** /repo/src/ber/serialize.rs:100-114 *)
Definition w_encode_tagged_implicit (W : writer) (L : leaves) (t : tag) (c : class) (o : obj)
    (out : w_type W) : res generr (w_type W) :=
  w_with_header W (header_new c (h_constructed (o_header o)) t (Definite 0))
    (w_encode_object_content W L (o_content o)) out.

(** /repo/src/ber/serialize.rs:181-186 *)
Definition w_encode_object_raw (W : writer) (L : leaves) (hdr : header) (c : content)
    (out : w_type W) : res generr (w_type W) :=
  w_tuple (w_encode_header W hdr) (w_encode_object_content W L c) out.

(** [Vec<u8>], the writer of /repo/src/ber/serialize.rs:221. *)
Definition vec_writer : writer :=
  mkWriter bytes [] (fun v => v) (fun v d => Some (v ++ d, nlen d)).

(** A writer with room for [cap] octets that takes what fits, such as
    [arrayvec::ArrayVec<u8, CAP>], which meets the bounds of
    /repo/src/ber/serialize.rs:197. *)
Definition array_writer (cap : nat) : writer :=
  mkWriter bytes [] (fun v => v)
    (fun v d => let d' := firstn (cap - length v) d in Some (v ++ d', nlen d')).

(** [&mut [u8]], which meets the bounds of /repo/src/ber/serialize.rs:197 too:
    [write] overwrites the front of the slice and leaves the rest as the new slice,
    [Default] is the empty slice and [as_ref] the part not yet written. *)
Definition slice_writer : writer :=
  mkWriter bytes [] (fun room => room)
    (fun room d => let n := Nat.min (length room) (length d) in Some (skipn n room, N.of_nat n)).
