(** * Model of src/ber/serialize.rs.

    A [SerializeFn<Vec<u8>>] is the byte string it appends; [GenError] cannot
    occur when writing to a [Vec] (other writers are in
    Writer.v), so the error type is [unit] and is never used; the
    [unimplemented!()] of line 48 is [Panic]. *)

From Verif Require Import Base Asn1rs Ber.

(** The result of cookie-factory's [gen_simple(f, Vec::new())],
    /repo/src/ber/serialize.rs:220-222; writing to a [Vec] cannot fail. *)
Definition gen := res unit bytes.

(** cookie-factory [tuple((a, b))] Used at /repo/src/ber/serialize.rs:53,93. *)
Definition gen_seq (a b : gen) : gen :=
  let* x := a in let* y := b in Ok (x ++ y).

(** core [usize::to_be_bytes] / [u64::to_be_bytes]: [k] octets, big endian. Used at
    /repo/src/ber/serialize.rs:23-24,132-133. *)
Fixpoint to_be_bytes (k : nat) (n : N) : bytes :=
  match k with
  | O => []
  | S k' => to_be_bytes k' (n / 256) ++ [n mod 256]
  end.

(** [iter().skip_while(|&b| b == 0)] (lines 26-27 and 135-136) In
    /repo/src/ber/serialize.rs. *)
Fixpoint skip_zeroes (s : bytes) : bytes :=
  match s with
  | b :: r => if b =? 0 then skip_zeroes r else s
  | [] => []
  end.

(** /repo/src/ber/serialize.rs:13-36 *)
Definition encode_length (l : blen) : gen :=
  match l with
  | Definite sz =>
      if sz <=? 127 then Ok [sz]
      else
        let v := skip_zeroes (to_be_bytes 8 sz) in
        let b0 := N.lor 128 (nlen v mod 256) in
        gen_seq (Ok [b0]) (Ok v)
  | Indefinite => Ok [128]
  end.

(** /repo/src/ber/serialize.rs:42-54 *)
Definition ber_encode_header (hdr : header) : gen :=
  let class_u8 := N.shiftl (class_to_u8 (h_class hdr)) 6 in
  let pc_u8 := N.shiftl (if h_constructed hdr then 1 else 0) 5 in
  if 30 <? h_tag hdr then Panic
  else
    let byte_0 := N.lor (N.lor class_u8 pc_u8) (h_tag hdr mod 256) in
    gen_seq (Ok [byte_0]) (encode_length (h_length hdr)).

(** /repo/src/ber/serialize.rs:56-61 and 63-68 *)
Definition ber_encode_oid (o : oid) : gen := Ok (oid_bytes o).
(** /repo/src/ber/serialize.rs:63-68 *)
Definition ber_encode_datetime (L : leaves) (t : datetime) : gen := Ok (lf_show_datetime L t).

(** cookie-factory [many_ref(v, f)] (line 73) /repo/src/ber/serialize.rs:70-74
    [ber_encode_sequence]. *)
Definition gen_many {A} (f : A -> gen) : list A -> gen :=
  fix go l :=
    match l with
    | [] => Ok []
    | x :: r => gen_seq (f x) (go r)
    end.

(** Lines 202-206 (also 90-92 and 109-112): compute the content, then write a header
    with the content's length followed by the content. In
    /repo/src/ber/serialize.rs:197-208. *)
Definition with_header (hdr : header) (content : gen) : gen :=
  let* v := content in
  let* v_hdr := ber_encode_header (with_length hdr (Definite (nlen v))) in
  Ok (v_hdr ++ v).

(** /repo/src/ber/serialize.rs:116-172 [ber_encode_object_content] and
    197-208 [ber_encode_object], mutually recursive. *)
Fixpoint ber_encode_object_content (L : leaves) (c : content) {struct c} : gen :=
  match c with
  | CEndOfContent => Ok [0]
  | CBoolean b => Ok [if b then 255 else 0]
  | CInteger s => Ok s
  | CBitString ignored_bits s => gen_seq (Ok [ignored_bits]) (Ok s)
  | COctetString s => Ok s
  | CNull => Ok []
  | CEnum i => Ok (skip_zeroes (to_be_bytes 8 i))
  | COID o => ber_encode_oid o
  | CRelativeOID o => ber_encode_oid o
  | CUTCTime t => ber_encode_datetime L t
  | CGeneralizedTime t => ber_encode_datetime L t
  | CStr _ s => Ok s
  | CBmpString s => Ok s
  | CUniversalString s => Ok s
  | CSequence v => gen_many (ber_encode_object L) v
  | CSet v => gen_many (ber_encode_object L) v
  | COptional (Some (Obj _ c')) => ber_encode_object_content L c'
  | COptional None => Ok []
  | CTagged _ _ inner => ber_encode_object L inner
  | CUnknown a => Ok (a_data a)
  end
with ber_encode_object (L : leaves) (o : obj) {struct o} : gen :=
  match o with
  | Obj hdr c => with_header hdr (ber_encode_object_content L c)
  end.

(** /repo/src/ber/serialize.rs:80-94 *)
Definition ber_encode_tagged_explicit (L : leaves) (t : tag) (c : class) (o : obj) : gen :=
  let* v := ber_encode_object L o in
  let* v_hdr := ber_encode_header (header_new c true t (Definite (nlen v))) in
  Ok (v_hdr ++ v).

(** /repo/src/ber/serialize.rs:100-114 *)
Definition ber_encode_tagged_implicit (L : leaves) (t : tag) (c : class) (o : obj) : gen :=
  let* v := ber_encode_object_content L (o_content o) in
  let* v_hdr := ber_encode_header
      (header_new c (h_constructed (o_header o)) t (Definite (nlen v))) in
  Ok (v_hdr ++ v).

(** /repo/src/ber/serialize.rs:181-186 *)
Definition ber_encode_object_raw (L : leaves) (hdr : header) (c : content) : gen :=
  gen_seq (ber_encode_header hdr) (ber_encode_object_content L c).

(** /repo/src/ber/serialize.rs:220-222 *)
Definition to_vec (L : leaves) (o : obj) : gen := ber_encode_object L o.
