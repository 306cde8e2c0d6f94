(** * Model of der-oid-macro/src/lib.rs: [encode_components].

    Components are arbitrary natural numbers ([num_bigint::BigUint]).  The
    result vector is a list updated in place; an out-of-range index or an
    arithmetic overflow/underflow (checked arithmetic, the default for
    proc-macros built in the dev profile) is [Panic].  Of [encode_oid] (lines
    65-90) the conversion of tokens to text and of the printed text back to tokens
    is the compiler's and is not modelled. *)

From Verif Require Import Base.

(** [enc[pos] = v] /repo/der-oid-macro/src/lib.rs:40,47,58,60. *)
Fixpoint upd (s : bytes) (pos : nat) (v : N) : res unit bytes :=
  match s, pos with
  | [], _ => Panic
  | _ :: r, O => Ok (v :: r)
  | x :: r, S p => let* r' := upd r p v in Ok (x :: r')
  end.

(** num-bigint [BigUint::to_bytes_le] (minimal; zero is one zero octet). [fuel] bounds
    the number of octets; [N.size_nat n] always suffices. Called at
    /repo/der-oid-macro/src/lib.rs:23,35. *)
Fixpoint bytes_le_fuel (fuel : nat) (n : N) : bytes :=
  match fuel with
  | O => []
  | S f => (n mod 256) :: (if n / 256 =? 0 then [] else bytes_le_fuel f (n / 256))
  end.
(** num-bigint [BigUint::to_bytes_le]: the octets after [bytes.reverse()],
    /repo/der-oid-macro/src/lib.rs:35. *)
Definition to_bytes_le (n : N) : bytes := bytes_le_fuel (S (N.size_nat n)) n.
(** num-bigint [BigUint::to_bytes_be], called at /repo/der-oid-macro/src/lib.rs:23. *)
Definition to_bytes_be (n : N) : bytes := rev (to_bytes_le n).

(** State of the inner loop (lines 32-36). Of /repo/der-oid-macro/src/lib.rs. *)
Record st := mkSt { enc : bytes; pos : nat; extra : N; extra_size : N; stored : nat }.

(** Lines 37-54: one iteration of [for byte in bytes]. Of
    /repo/der-oid-macro/src/lib.rs. *)
Definition step (s : st) (byte : N) : res unit st :=
  let* s1 :=
    (if extra_size s =? 7 then                                   (* l.38-45 *)
       let* e := upd (enc s) (pos s) (N.lor (extra s) 128) in
       match pos s with
       | O => Panic
       | S p => Ok (mkSt e p 0 0 (S (stored s)))
       end
     else Ok s) in
  let* e := upd (enc s1) (pos s1)                                (* l.47 *)
      (N.lor (N.lor (N.shiftl byte (extra_size s1) mod 256) (extra s1)) 128) in
  let stored' := S (stored s1) in
  match pos s1 with                                              (* l.49-53 *)
  | O => Ok (mkSt e O (extra s1) (extra_size s1) stored')
  | S p =>
      let es := extra_size s1 + 1 in
      Ok (mkSt e p (N.shiftr byte (8 - es)) es stored')
  end.

(** The loop, /repo/der-oid-macro/src/lib.rs:37-54. *)
Fixpoint steps (s : st) (l : bytes) : res unit st :=
  match l with
  | [] => Ok s
  | b :: r => let* s' := step s b in steps s' r
  end.

(** Lines 23-60: append one component to [enc0]. Of /repo/der-oid-macro/src/lib.rs. *)
Definition encode_component (enc0 : bytes) (n : N) : res unit bytes :=
  match to_bytes_be n with
  | [] => Panic
  | b0 :: rest =>
      if b0 =? 0 then Ok (enc0 ++ [0])                           (* l.24-27 *)
      else
        let total_bits := (N.size_nat b0 + length rest * 8)%nat in (* l.28 *)
        let octets := (Nat.max ((total_bits + 6) / 7) 1)%nat in
        let enc1 := enc0 ++ repeat 0 octets in                   (* l.30 *)
        let* s := steps (mkSt enc1 (length enc1 - 1) 0 0 0) (rev (b0 :: rest)) in
        let last := (length (enc s) - 1)%nat in
        let* e := (if Nat.eqb (stored s) octets then Ok (enc s)  (* l.56-59 *)
                   else upd (enc s) (last + 1 - octets) (N.lor (extra s) 128)) in
        match nth_error e last with                              (* l.60 *)
        | None => Panic
        | Some x => upd e last (N.lxor x 128)
        end
  end.

(** The outer loop, /repo/der-oid-macro/src/lib.rs:22-61. *)
Fixpoint encode_all (enc0 : bytes) (l : list N) : res unit bytes :=
  match l with
  | [] => Ok enc0
  | n :: r => let* e := encode_component enc0 n in encode_all e r
  end.

(** der-oid-macro/src/lib.rs:3-63 *)
Definition encode_components (components : list N) (relative : bool) : res unit bytes :=
  if relative then encode_all [] components
  else
    match components with
    | [] => Panic
    | [a] => if a =? 0 then Ok [0] else Panic                    (* l.9-14 *)
    | a :: b :: dec =>
        if (7 <=? a) || (40 <=? b) then Panic                    (* l.15-17 *)
        else if 255 <? a * 40 + b then Panic                     (* l.18, u8 overflow *)
        else encode_all [a * 40 + b] dec
    end.

Example encode_rsa : encode_components [1; 2; 840; 113549; 1; 1; 5] false
  = Ok [42; 134; 72; 134; 247; 13; 1; 1; 5].
Proof. vm_compute. reflexivity. Qed.
Example encode_rel : encode_components [8571; 3; 2] true = Ok [194; 123; 3; 2].
Proof. vm_compute. reflexivity. Qed.

(** ** Reading the text (lines 66-80); a text is its list of octets. *)

(** [s.starts_with("rel ")] and [&s[4..]], lines 69-73. Of
    /repo/der-oid-macro/src/lib.rs. *)
Definition strip_rel (s : bytes) : bytes * bool :=
  match s with
  | 114 :: 101 :: 108 :: 32 :: r => (r, true)
  | _ => (s, false)
  end.

(** [rem.split('.')], line 76: at least one segment. Of
    /repo/der-oid-macro/src/lib.rs. *)
Fixpoint split_dot (s : bytes) : list bytes :=
  match s with
  | [] => [[]]
  | c :: r =>
      if c =? 46 then [] :: split_dot r
      else match split_dot r with
           | seg :: segs => (c :: seg) :: segs
           | [] => [[c]]
           end
  end.

(** [segment.trim()], line 77. Simplification: only the ASCII white space characters
    (9-13 and 32), not the other Unicode ones. Of /repo/der-oid-macro/src/lib.rs. *)
Definition is_space (c : N) : bool := ((9 <=? c) && (c <=? 13)) || (c =? 32).
(** [str::trim_start], part of [trim], /repo/der-oid-macro/src/lib.rs:77. *)
Fixpoint trim_start (s : bytes) : bytes :=
  match s with
  | c :: r => if is_space c then trim_start r else s
  | [] => []
  end.
(** [str::trim], /repo/der-oid-macro/src/lib.rs:77. *)
Definition trim (s : bytes) : bytes := rev (trim_start (rev (trim_start s))).

(** num-bigint [BigUint::from_str], used by [s.parse().unwrap()] on line 78: an
    optional [+] not followed by another, then digits, with [_] allowed after the
    first character and skipped. [None] is the error. Of
    /repo/der-oid-macro/src/lib.rs. *)
Fixpoint parse_digits (acc : N) (s : bytes) : option N :=
  match s with
  | [] => Some acc
  | c :: r =>
      if c =? 95 then parse_digits acc r
      else if (48 <=? c) && (c <=? 57) then parse_digits (acc * 10 + (c - 48)) r
      else None
  end.
(** Part of [BigUint::from_str], /repo/der-oid-macro/src/lib.rs:78. *)
Definition strip_plus (s : bytes) : bytes :=
  match s with
  | c :: r =>
      if c =? 43 then
        match r with
        | c' :: _ => if c' =? 43 then s else r
        | [] => r
        end
      else s
  | [] => s
  end.
(** [BigUint::from_str], /repo/der-oid-macro/src/lib.rs:78. *)
Definition parse_biguint (s : bytes) : option N :=
  match strip_plus s with
  | [] => None
  | c :: r => if c =? 95 then None else parse_digits 0 (c :: r)
  end.

(** Lines 75-79: [.map(..).collect()]; the [unwrap] panics on an error. Of
    /repo/der-oid-macro/src/lib.rs. *)
Fixpoint parse_segments (l : list bytes) : res unit (list N) :=
  match l with
  | [] => Ok []
  | seg :: r =>
      match parse_biguint (trim seg) with
      | None => Panic
      | Some n => let* ns := parse_segments r in Ok (n :: ns)
      end
  end.

(** der-oid-macro/src/lib.rs:65-81 [encode_oid]: the octets that are printed. *)
Definition encode_oid (s : bytes) : res unit bytes :=
  let (rem, relative) := strip_rel s in
  let* ints := parse_segments (split_dot rem) in
  encode_components ints relative.

(** ** The text that is printed (lines 83-88) *)

(** A digit of [{:02x}]. Of /repo/der-oid-macro/src/lib.rs:86. *)
Definition hex_digit (d : N) : N := if d <? 10 then 48 + d else 87 + d.

(** [format!("0x{:02x}, ", byte)], /repo/der-oid-macro/src/lib.rs:86; a [u8] has two
    digits. *)
Definition octet_text (b : N) : bytes := [48; 120; hex_digit (b / 16); hex_digit (b mod 16); 44; 32].

(** /repo/der-oid-macro/src/lib.rs:83-88, the loop that appends to [s]. *)
Definition array_text (enc : bytes) : bytes := fold_left (fun s b => s ++ octet_text b) enc [91] ++ [93].

(** der-oid-macro/src/lib.rs:65-89 [encode_oid]: the text handed back to the compiler. *)
Definition encode_oid_text (s : bytes) : res unit bytes :=
  let* enc := encode_oid s in Ok (array_text enc).
