(** * The test vectors of /repo run against the model.

    These are tests of the reading of the code and of the assumptions about
    asn1-rs and nom made in Asn1rs.v; they are not proofs of properties.
    Each example cites the test it transcribes.  The tests compare objects
    with asn1-rs's equality of headers, which ignores the length and a raw
    tag present on one side only; [strip] erases both.  [SL] is a concrete
    instance of the abstract leaf decoders, good enough for the vectors. *)

From Coq Require Import String Ascii.
From Verif Require Import Base Asn1rs Ber Der Combinators Serialize.
Local Open Scope string_scope.
Local Open Scope N_scope.
Local Open Scope list_scope.

(** Hexadecimal literals. *)
Definition hexval (c : ascii) : option N :=
  let n := N_of_ascii c in
  if (48 <=? n) && (n <=? 57) then Some (n - 48)
  else if (97 <=? n) && (n <=? 102) then Some (n - 87)
  else if (65 <=? n) && (n <=? 70) then Some (n - 55)
  else None.
Fixpoint hx_go (acc : option N) (s : string) : bytes :=
  match s with
  | EmptyString => []
  | String c r =>
      match hexval c, acc with
      | None, _ => hx_go acc r
      | Some v, None => hx_go (Some v) r
      | Some v, Some a => (a * 16 + v) :: hx_go None r
      end
  end.
Definition hx (s : string) : bytes := hx_go None s.

(** A concrete instance of the leaf decoders. *)
Definition two_digits (s : bytes) : option (N * bytes) :=
  match s with
  | a :: b :: r => if is_digit a && is_digit b then Some ((a - 48) * 10 + (b - 48), r) else None
  | _ => None
  end.
Definition tz_of (s : bytes) : option timezone :=
  match s with [] => Some TzUndefined | [90] => Some TzZ | _ => None end.
Definition time_rest (year : N) (s : bytes) : berror + datetime :=
  match two_digits s with
  | Some (mo, s) => match two_digits s with
    | Some (d, s) => match two_digits s with
      | Some (h, s) => match two_digits s with
        | Some (mi, s) =>
            let (sec, s) := match two_digits s with Some (x, s') => (x, s') | None => (0, s) end in
            match tz_of s with
            | Some tz => inr (mkDateTime year mo d h mi sec None tz)
            | None => inl InvalidDateTime
            end
        | None => inl InvalidDateTime end
      | None => inl InvalidDateTime end
    | None => inl InvalidDateTime end
  | None => inl InvalidDateTime end.
Definition utctime_of (s : bytes) : berror + datetime :=
  match two_digits s with Some (y, s) => time_rest y s | None => inl InvalidDateTime end.
Definition gentime_of (s : bytes) : berror + datetime :=
  match two_digits s with
  | Some (c, s) => match two_digits s with
    | Some (y, s) => time_rest (c * 100 + y) s | None => inl InvalidDateTime end
  | None => inl InvalidDateTime end.
Definition oid_check (constructed : bool) (l : blen) (s : bytes) : option berror :=
  if constructed then Some ConstructUnexpected
  else match s with [] => Some InvalidLength | _ => None end.
Definition digits2 (n : N) : bytes := [48 + (n / 10) mod 10; 48 + n mod 10].
Definition show_datetime (t : datetime) : bytes :=
  digits2 (dt_year t / 100) ++ digits2 (dt_year t) ++ digits2 (dt_month t) ++ digits2 (dt_day t)
  ++ digits2 (dt_hour t) ++ digits2 (dt_minute t) ++ digits2 (dt_second t)
  ++ match dt_tz t with TzZ => [90] | _ => [] end.
Definition SL : leaves := mkLeaves oid_check oid_check
  (fun _ _ s => utctime_of s) (fun _ _ s => gentime_of s)
  (fun _ s => forallb (fun b => b <? 128) s) show_datetime.

(** Erase what asn1-rs's header equality does not compare. *)
Definition strip_h (h : header) : header :=
  mkHeader (h_class h) (h_constructed h) (h_tag h) (Definite 0) None.
Fixpoint strip (o : obj) : obj :=
  match o with Obj h c => Obj (strip_h h) (strip_c c) end
with strip_c (c : content) : content :=
  match c with
  | CSequence l => CSequence (map strip l)
  | CSet l => CSet (map strip l)
  | COptional (Some o) => COptional (Some (strip o))
  | CTagged cl t o => CTagged cl t (strip o)
  | CUnknown a => CUnknown (mkAny (strip_h (a_header a)) (a_data a))
  | c => c
  end.

Definition full {E} (r : iresult E obj) : option obj :=
  match r with Ok ([], o) => Some (strip o) | _ => None end.
Definition part {E} (r : iresult E obj) : option (bytes * obj) :=
  match r with Ok (rem, o) => Some (rem, strip o) | _ => None end.
Definition acc {E A} (f : content -> res berror A) (r : iresult E obj) : option (res berror A) :=
  match r with Ok ([], Obj _ c) => Some (f c) | _ => None end.
Definition is_err {E A} (r : res E A) : bool := match r with Err _ => true | _ => false end.
Definition rem_empty {E A} (r : iresult E A) : bool := match r with Ok ([], _) => true | _ => false end.
Definition is_unknown {E} (r : iresult E obj) : bool :=
  match r with Ok ([], Obj _ (CUnknown _)) => true | _ => false end.
Definition hdr_raw {E} (r : iresult E header) : option (option bytes) :=
  match r with Ok (_, h) => Some (h_raw_tag h) | _ => None end.
Definition two (f : bytes -> iresult berror obj) (i : bytes) : iresult berror (list obj) :=
  let* (i1, a) := f i in let* (i2, b) := f i1 in Ok (i2, [a; b]).

(* tests/ber_parser.rs:13-28 *)
Example t001 : full (parse_ber_with_tag SL (hx "01 01 00") T_Boolean) = Some (strip (from_obj (CBoolean false))).
Proof. vm_compute. reflexivity. Qed.
(* tests/ber_parser.rs:13-28 *)
Example t002 : full (parse_ber_with_tag SL (hx "01 01 ff") T_Boolean) = Some (strip (from_obj (CBoolean true))).
Proof. vm_compute. reflexivity. Qed.
(* tests/ber_parser.rs:13-28 *)
Example t003 : full (parse_ber_with_tag SL (hx "01 01 7f") T_Boolean) = Some (strip (from_obj (CBoolean true))).
Proof. vm_compute. reflexivity. Qed.
(* tests/ber_parser.rs:13-28 *)
Example t004 : is_err (parse_ber_with_tag SL (hx "01 02 00 00") T_Boolean) = true.
Proof. vm_compute. reflexivity. Qed.
(* tests/ber_parser.rs:13-28 *)
Example t005 : is_err (parse_ber_with_tag SL (hx "01 01") T_Boolean) = true.
Proof. vm_compute. reflexivity. Qed.
(* tests/ber_parser.rs:30-45 *)
Example t006 : parse_ber_with_tag SL (hx "01 02 12 34") T_Boolean = Err (Error InvalidLength).
Proof. vm_compute. reflexivity. Qed.
(* tests/ber_parser.rs:47-69 *)
Example t007 : part (parse_ber SL (hx "30 80 04 03 56 78 90 00 00 02 01 01")) = Some ((hx "02 01 01"), strip (from_seq [from_obj (COctetString (hx "56 78 90"))])).
Proof. vm_compute. reflexivity. Qed.
(* tests/ber_parser.rs:47-69 *)
Example t008 : part (parse_ber_sequence SL (hx "30 80 04 03 56 78 90 00 00 02 01 01")) = Some ((hx "02 01 01"), strip (from_seq [from_obj (COctetString (hx "56 78 90"))])).
Proof. vm_compute. reflexivity. Qed.
(* tests/ber_parser.rs:71-89 *)
Example t009 : full (parse_ber_set_of (parse_ber_integer SL) (hx "31 0a 02 03 01 00 01 02 03 01 00 00")) = Some (strip (from_set [from_int_slice (hx "01 00 01"); from_int_slice (hx "01 00 00")])).
Proof. vm_compute. reflexivity. Qed.
(* tests/ber_parser.rs:71-89 *)
Example t010 : is_err (parse_ber_set_of (parse_ber_integer SL) []) = true.
Proof. vm_compute. reflexivity. Qed.
(* tests/ber_parser.rs:71-89 *)
Example t011 : full (parse_ber_set_of (parse_ber_integer SL) (hx "31 00")) = Some (strip (from_set [])).
Proof. vm_compute. reflexivity. Qed.
(* tests/ber_parser.rs:91-112 *)
Example t012 : parse_ber_set_of_v ber_ops (parse_ber_integer SL) (hx "31 00") = Ok ([], []).
Proof. vm_compute. reflexivity. Qed.
(* tests/ber_parser.rs:114-137 *)
Example t013 : full (parse_ber SL (hx "31 80 04 03 56 78 90 00 00")) = Some (strip (from_set [from_obj (COctetString (hx "56 78 90"))])).
Proof. vm_compute. reflexivity. Qed.
(* tests/ber_parser.rs:114-137 *)
Example t014 : full (parse_ber_with_tag SL (hx "31 80 04 03 56 78 90 00 00") T_Set) = Some (strip (from_set [from_obj (COctetString (hx "56 78 90"))])).
Proof. vm_compute. reflexivity. Qed.
(* tests/ber_parser.rs:139-145 *)
Example t015 : full (parse_ber_integer SL (hx "02 03 01 00 01")) = Some (strip (from_int_slice (hx "01 00 01"))).
Proof. vm_compute. reflexivity. Qed.
(* tests/ber_parser.rs:145 *)
Example t016 : parse_ber_u32 (hx "02 01 01") = Ok ([], 1).
Proof. vm_compute. reflexivity. Qed.
(* tests/ber_parser.rs:146 *)
Example t017 : parse_ber_u32 (hx "02 02 00 ff") = Ok ([], 255).
Proof. vm_compute. reflexivity. Qed.
(* tests/ber_parser.rs:147 *)
Example t018 : parse_ber_u32 (hx "02 02 01 23") = Ok ([], 291).
Proof. vm_compute. reflexivity. Qed.
(* tests/ber_parser.rs:148 *)
Example t019 : parse_ber_u32 (hx "02 04 01 23 45 67") = Ok ([], 19088743).
Proof. vm_compute. reflexivity. Qed.
(* tests/ber_parser.rs:149 *)
Example t020 : parse_ber_u32 (hx "02 05 00 ff ff ff ff") = Ok ([], 4294967295).
Proof. vm_compute. reflexivity. Qed.
(* tests/ber_parser.rs:150 *)
Example t021 : parse_ber_u32 (hx "02 04 ff ff ff ff") = Err (Error IntegerNegative).
Proof. vm_compute. reflexivity. Qed.
(* tests/ber_parser.rs:151 *)
Example t022 : parse_ber_u32 (hx "02 06 ff ff ff ff ff ff") = Err (Error IntegerNegative).
Proof. vm_compute. reflexivity. Qed.
(* tests/ber_parser.rs:152 *)
Example t023 : parse_ber_u32 (hx "02 06 00 00 01 23 45 67") = Ok ([], 19088743).
Proof. vm_compute. reflexivity. Qed.
(* tests/ber_parser.rs:153 *)
Example t024 : parse_ber_u32 (hx "02 05 01 23 45 67 01") = Err (Error IntegerTooLarge).
Proof. vm_compute. reflexivity. Qed.
(* tests/ber_parser.rs:154 *)
Example t025 : parse_ber_u32 (hx "02 09 01 23 45 67 01 23 45 67 ab") = Err (Error IntegerTooLarge).
Proof. vm_compute. reflexivity. Qed.
(* tests/ber_parser.rs:155 *)
Example t026 : parse_ber_u32 (hx "03 03 01 00 01") = Err (Error (UnexpectedTag (Some 2) 3)).
Proof. vm_compute. reflexivity. Qed.
(* tests/ber_parser.rs:168 *)
Example t027 : parse_ber_u64 (hx "02 01 01") = Ok ([], 1).
Proof. vm_compute. reflexivity. Qed.
(* tests/ber_parser.rs:169 *)
Example t028 : parse_ber_u64 (hx "02 02 00 ff") = Ok ([], 255).
Proof. vm_compute. reflexivity. Qed.
(* tests/ber_parser.rs:170 *)
Example t029 : parse_ber_u64 (hx "02 02 01 23") = Ok ([], 291).
Proof. vm_compute. reflexivity. Qed.
(* tests/ber_parser.rs:171 *)
Example t030 : parse_ber_u64 (hx "02 08 01 23 45 67 01 23 45 67") = Ok ([], 81985526925837671).
Proof. vm_compute. reflexivity. Qed.
(* tests/ber_parser.rs:172 *)
Example t031 : parse_ber_u64 (hx "02 09 00 ff ff ff ff ff ff ff ff") = Ok ([], 18446744073709551615).
Proof. vm_compute. reflexivity. Qed.
(* tests/ber_parser.rs:173 *)
Example t032 : parse_ber_u64 (hx "02 09 01 23 45 67 01 23 45 67 ab") = Err (Error IntegerTooLarge).
Proof. vm_compute. reflexivity. Qed.
(* tests/ber_parser.rs:174 *)
Example t033 : parse_ber_u64 (hx "03 03 01 00 01") = Err (Error (UnexpectedTag (Some 2) 3)).
Proof. vm_compute. reflexivity. Qed.
(* tests/ber_parser.rs:187 *)
Example t034 : parse_ber_i64 (hx "02 01 01") = Ok ([], (1)%Z).
Proof. vm_compute. reflexivity. Qed.
(* tests/ber_parser.rs:188 *)
Example t035 : parse_ber_i64 (hx "02 01 ff") = Ok ([], (-1)%Z).
Proof. vm_compute. reflexivity. Qed.
(* tests/ber_parser.rs:189 *)
Example t036 : parse_ber_i64 (hx "02 01 80") = Ok ([], (-128)%Z).
Proof. vm_compute. reflexivity. Qed.
(* tests/ber_parser.rs:190 *)
Example t037 : parse_ber_i64 (hx "02 02 ff 7f") = Ok ([], (-129)%Z).
Proof. vm_compute. reflexivity. Qed.
(* tests/ber_parser.rs:191 *)
Example t038 : parse_ber_i64 (hx "02 04 ff ff ff ff") = Ok ([], (-1)%Z).
Proof. vm_compute. reflexivity. Qed.
(* tests/ber_parser.rs:192 *)
Example t039 : parse_ber_i64 (hx "03 03 01 00 01") = Err (Error (UnexpectedTag (Some 2) 3)).
Proof. vm_compute. reflexivity. Qed.
(* tests/der_parser.rs:553 *)
Example t040 : parse_der_u32 (hx "02 01 01") = Ok ([], 1).
Proof. vm_compute. reflexivity. Qed.
(* tests/der_parser.rs:554 *)
Example t041 : parse_der_u32 (hx "02 01 ff") = Err (Error IntegerNegative).
Proof. vm_compute. reflexivity. Qed.
(* tests/der_parser.rs:555 *)
Example t042 : parse_der_u32 (hx "02 02 00 ff") = Ok ([], 255).
Proof. vm_compute. reflexivity. Qed.
(* tests/der_parser.rs:556 *)
Example t043 : parse_der_u32 (hx "02 02 01 23") = Ok ([], 291).
Proof. vm_compute. reflexivity. Qed.
(* tests/der_parser.rs:557 *)
Example t044 : parse_der_u32 (hx "02 04 01 23 45 67") = Ok ([], 19088743).
Proof. vm_compute. reflexivity. Qed.
(* tests/der_parser.rs:560 *)
Example t045 : parse_der_u32 (hx "02 06 00 00 01 23 45 67") = Err (Error (DerConstraintFailed DcIntegerLeadingZeroes)).
Proof. vm_compute. reflexivity. Qed.
(* tests/der_parser.rs:561 *)
Example t046 : parse_der_u32 (hx "02 05 01 23 45 67 01") = Err (Error IntegerTooLarge).
Proof. vm_compute. reflexivity. Qed.
(* tests/der_parser.rs:562 *)
Example t047 : parse_der_u32 (hx "02 09 01 23 45 67 01 23 45 67 ab") = Err (Error IntegerTooLarge).
Proof. vm_compute. reflexivity. Qed.
(* tests/der_parser.rs:563 *)
Example t048 : parse_der_u32 (hx "03 03 01 00 01") = Err (Error (UnexpectedTag (Some 2) 3)).
Proof. vm_compute. reflexivity. Qed.
(* tests/der_parser.rs:594 *)
Example t049 : parse_der_u64 (hx "02 01 01") = Ok ([], 1).
Proof. vm_compute. reflexivity. Qed.
(* tests/der_parser.rs:595 *)
Example t050 : parse_der_u64 (hx "02 02 00 ff") = Ok ([], 255).
Proof. vm_compute. reflexivity. Qed.
(* tests/der_parser.rs:596 *)
Example t051 : parse_der_u64 (hx "02 02 01 23") = Ok ([], 291).
Proof. vm_compute. reflexivity. Qed.
(* tests/der_parser.rs:597 *)
Example t052 : parse_der_u64 (hx "02 08 01 23 45 67 01 23 45 67") = Ok ([], 81985526925837671).
Proof. vm_compute. reflexivity. Qed.
(* tests/der_parser.rs:598 *)
Example t053 : parse_der_u64 (hx "02 09 00 ff ff ff ff ff ff ff ff") = Ok ([], 18446744073709551615).
Proof. vm_compute. reflexivity. Qed.
(* tests/der_parser.rs:599 *)
Example t054 : parse_der_u64 (hx "02 09 01 23 45 67 01 23 45 67 ab") = Err (Error IntegerTooLarge).
Proof. vm_compute. reflexivity. Qed.
(* tests/der_parser.rs:600 *)
Example t055 : parse_der_u64 (hx "03 03 01 00 01") = Err (Error (UnexpectedTag (Some 2) 3)).
Proof. vm_compute. reflexivity. Qed.
(* tests/der_parser.rs:576 *)
Example t056 : parse_der_i32 (hx "02 01 01") = Ok ([], (1)%Z).
Proof. vm_compute. reflexivity. Qed.
(* tests/der_parser.rs:577 *)
Example t057 : parse_der_i32 (hx "02 01 ff") = Ok ([], (-1)%Z).
Proof. vm_compute. reflexivity. Qed.
(* tests/der_parser.rs:578 *)
Example t058 : parse_der_i32 (hx "02 01 80") = Ok ([], (-128)%Z).
Proof. vm_compute. reflexivity. Qed.
(* tests/der_parser.rs:579 *)
Example t059 : parse_der_i32 (hx "02 02 ff 7f") = Ok ([], (-129)%Z).
Proof. vm_compute. reflexivity. Qed.
(* tests/der_parser.rs:580 *)
Example t060 : parse_der_i32 (hx "02 02 00 ff") = Ok ([], (255)%Z).
Proof. vm_compute. reflexivity. Qed.
(* tests/der_parser.rs:581 *)
Example t061 : parse_der_i32 (hx "02 02 ff f0") = Err (Error (DerConstraintFailed DcIntegerLeadingFF)).
Proof. vm_compute. reflexivity. Qed.
(* tests/ber_parser.rs:201-224 *)
Example t062 : acc as_bigint (parse_ber_integer SL (hx "02 01 01")) = Some (Ok (1)%Z).
Proof. vm_compute. reflexivity. Qed.
(* tests/ber_parser.rs:226-245 *)
Example t063 : acc as_biguint (parse_ber_integer SL (hx "02 01 01")) = Some (Ok 1).
Proof. vm_compute. reflexivity. Qed.
(* tests/ber_parser.rs:201-224 *)
Example t064 : acc as_bigint (parse_ber_integer SL (hx "02 02 00 ff")) = Some (Ok (255)%Z).
Proof. vm_compute. reflexivity. Qed.
(* tests/ber_parser.rs:226-245 *)
Example t065 : acc as_biguint (parse_ber_integer SL (hx "02 02 00 ff")) = Some (Ok 255).
Proof. vm_compute. reflexivity. Qed.
(* tests/ber_parser.rs:201-224 *)
Example t066 : acc as_bigint (parse_ber_integer SL (hx "02 01 ff")) = Some (Ok (-1)%Z).
Proof. vm_compute. reflexivity. Qed.
(* tests/ber_parser.rs:226-245 *)
Example t067 : acc as_biguint (parse_ber_integer SL (hx "02 01 ff")) = Some (Err IntegerNegative).
Proof. vm_compute. reflexivity. Qed.
(* tests/ber_parser.rs:201-224 *)
Example t068 : acc as_bigint (parse_ber_integer SL (hx "02 01 80")) = Some (Ok (-128)%Z).
Proof. vm_compute. reflexivity. Qed.
(* tests/ber_parser.rs:226-245 *)
Example t069 : acc as_biguint (parse_ber_integer SL (hx "02 01 80")) = Some (Err IntegerNegative).
Proof. vm_compute. reflexivity. Qed.
(* tests/ber_parser.rs:201-224 *)
Example t070 : acc as_bigint (parse_ber_integer SL (hx "02 02 ff 7f")) = Some (Ok (-129)%Z).
Proof. vm_compute. reflexivity. Qed.
(* tests/ber_parser.rs:226-245 *)
Example t071 : acc as_biguint (parse_ber_integer SL (hx "02 02 ff 7f")) = Some (Err IntegerNegative).
Proof. vm_compute. reflexivity. Qed.
(* tests/ber_parser.rs:201-224 *)
Example t072 : acc as_bigint (parse_ber_integer SL (hx "02 09 00 ff ff ff ff ff ff ff ff")) = Some (Ok (18446744073709551615)%Z).
Proof. vm_compute. reflexivity. Qed.
(* tests/ber_parser.rs:226-245 *)
Example t073 : acc as_biguint (parse_ber_integer SL (hx "02 09 00 ff ff ff ff ff ff ff ff")) = Some (Ok 18446744073709551615).
Proof. vm_compute. reflexivity. Qed.
(* tests/ber_parser.rs:201-224 *)
Example t074 : acc as_bigint (parse_ber_integer SL (hx "02 09 01 23 45 67 01 23 45 67 ab")) = Some (Ok (20988294893014443947)%Z).
Proof. vm_compute. reflexivity. Qed.
(* tests/ber_parser.rs:226-245 *)
Example t075 : acc as_biguint (parse_ber_integer SL (hx "02 09 01 23 45 67 01 23 45 67 ab")) = Some (Ok 20988294893014443947).
Proof. vm_compute. reflexivity. Qed.
(* tests/ber_parser.rs:247-263 *)
Example t076 : parse_ber_slice 2 (hx "02 01 01") = Ok ([], (hx "01")).
Proof. vm_compute. reflexivity. Qed.
(* tests/der_parser.rs:609-628 *)
Example t077 : parse_der_slice 2 (hx "02 01 01") = Ok ([], (hx "01")).
Proof. vm_compute. reflexivity. Qed.
(* tests/ber_parser.rs:247-263 *)
Example t078 : parse_ber_slice 2 (hx "02 01 ff") = Ok ([], (hx "ff")).
Proof. vm_compute. reflexivity. Qed.
(* tests/der_parser.rs:609-628 *)
Example t079 : parse_der_slice 2 (hx "02 01 ff") = Ok ([], (hx "ff")).
Proof. vm_compute. reflexivity. Qed.
(* tests/ber_parser.rs:247-263 *)
Example t080 : parse_ber_slice 2 (hx "02 09 01 23 45 67 01 23 45 67 ab") = Ok ([], (hx "01 23 45 67 01 23 45 67 ab")).
Proof. vm_compute. reflexivity. Qed.
(* tests/der_parser.rs:609-628 *)
Example t081 : parse_der_slice 2 (hx "02 09 01 23 45 67 01 23 45 67 ab") = Ok ([], (hx "01 23 45 67 01 23 45 67 ab")).
Proof. vm_compute. reflexivity. Qed.
(* tests/ber_parser.rs:247-263 *)
Example t082 : parse_ber_slice 2 (hx "22 80 02 01 01 00 00") = Ok ([], (hx "02 01 01")).
Proof. vm_compute. reflexivity. Qed.
(* tests/ber_parser.rs slice *)
Example t083 : parse_ber_slice 2 (hx "03 03 01 00 01") = Err (Error (UnexpectedTag (Some 2) 3)).
Proof. vm_compute. reflexivity. Qed.
(* tests/der_parser.rs slice *)
Example t084 : parse_der_slice 2 (hx "03 03 01 00 01") = Err (Error (UnexpectedTag (Some 2) 3)).
Proof. vm_compute. reflexivity. Qed.
(* tests/der_parser.rs slice *)
Example t085 : parse_der_slice 2 (hx "22 80 02 01 01 00 00") = Err (Error (DerConstraintFailed DcIndefiniteLength)).
Proof. vm_compute. reflexivity. Qed.
(* tests/ber_parser.rs:265-295 *)
Example t086 : full (parse_ber_bitstring SL (hx "03 07 04 0a 3b 5f 29 1c d0")) = Some (strip (from_obj (CBitString 4 (hx "0a 3b 5f 29 1c d0")))).
Proof. vm_compute. reflexivity. Qed.
(* tests/ber_parser.rs:265-295 *)
Example t087 : full (parse_ber_bitstring SL (hx "03 04 06 6e 5d e0")) = Some (strip (from_obj (CBitString 6 (hx "6e 5d e0")))).
Proof. vm_compute. reflexivity. Qed.
(* tests/ber_parser.rs:265-295 *)
Example t088 : full (parse_ber_bitstring SL (hx "03 81 04 06 6e 5d c0")) = Some (strip (from_obj (CBitString 6 (hx "6e 5d c0")))).
Proof. vm_compute. reflexivity. Qed.
(* tests/ber_parser.rs:297-307 *)
Example t089 : parse_ber_bitstring SL (hx "23 80 03 03 00 0a 3b 03 05 04 5f 29 1c d0 00 00") = Err (Error Unsupported).
Proof. vm_compute. reflexivity. Qed.
(* tests/ber_parser.rs:309-315 *)
Example t090 : full (parse_ber_with_tag SL (hx "04 05 41 41 41 41 41") T_OctetString) = Some (strip (from_obj (COctetString (hx "41 41 41 41 41")))).
Proof. vm_compute. reflexivity. Qed.
(* tests/ber_parser.rs:317-322 *)
Example t091 : full (parse_ber_with_tag SL (hx "05 00") T_Null) = Some (strip (from_obj CNull)).
Proof. vm_compute. reflexivity. Qed.
(* tests/ber_parser.rs:324-334 *)
Example t092 : full (parse_ber_with_tag SL (hx "06 09 2A 86 48 86 F7 0D 01 01 05") T_Oid) = Some (strip (from_obj (COID (mkOid false (hx "2A 86 48 86 F7 0D 01 01 05"))))).
Proof. vm_compute. reflexivity. Qed.
(* tests/ber_parser.rs:336-341 *)
Example t093 : full (parse_ber_with_tag SL (hx "0a 01 02") T_Enumerated) = Some (strip (from_obj (CEnum 2))).
Proof. vm_compute. reflexivity. Qed.
(* tests/ber_parser.rs:341 *)
Example t094 : acc as_str (parse_ber_with_tag SL (hx "0c 04 31 32 33 34") T_Utf8String) = Some (Ok (hx "31 32 33 34")).
Proof. vm_compute. reflexivity. Qed.
(* tests/ber_parser.rs:342 *)
Example t095 : acc as_str (parse_ber_with_tag SL (hx "0c 05 68 65 6c 6c 6f") T_Utf8String) = Some (Ok (hx "68 65 6c 6c 6f")).
Proof. vm_compute. reflexivity. Qed.
(* tests/ber_parser.rs:343 *)
Example t096 : acc as_str (parse_ber_with_tag SL (hx "0c 0b 68 65 6c 6c 6f 20 77 6f 72 6c 64") T_Utf8String) = Some (Ok (hx "68 65 6c 6c 6f 20 77 6f 72 6c 64")).
Proof. vm_compute. reflexivity. Qed.
(* tests/ber_parser.rs:344 *)
Example t097 : acc as_str (parse_ber_with_tag SL (hx "0c 0b 68 65 6c 6c 6f 5c 77 6f 72 6c 64") T_Utf8String) = Some (Ok (hx "68 65 6c 6c 6f 5c 77 6f 72 6c 64")).
Proof. vm_compute. reflexivity. Qed.
(* tests/ber_parser.rs:345 *)
Example t098 : acc as_str (parse_ber_with_tag SL (hx "0c 0b 68 65 6c 6c 6f 2b 77 6f 72 6c 64") T_Utf8String) = Some (Ok (hx "68 65 6c 6c 6f 2b 77 6f 72 6c 64")).
Proof. vm_compute. reflexivity. Qed.
(* tests/ber_parser.rs:346 *)
Example t099 : acc as_str (parse_ber_with_tag SL (hx "0c 05 01 02 03 04 05") T_Utf8String) = Some (Ok (hx "01 02 03 04 05")).
Proof. vm_compute. reflexivity. Qed.
(* tests/ber_parser.rs:347 *)
Example t100 : acc as_str (parse_ber_with_tag SL (hx "0c 0e d0 bf d1 80 d0 b8 d0 b2 d0 b5 cc 81 d1 82") T_Utf8String) = Some (Ok (hx "d0 bf d1 80 d0 b8 d0 b2 d0 b5 cc 81 d1 82")).
Proof. vm_compute. reflexivity. Qed.
(* tests/ber_parser.rs:348 *)
Example t101 : parse_ber_with_tag SL (hx "0c 04 00 9f 92 96") T_Utf8String = Err (Error StringInvalidCharset).
Proof. vm_compute. reflexivity. Qed.
(* tests/ber_parser.rs:365 *)
Example t102 : acc as_str (parse_ber_with_tag SL (hx "12 04 31 32 33 34") T_NumericString) = Some (Ok (hx "31 32 33 34")).
Proof. vm_compute. reflexivity. Qed.
(* tests/ber_parser.rs:366 *)
Example t103 : parse_ber_with_tag SL (hx "12 05 68 65 6c 6c 6f") T_NumericString = Err (Error StringInvalidCharset).
Proof. vm_compute. reflexivity. Qed.
(* tests/ber_parser.rs:367 *)
Example t104 : parse_ber_with_tag SL (hx "12 05 01 02 03 04 05") T_NumericString = Err (Error StringInvalidCharset).
Proof. vm_compute. reflexivity. Qed.
(* tests/ber_parser.rs:384 *)
Example t105 : acc as_str (parse_ber_with_tag SL (hx "13 04 31 32 33 34") T_PrintableString) = Some (Ok (hx "31 32 33 34")).
Proof. vm_compute. reflexivity. Qed.
(* tests/ber_parser.rs:385 *)
Example t106 : acc as_str (parse_ber_with_tag SL (hx "13 05 68 65 6c 6c 6f") T_PrintableString) = Some (Ok (hx "68 65 6c 6c 6f")).
Proof. vm_compute. reflexivity. Qed.
(* tests/ber_parser.rs:386 *)
Example t107 : acc as_str (parse_ber_with_tag SL (hx "13 0b 68 65 6c 6c 6f 20 77 6f 72 6c 64") T_PrintableString) = Some (Ok (hx "68 65 6c 6c 6f 20 77 6f 72 6c 64")).
Proof. vm_compute. reflexivity. Qed.
(* tests/ber_parser.rs:387 *)
Example t108 : parse_ber_with_tag SL (hx "13 0b 68 65 6c 6c 6f 5c 77 6f 72 6c 64") T_PrintableString = Err (Error StringInvalidCharset).
Proof. vm_compute. reflexivity. Qed.
(* tests/ber_parser.rs:388 *)
Example t109 : acc as_str (parse_ber_with_tag SL (hx "13 0b 68 65 6c 6c 6f 2b 77 6f 72 6c 64") T_PrintableString) = Some (Ok (hx "68 65 6c 6c 6f 2b 77 6f 72 6c 64")).
Proof. vm_compute. reflexivity. Qed.
(* tests/ber_parser.rs:389 *)
Example t110 : parse_ber_with_tag SL (hx "13 05 01 02 03 04 05") T_PrintableString = Err (Error StringInvalidCharset).
Proof. vm_compute. reflexivity. Qed.
(* tests/ber_parser.rs:406 *)
Example t111 : acc as_str (parse_ber_with_tag SL (hx "16 04 31 32 33 34") T_Ia5String) = Some (Ok (hx "31 32 33 34")).
Proof. vm_compute. reflexivity. Qed.
(* tests/ber_parser.rs:407 *)
Example t112 : acc as_str (parse_ber_with_tag SL (hx "16 05 68 65 6c 6c 6f") T_Ia5String) = Some (Ok (hx "68 65 6c 6c 6f")).
Proof. vm_compute. reflexivity. Qed.
(* tests/ber_parser.rs:408 *)
Example t113 : acc as_str (parse_ber_with_tag SL (hx "16 0b 68 65 6c 6c 6f 20 77 6f 72 6c 64") T_Ia5String) = Some (Ok (hx "68 65 6c 6c 6f 20 77 6f 72 6c 64")).
Proof. vm_compute. reflexivity. Qed.
(* tests/ber_parser.rs:409 *)
Example t114 : acc as_str (parse_ber_with_tag SL (hx "16 0b 68 65 6c 6c 6f 5c 77 6f 72 6c 64") T_Ia5String) = Some (Ok (hx "68 65 6c 6c 6f 5c 77 6f 72 6c 64")).
Proof. vm_compute. reflexivity. Qed.
(* tests/ber_parser.rs:410 *)
Example t115 : acc as_str (parse_ber_with_tag SL (hx "16 0b 68 65 6c 6c 6f 2b 77 6f 72 6c 64") T_Ia5String) = Some (Ok (hx "68 65 6c 6c 6f 2b 77 6f 72 6c 64")).
Proof. vm_compute. reflexivity. Qed.
(* tests/ber_parser.rs:411 *)
Example t116 : acc as_str (parse_ber_with_tag SL (hx "16 05 01 02 03 04 05") T_Ia5String) = Some (Ok (hx "01 02 03 04 05")).
Proof. vm_compute. reflexivity. Qed.
(* tests/ber_parser.rs:412 *)
Example t117 : parse_ber_with_tag SL (hx "16 0d d0 bf d1 80 d0 b8 d0 b2 d0 b5 cc 81 d1 82") T_Ia5String = Err (Error StringInvalidCharset).
Proof. vm_compute. reflexivity. Qed.
(* tests/ber_parser.rs:429 *)
Example t118 : acc as_str (parse_ber_with_tag SL (hx "1a 04 31 32 33 34") T_VisibleString) = Some (Ok (hx "31 32 33 34")).
Proof. vm_compute. reflexivity. Qed.
(* tests/ber_parser.rs:430 *)
Example t119 : acc as_str (parse_ber_with_tag SL (hx "1a 05 68 65 6c 6c 6f") T_VisibleString) = Some (Ok (hx "68 65 6c 6c 6f")).
Proof. vm_compute. reflexivity. Qed.
(* tests/ber_parser.rs:431 *)
Example t120 : acc as_str (parse_ber_with_tag SL (hx "1a 0b 68 65 6c 6c 6f 20 77 6f 72 6c 64") T_VisibleString) = Some (Ok (hx "68 65 6c 6c 6f 20 77 6f 72 6c 64")).
Proof. vm_compute. reflexivity. Qed.
(* tests/ber_parser.rs:432 *)
Example t121 : acc as_str (parse_ber_with_tag SL (hx "1a 0b 68 65 6c 6c 6f 5c 77 6f 72 6c 64") T_VisibleString) = Some (Ok (hx "68 65 6c 6c 6f 5c 77 6f 72 6c 64")).
Proof. vm_compute. reflexivity. Qed.
(* tests/ber_parser.rs:433 *)
Example t122 : acc as_str (parse_ber_with_tag SL (hx "1a 0b 68 65 6c 6c 6f 2b 77 6f 72 6c 64") T_VisibleString) = Some (Ok (hx "68 65 6c 6c 6f 2b 77 6f 72 6c 64")).
Proof. vm_compute. reflexivity. Qed.
(* tests/ber_parser.rs:434 *)
Example t123 : parse_ber_with_tag SL (hx "1a 05 01 02 03 04 05") T_VisibleString = Err (Error StringInvalidCharset).
Proof. vm_compute. reflexivity. Qed.
(* tests/ber_parser.rs:450-458 *)
Example t124 : full (parse_ber_with_tag SL (hx "0c 0a 53 6f 6d 65 2d 53 74 61 74 65") T_Utf8String) = Some (strip (from_obj (CStr KUTF8 (hx "53 6f 6d 65 2d 53 74 61 74 65")))).
Proof. vm_compute. reflexivity. Qed.
(* tests/ber_parser.rs:460-468 *)
Example t125 : full (parse_ber_with_tag SL (hx "0d 04 c2 7b 03 02") T_RelativeOid) = Some (strip (from_obj (CRelativeOID (mkOid true (hx "c2 7b 03 02"))))).
Proof. vm_compute. reflexivity. Qed.
(* tests/ber_parser.rs:470-476 *)
Example t126 : full (parse_ber_with_tag SL (hx "1e 08 00 55 00 73 00 65 00 72") T_BmpString) = Some (strip (from_obj (CBmpString (hx "00 55 00 73 00 65 00 72")))).
Proof. vm_compute. reflexivity. Qed.
(* tests/ber_parser.rs:478-495 *)
Example t127 : hdr_raw (ber_read_element_header (hx "8f 02 12 34")) = Some (Some (hx "8f")).
Proof. vm_compute. reflexivity. Qed.
(* tests/ber_parser.rs:478-495 *)
Example t128 : hdr_raw (ber_read_element_header (hx "9f 0f 02 12 34")) = Some (Some (hx "9f 0f")).
Proof. vm_compute. reflexivity. Qed.
(* tests/ber_parser.rs:497-508 *)
Example t129 : parse_ber_container ber_ops (fun i _ => let* (_, v) := parse_ber_u32 i in Ok (i, v)) (hx "30 80 02 03 01 00 01 00 00") = Ok ([], 65537).
Proof. vm_compute. reflexivity. Qed.
(* tests/ber_parser.rs:510-527 *)
Example t130 : parse_ber_container ber_ops (fun i _ => Ok (i, tt)) (concat (repeat (hx "24 80") 72) ++ (hx "00 00")) = Err (Error BerMaxDepth).
Proof. vm_compute. reflexivity. Qed.
(* tests/ber_parser.rs:529-540 *)
Example t131 : (let* (i, h) := ber_read_element_header (hx "02 03 01 00 01") in let* (r, c) := parse_ber_content SL (h_tag h) i h MAX_RECURSION in Ok (r, as_u32 c)) = Ok ([], Ok 65537).
Proof. vm_compute. reflexivity. Qed.
(* tests/ber_parser.rs:554-561 *)
Example t132 : is_unknown (parse_ber SL (hx "c0 03 01 00 01")) = true.
Proof. vm_compute. reflexivity. Qed.
(* tests/der_parser.rs:21-35 *)
Example t133 : full (parse_der_bool SL (hx "01 01 00")) = Some (strip (from_obj (CBoolean false))).
Proof. vm_compute. reflexivity. Qed.
(* tests/der_parser.rs:21-35 *)
Example t134 : full (parse_der_bool SL (hx "01 01 ff")) = Some (strip (from_obj (CBoolean true))).
Proof. vm_compute. reflexivity. Qed.
(* tests/der_parser.rs:21-35 *)
Example t135 : parse_der_bool SL (hx "01 01 7f") = Err (Error (DerConstraintFailed DcInvalidBoolean)).
Proof. vm_compute. reflexivity. Qed.
(* tests/der_parser.rs:37-57 *)
Example t136 : full (parse_der_integer SL (hx "02 03 01 00 01")) = Some (strip (from_int_slice (hx "01 00 01"))).
Proof. vm_compute. reflexivity. Qed.
(* tests/der_parser.rs:37-57 *)
Example t137 : parse_der_u64 (hx "02 03 01 00 01") = Ok ([], 65537).
Proof. vm_compute. reflexivity. Qed.
(* tests/der_parser.rs:37-57 *)
Example t138 : is_err (parse_der_integer SL (hx "04 03 41 41 41")) = true.
Proof. vm_compute. reflexivity. Qed.
(* tests/der_parser.rs:37-57 *)
Example t139 : is_err (parse_der_u64 (hx "04 03 41 41 41")) = true.
Proof. vm_compute. reflexivity. Qed.
(* tests/der_parser.rs:37-57 *)
Example t140 : is_err (parse_der_integer SL (hx "02 0b 40 41 02 03 04 05 06 07 08 09 0a")) = false.
Proof. vm_compute. reflexivity. Qed.
(* tests/der_parser.rs:37-57 *)
Example t141 : is_err (parse_der_u64 (hx "02 0b 40 41 02 03 04 05 06 07 08 09 0a")) = true.
Proof. vm_compute. reflexivity. Qed.
(* tests/der_parser.rs:59-91 *)
Example t142 : full (parse_der_bitstring SL (hx "03 04 06 6e 5d c0")) = Some (strip (from_obj (CBitString 6 (hx "6e 5d c0")))).
Proof. vm_compute. reflexivity. Qed.
(* tests/der_parser.rs:59-91 *)
Example t143 : parse_der_bitstring SL (hx "03 04 06 6e 5d e0") = Err (Error (DerConstraintFailed DcUnusedBitsNotZero)).
Proof. vm_compute. reflexivity. Qed.
(* tests/der_parser.rs:93-102 *)
Example t144 : parse_der_bitstring SL (hx "23 81 0c 03 03 00 0a 3b 03 05 04 5f 29 1c d0") = Err (Error (DerConstraintFailed DcConstructed)).
Proof. vm_compute. reflexivity. Qed.
(* tests/der_parser.rs:104-113 *)
Example t145 : parse_der_bitstring SL (hx "23 80 03 03 00 0a 3b 03 05 04 5f 29 1c d0 00 00") = Err (Error (DerConstraintFailed DcIndefiniteLength)).
Proof. vm_compute. reflexivity. Qed.
(* tests/der_parser.rs:115-121 *)
Example t146 : full (parse_der_with_tag SL (hx "04 05 41 41 41 41 41") T_OctetString) = Some (strip (from_obj (COctetString (hx "41 41 41 41 41")))).
Proof. vm_compute. reflexivity. Qed.
(* tests/der_parser.rs:130-140 *)
Example t147 : full (parse_der_with_tag SL (hx "06 09 2A 86 48 86 F7 0D 01 01 05") T_Oid) = Some (strip (from_obj (COID (mkOid false (hx "2A 86 48 86 F7 0D 01 01 05"))))).
Proof. vm_compute. reflexivity. Qed.
(* tests/der_parser.rs:142-147 *)
Example t148 : full (parse_der_with_tag SL (hx "0a 01 02") T_Enumerated) = Some (strip (from_obj (CEnum 2))).
Proof. vm_compute. reflexivity. Qed.
(* tests/der_parser.rs:169-175 *)
Example t149 : full (parse_der_with_tag SL (hx "30 05 02 03 01 00 01") T_Sequence) = Some (strip (from_seq [from_int_slice (hx "01 00 01")])).
Proof. vm_compute. reflexivity. Qed.
(* tests/der_parser.rs:177-183 *)
Example t150 : full (parse_der_with_tag SL (hx "31 05 02 03 01 00 01") T_Set) = Some (strip (from_set [from_int_slice (hx "01 00 01")])).
Proof. vm_compute. reflexivity. Qed.
(* tests/constructed.rs *)
Example t151 : full (parse_ber_sequence_defined (two (parse_ber_integer SL)) (hx "30 0a 02 03 01 00 01 02 03 01 00 00")) = Some (strip (from_seq [from_int_slice (hx "01 00 01"); from_int_slice (hx "01 00 00")])).
Proof. vm_compute. reflexivity. Qed.
(* tests/constructed.rs *)
Example t152 : parse_ber_sequence_defined (two (parse_ber_integer SL)) (hx "30 07 02 03 01 00 01 02 01") = Err (Incomplete (Some 1)).
Proof. vm_compute. reflexivity. Qed.
(* tests/constructed.rs *)
Example t153 : parse_ber_sequence_defined (two (parse_ber_integer SL)) (hx "31 0a 02 03 01 00 01 02 03 01 00 00") = Err (Error (UnexpectedTag (Some T_Sequence) T_Set)).
Proof. vm_compute. reflexivity. Qed.
(* tests/constructed.rs *)
Example t154 : full (parse_ber_sequence_of (parse_ber_integer SL) (hx "30 0a 02 03 01 00 01 02 03 01 00 00")) = Some (strip (from_seq [from_int_slice (hx "01 00 01"); from_int_slice (hx "01 00 00")])).
Proof. vm_compute. reflexivity. Qed.
(* tests/constructed.rs *)
Example t155 : full (parse_ber_sequence_of (parse_ber_integer SL) (hx "30 00")) = Some (strip (from_seq [])).
Proof. vm_compute. reflexivity. Qed.
(* tests/constructed.rs *)
Example t156 : parse_ber_sequence_of (parse_ber_integer SL) (hx "30 07 02 03 01 00 01 02 03 01") = Err (Error (ENomError EkEof)).
Proof. vm_compute. reflexivity. Qed.
(* tests/constructed.rs *)
Example t157 : parse_ber_sequence_of (parse_ber_integer SL) (hx "31 0a 02 03 01 00 01 02 03 01 00 00") = Err (Error (UnexpectedTag (Some T_Sequence) T_Set)).
Proof. vm_compute. reflexivity. Qed.
(* tests/constructed.rs *)
Example t158 : full (parse_ber_sequence_of (parse_ber_integer SL) (hx "30 80 02 03 01 00 01 00 00")) = Some (strip (from_seq [from_int_slice (hx "01 00 01")])).
Proof. vm_compute. reflexivity. Qed.
(* tests/constructed.rs *)
Example t159 : parse_ber_sequence_of (parse_ber_integer SL) (hx "30 80") = Err (Incomplete (Some 1)).
Proof. vm_compute. reflexivity. Qed.
(* tests/constructed.rs *)
Example t160 : full (parse_ber_sequence_defined (two (parse_ber_integer SL)) (hx "30 80 02 03 01 00 01 02 03 01 00 00 00 00")) = Some (strip (from_seq [from_int_slice (hx "01 00 01"); from_int_slice (hx "01 00 00")])).
Proof. vm_compute. reflexivity. Qed.
(* tests/der_constructed.rs *)
Example t161 : full (parse_der_sequence_defined (two (parse_der_integer SL)) (hx "30 0a 02 03 01 00 01 02 03 01 00 00")) = Some (strip (from_seq [from_int_slice (hx "01 00 01"); from_int_slice (hx "01 00 00")])).
Proof. vm_compute. reflexivity. Qed.
(* tests/der_constructed.rs *)
Example t162 : parse_der_sequence_defined (two (parse_der_integer SL)) (hx "30 07 02 03 01 00 01 02 01") = Err (Incomplete (Some 1)).
Proof. vm_compute. reflexivity. Qed.
(* tests/der_constructed.rs *)
Example t163 : parse_der_sequence_defined (two (parse_der_integer SL)) (hx "31 0a 02 03 01 00 01 02 03 01 00 00") = Err (Error (UnexpectedTag (Some T_Sequence) T_Set)).
Proof. vm_compute. reflexivity. Qed.
(* tests/der_constructed.rs *)
Example t164 : full (parse_der_sequence_of (parse_der_integer SL) (hx "30 0a 02 03 01 00 01 02 03 01 00 00")) = Some (strip (from_seq [from_int_slice (hx "01 00 01"); from_int_slice (hx "01 00 00")])).
Proof. vm_compute. reflexivity. Qed.
(* tests/der_constructed.rs *)
Example t165 : full (parse_der_sequence_of (parse_der_integer SL) (hx "30 00")) = Some (strip (from_seq [])).
Proof. vm_compute. reflexivity. Qed.
(* tests/der_constructed.rs *)
Example t166 : parse_der_sequence_of (parse_der_integer SL) (hx "30 07 02 03 01 00 01 02 03 01") = Err (Error (ENomError EkEof)).
Proof. vm_compute. reflexivity. Qed.
(* tests/der_constructed.rs *)
Example t167 : parse_der_sequence_of (parse_der_integer SL) (hx "31 0a 02 03 01 00 01 02 03 01 00 00") = Err (Error (UnexpectedTag (Some T_Sequence) T_Set)).
Proof. vm_compute. reflexivity. Qed.
(* tests/der_constructed.rs *)
Example t168 : parse_der_sequence_of (parse_der_integer SL) (hx "30 80 02 03 01 00 01 00 00") = Err (Error (DerConstraintFailed DcIndefiniteLength)).
Proof. vm_compute. reflexivity. Qed.
(* tests/der_constructed.rs *)
Example t169 : parse_der_sequence_defined (two (parse_der_integer SL)) (hx "30 80 02 03 01 00 01 00 00") = Err (Error (DerConstraintFailed DcIndefiniteLength)).
Proof. vm_compute. reflexivity. Qed.
(* tests/constructed.rs *)
Example t170 : full (parse_ber_set_defined (two (parse_ber_integer SL)) (hx "31 0a 02 03 01 00 01 02 03 01 00 00")) = Some (strip (from_set [from_int_slice (hx "01 00 01"); from_int_slice (hx "01 00 00")])).
Proof. vm_compute. reflexivity. Qed.
(* tests/constructed.rs *)
Example t171 : parse_ber_set_defined (two (parse_ber_integer SL)) (hx "31 07 02 03 01 00 01 02 01") = Err (Incomplete (Some 1)).
Proof. vm_compute. reflexivity. Qed.
(* tests/constructed.rs *)
Example t172 : parse_ber_set_defined (two (parse_ber_integer SL)) (hx "30 0a 02 03 01 00 01 02 03 01 00 00") = Err (Error (UnexpectedTag (Some T_Set) T_Sequence)).
Proof. vm_compute. reflexivity. Qed.
(* tests/constructed.rs *)
Example t173 : full (parse_ber_set_of (parse_ber_integer SL) (hx "31 0a 02 03 01 00 01 02 03 01 00 00")) = Some (strip (from_set [from_int_slice (hx "01 00 01"); from_int_slice (hx "01 00 00")])).
Proof. vm_compute. reflexivity. Qed.
(* tests/constructed.rs *)
Example t174 : full (parse_ber_set_of (parse_ber_integer SL) (hx "31 00")) = Some (strip (from_set [])).
Proof. vm_compute. reflexivity. Qed.
(* tests/constructed.rs *)
Example t175 : parse_ber_set_of (parse_ber_integer SL) (hx "31 07 02 03 01 00 01 02 03 01") = Err (Error (ENomError EkEof)).
Proof. vm_compute. reflexivity. Qed.
(* tests/constructed.rs *)
Example t176 : parse_ber_set_of (parse_ber_integer SL) (hx "30 0a 02 03 01 00 01 02 03 01 00 00") = Err (Error (UnexpectedTag (Some T_Set) T_Sequence)).
Proof. vm_compute. reflexivity. Qed.
(* tests/constructed.rs *)
Example t177 : full (parse_ber_set_of (parse_ber_integer SL) (hx "31 80 02 03 01 00 01 00 00")) = Some (strip (from_set [from_int_slice (hx "01 00 01")])).
Proof. vm_compute. reflexivity. Qed.
(* tests/constructed.rs *)
Example t178 : parse_ber_set_of (parse_ber_integer SL) (hx "31 80") = Err (Incomplete (Some 1)).
Proof. vm_compute. reflexivity. Qed.
(* tests/constructed.rs *)
Example t179 : full (parse_ber_set_defined (two (parse_ber_integer SL)) (hx "31 80 02 03 01 00 01 02 03 01 00 00 00 00")) = Some (strip (from_set [from_int_slice (hx "01 00 01"); from_int_slice (hx "01 00 00")])).
Proof. vm_compute. reflexivity. Qed.
(* tests/der_constructed.rs *)
Example t180 : full (parse_der_set_defined (two (parse_der_integer SL)) (hx "31 0a 02 03 01 00 01 02 03 01 00 00")) = Some (strip (from_set [from_int_slice (hx "01 00 01"); from_int_slice (hx "01 00 00")])).
Proof. vm_compute. reflexivity. Qed.
(* tests/der_constructed.rs *)
Example t181 : parse_der_set_defined (two (parse_der_integer SL)) (hx "31 07 02 03 01 00 01 02 01") = Err (Incomplete (Some 1)).
Proof. vm_compute. reflexivity. Qed.
(* tests/der_constructed.rs *)
Example t182 : parse_der_set_defined (two (parse_der_integer SL)) (hx "30 0a 02 03 01 00 01 02 03 01 00 00") = Err (Error (UnexpectedTag (Some T_Set) T_Sequence)).
Proof. vm_compute. reflexivity. Qed.
(* tests/der_constructed.rs *)
Example t183 : full (parse_der_set_of (parse_der_integer SL) (hx "31 0a 02 03 01 00 01 02 03 01 00 00")) = Some (strip (from_set [from_int_slice (hx "01 00 01"); from_int_slice (hx "01 00 00")])).
Proof. vm_compute. reflexivity. Qed.
(* tests/der_constructed.rs *)
Example t184 : full (parse_der_set_of (parse_der_integer SL) (hx "31 00")) = Some (strip (from_set [])).
Proof. vm_compute. reflexivity. Qed.
(* tests/der_constructed.rs *)
Example t185 : parse_der_set_of (parse_der_integer SL) (hx "31 07 02 03 01 00 01 02 03 01") = Err (Error (ENomError EkEof)).
Proof. vm_compute. reflexivity. Qed.
(* tests/der_constructed.rs *)
Example t186 : parse_der_set_of (parse_der_integer SL) (hx "30 0a 02 03 01 00 01 02 03 01 00 00") = Err (Error (UnexpectedTag (Some T_Set) T_Sequence)).
Proof. vm_compute. reflexivity. Qed.
(* tests/der_constructed.rs *)
Example t187 : parse_der_set_of (parse_der_integer SL) (hx "31 80 02 03 01 00 01 00 00") = Err (Error (DerConstraintFailed DcIndefiniteLength)).
Proof. vm_compute. reflexivity. Qed.
(* tests/der_constructed.rs *)
Example t188 : parse_der_set_defined (two (parse_der_integer SL)) (hx "31 80 02 03 01 00 01 00 00") = Err (Error (DerConstraintFailed DcIndefiniteLength)).
Proof. vm_compute. reflexivity. Qed.
(* tests/der_parser.rs:243-270 *)
Example t189 : parse_der_sequence_of (parse_der_integer SL) (hx "30 07 02 03 01 00 01 00 00") = Err (Failure (UnexpectedTag (Some 2) 0)).
Proof. vm_compute. reflexivity. Qed.
(* tests/der_parser.rs:243-270 *)
Example t190 : parse_ber_sequence_of_v ber_ops (parse_der_integer SL) (hx "30 07 02 03 01 00 01 00 00") = Err (Failure (UnexpectedTag (Some 2) 0)).
Proof. vm_compute. reflexivity. Qed.
(* tests/der_parser.rs:243-270 *)
Example t191 : parse_ber_sequence_of_v ber_ops (parse_der_integer SL) (hx "30 06 02 03 01 00 01 02") = Err (Error (ENomError EkEof)).
Proof. vm_compute. reflexivity. Qed.
(* tests/der_parser.rs:286-310 *)
Example t192 : part (parse_der_with_tag SL (hx "17 0b 39 32 30 35 32 31 32 33 34 32 5A FF") T_UtcTime) = Some ((hx "ff"), strip (from_obj (CUTCTime (mkDateTime 92 5 21 23 42 0 None TzZ)))).
Proof. vm_compute. reflexivity. Qed.
(* tests/der_parser.rs:286-310 *)
Example t193 : parse_der_with_tag SL (hx "17 0a 39 32 30 35 32 31 32 33 34 32") T_UtcTime = Err (Error (DerConstraintFailed DcMissingTimeZone)).
Proof. vm_compute. reflexivity. Qed.
(* tests/der_parser.rs:312-327 *)
Example t194 : full (parse_der_with_tag SL (hx "18 0D 31 39 39 32 30 35 32 31 32 33 34 32 5A") T_GeneralizedTime) = Some (strip (from_obj (CGeneralizedTime (mkDateTime 1992 5 21 23 42 0 None TzZ)))).
Proof. vm_compute. reflexivity. Qed.
(* tests/der_parser.rs:329-335 *)
Example t195 : full (parse_der_with_tag SL (hx "1b 04 63 69 66 73") T_GeneralString) = Some (strip (from_obj (CStr KGeneral (hx "63 69 66 73")))).
Proof. vm_compute. reflexivity. Qed.
(* tests/der_parser.rs:337-350 *)
Example t196 : parse_der SL (hx "a0 03 02 01 02") = Ok ([], Obj (mkHeader ContextSpecific true 0 (Definite 3) (Some [160])) (CUnknown (mkAny (mkHeader ContextSpecific true 0 (Definite 3) (Some [160])) (hx "02 01 02")))).
Proof. vm_compute. reflexivity. Qed.
(* tests/der_parser.rs:352-378 *)
Example t197 : parse_der_explicit_optional (hx "a0 03 02 01 02") 0 (parse_der_integer SL) = Ok ([], Obj (mkHeader ContextSpecific true 0 (Definite 3) (Some [160])) (COptional (Some (Obj (mkHeader ContextSpecific true 0 (Definite 3) (Some [160])) (CTagged ContextSpecific 0 (Obj (mkHeader Universal false 2 (Definite 1) (Some [2])) (CInteger [2]))))))).
Proof. vm_compute. reflexivity. Qed.
(* tests/der_parser.rs:352-378 *)
Example t198 : parse_der_explicit_optional (hx "a0 03 02 01 02") 1 (parse_der_integer SL) = Ok ((hx "a0 03 02 01 02"), from_obj (COptional None)).
Proof. vm_compute. reflexivity. Qed.
(* tests/der_parser.rs:380-409 *)
Example t199 : parse_der_implicit (hx "81 04 70 61 73 73") 1 (fun i h d => ber_read_element_content_as SL i T_Ia5String (h_length h) (h_constructed h) d) = Ok ([], Obj (mkHeader ContextSpecific false 1 (Definite 4) (Some [129])) (CStr KIA5 (hx "70 61 73 73"))).
Proof. vm_compute. reflexivity. Qed.
(* tests/der_parser.rs:380-409 *)
Example t200 : parse_der_implicit (hx "81 04 70 61 73 73") 2 (fun i h d => ber_read_element_content_as SL i T_Ia5String (h_length h) (h_constructed h) d) = Err (Error (UnexpectedTag (Some 2) 1)).
Proof. vm_compute. reflexivity. Qed.
(* tests/der_parser.rs:411-438 *)
Example t201 : parse_der_implicit (hx "5f 52 04 70 61 73 73") 82 (fun i h d => ber_read_element_content_as SL i T_Ia5String (h_length h) (h_constructed h) d) = Ok ([], Obj (mkHeader Application false 82 (Definite 4) (Some (hx "5f 52"))) (CStr KIA5 (hx "70 61 73 73"))).
Proof. vm_compute. reflexivity. Qed.
(* tests/der_parser.rs:411-438 *)
Example t202 : parse_der_implicit (hx "5f 52 04 70 61 73 73") 2 (fun i h d => ber_read_element_content_as SL i T_Ia5String (h_length h) (h_constructed h) d) = Err (Error (UnexpectedTag (Some 2) 82)).
Proof. vm_compute. reflexivity. Qed.
(* tests/der_parser.rs:440-472 *)
Example t203 : full (parse_der_sequence_defined (fun i => let* (i1, a) := parse_ber_optional (fun j => parse_der_with_tag SL j T_Enumerated) i in let* (i2, b) := parse_der_integer SL i1 in Ok (i2, [a; b])) (hx "30 0a 0a 03 00 00 01 02 03 01 00 01")) = Some (strip (from_seq [from_obj (COptional (Some (from_obj (CEnum 1)))); from_int_slice (hx "01 00 01")])).
Proof. vm_compute. reflexivity. Qed.
(* tests/der_parser.rs:440-472 *)
Example t204 : full (parse_der_sequence_defined (fun i => let* (i1, a) := parse_ber_optional (fun j => parse_der_with_tag SL j T_Enumerated) i in let* (i2, b) := parse_der_integer SL i1 in Ok (i2, [a; b])) (hx "30 05 02 03 01 00 01")) = Some (strip (from_seq [from_obj (COptional None); from_int_slice (hx "01 00 01")])).
Proof. vm_compute. reflexivity. Qed.
(* tests/der_parser.rs:474-500 *)
Example t205 : full (parse_der SL (hx "30 45 31 0b 30 09 06 03 55 04 06 13 02 46 52 31 13 30 11 06 03 55 04 08 0c 0a 53 6f 6d 65 2d 53 74 61 74 65 31 21 30 1f 06 03 55 04 0a 0c 18 49 6e 74 65 72 6e 65 74 20 57 69 64 67 69 74 73 20 50 74 79 20 4c 74 64")) = Some (strip (from_seq [from_set [from_seq [from_obj (COID (mkOid false (hx "55 04 06"))); from_obj (CStr KPrintable (hx "46 52"))]]; from_set [from_seq [from_obj (COID (mkOid false (hx "55 04 08"))); from_obj (CStr KUTF8 (hx "53 6f 6d 65 2d 53 74 61 74 65"))]]; from_set [from_seq [from_obj (COID (mkOid false (hx "55 04 0a"))); from_obj (CStr KUTF8 (hx "49 6e 74 65 72 6e 65 74 20 57 69 64 67 69 74 73 20 50 74 79 20 4c 74 64"))]]])).
Proof. vm_compute. reflexivity. Qed.
(* tests/primitive.rs:13-31 *)
Example t206 : ber_read_element_content_as SL [255] T_Boolean (Definite 1) false MAX_RECURSION = Ok ([], CBoolean true).
Proof. vm_compute. reflexivity. Qed.
(* tests/primitive.rs:13-31 *)
Example t207 : ber_read_element_content_as SL [0] T_Boolean (Definite 1) false MAX_RECURSION = Ok ([], CBoolean false).
Proof. vm_compute. reflexivity. Qed.
(* tests/primitive.rs:33-55 *)
Example t208 : full (parse_der SL (hx "06 06 2a 81 7a 01 10 09")) = Some (strip (from_obj (COID (mkOid false (hx "2a 81 7a 01 10 09"))))).
Proof. vm_compute. reflexivity. Qed.
(* tests/primitive.rs:33-55 *)
Example t209 : full (parse_der SL (hx "0d 05 81 7a 01 10 09")) = Some (strip (from_obj (CRelativeOID (mkOid true (hx "81 7a 01 10 09"))))).
Proof. vm_compute. reflexivity. Qed.
(* tests/primitive.rs:90-110 *)
Example t210 : full (parse_ber SL (hx "1d 01 00")) = Some (strip (from_obj (CUnknown (mkAny (header_new Universal false 29 (Definite 0)) [0])))).
Proof. vm_compute. reflexivity. Qed.
(* tests/primitive.rs:90-110 *)
Example t211 : full (parse_der SL (hx "1d 01 00")) = Some (strip (from_obj (CUnknown (mkAny (header_new Universal false 29 (Definite 0)) [0])))).
Proof. vm_compute. reflexivity. Qed.
(* tests/primitive.rs:112-165 *)
Example t212 : parse_ber SL (hx "80 01 00") = Ok ([], Obj (mkHeader ContextSpecific false 0 (Definite 1) (Some (hx "80"))) (CUnknown (mkAny (mkHeader ContextSpecific false 0 (Definite 1) (Some (hx "80"))) [0]))).
Proof. vm_compute. reflexivity. Qed.
(* tests/primitive.rs:112-165 *)
Example t213 : parse_ber SL (hx "9f 22 01 00") = Ok ([], Obj (mkHeader ContextSpecific false 34 (Definite 1) (Some (hx "9f 22"))) (CUnknown (mkAny (mkHeader ContextSpecific false 34 (Definite 1) (Some (hx "9f 22"))) [0]))).
Proof. vm_compute. reflexivity. Qed.
(* tests/primitive.rs:112-165 *)
Example t214 : parse_ber SL (hx "9f a2 22 01 00") = Ok ([], Obj (mkHeader ContextSpecific false 4386 (Definite 1) (Some (hx "9f a2 22"))) (CUnknown (mkAny (mkHeader ContextSpecific false 4386 (Definite 1) (Some (hx "9f a2 22"))) [0]))).
Proof. vm_compute. reflexivity. Qed.
(* tests/primitive.rs:167-180 *)
Example t215 : is_err (parse_ber SL (hx "9f a2 a2")) = true.
Proof. vm_compute. reflexivity. Qed.
(* tests/primitive.rs:167-180 *)
Example t216 : is_err (parse_ber SL (hx "9f a2 a2 a2 a2 a2 22 01 00")) = true.
Proof. vm_compute. reflexivity. Qed.
(* tests/primitive.rs:182-199 *)
Example t217 : parse_ber SL (hx "30") = Err (Incomplete (Some 1)).
Proof. vm_compute. reflexivity. Qed.
(* tests/primitive.rs:182-199 *)
Example t218 : parse_der SL (hx "30") = Err (Incomplete (Some 1)).
Proof. vm_compute. reflexivity. Qed.
(* tests/primitive.rs:182-199 *)
Example t219 : parse_ber SL (hx "02") = Err (Incomplete (Some 1)).
Proof. vm_compute. reflexivity. Qed.
(* tests/primitive.rs:182-199 *)
Example t220 : parse_ber SL (hx "02 85") = Err (Incomplete (Some 5)).
Proof. vm_compute. reflexivity. Qed.
(* tests/primitive.rs:182-199 *)
Example t221 : parse_ber SL (hx "02 85 ff") = Err (Incomplete (Some 4)).
Proof. vm_compute. reflexivity. Qed.
(* tests/primitive.rs:182-199 *)
Example t222 : is_err (parse_ber SL (hx "02 05")) = true.
Proof. vm_compute. reflexivity. Qed.
(* tests/primitive.rs:201-219 *)
Example t223 : is_err (parse_ber SL (hx "02 ff 00 01 02 03 04 05 06 07 08 09 0a 0b 0c 0d 0e 0f 10")) = true.
Proof. vm_compute. reflexivity. Qed.
(* tests/primitive.rs:201-219 *)
Example t224 : is_err (ber_read_element_header (hx "02 ff 00 01 02 03 04 05 06 07 08 09 0a 0b 0c 0d 0e 0f 10")) = true.
Proof. vm_compute. reflexivity. Qed.
(* tests/primitive.rs:201-219 *)
Example t225 : parse_ber SL (hx "02 8a ff ff ff ff ff ff ff ff ff ff 00") = Err (Error InvalidLength).
Proof. vm_compute. reflexivity. Qed.
(* tests/primitive.rs:201-219 *)
Example t226 : parse_ber SL (hx "02 ff 00") = Err (Error InvalidLength).
Proof. vm_compute. reflexivity. Qed.
(* tests/primitive.rs:201-219 *)
Example t227 : parse_der SL (hx "02 02 00") = Err (Incomplete (Some 2)).
Proof. vm_compute. reflexivity. Qed.
(* tests/constructed.rs *)
Example t228 : parse_ber_tagged_explicit_g ber_ops 2 (fun c _ => let* (r, o) := parse_ber_integer SL c in let* v := map_err nerr_of_err (as_u32 (o_content o)) in Ok (r, v)) (hx "a2 05 02 03 01 00 01") = Ok ([], 65537).
Proof. vm_compute. reflexivity. Qed.
(* tests/constructed.rs *)
Example t229 : parse_ber_tagged_explicit_g ber_ops 2 (fun c _ => let* (r, o) := parse_ber_integer SL c in let* v := map_err nerr_of_err (as_u32 (o_content o)) in Ok (r, v)) (hx "a2 80 02 03 01 00 01 00 00") = Ok ([], 65537).
Proof. vm_compute. reflexivity. Qed.
(* tests/constructed.rs *)
Example t230 : parse_ber_tagged_explicit_g ber_ops 2 (fun c _ => let* (r, o) := parse_ber_integer SL c in let* v := map_err nerr_of_err (as_u32 (o_content o)) in Ok (r, v)) (hx "a3 05 02 03 01 00 01") = Err (Error (UnexpectedTag (Some 2) 3)).
Proof. vm_compute. reflexivity. Qed.
(* tests/constructed.rs *)
Example t231 : parse_ber_tagged_explicit_g ber_ops 2 (fun c _ => let* (r, o) := parse_ber_integer SL c in let* v := map_err nerr_of_err (as_u32 (o_content o)) in Ok (r, v)) (hx "22 05 02 03 01 00 01") = Err (Error (UnexpectedClass None Universal)).
Proof. vm_compute. reflexivity. Qed.
(* tests/constructed.rs *)
Example t232 : parse_ber_tagged_explicit_g ber_ops 2 (fun c _ => let* (r, o) := parse_ber_integer SL c in let* v := map_err nerr_of_err (as_u32 (o_content o)) in Ok (r, v)) (hx "82 05 02 03 01 00 01") = Err (Error ConstructExpected).
Proof. vm_compute. reflexivity. Qed.
(* tests/constructed.rs *)
Example t233 : parse_ber_tagged_implicit_g ber_ops 2 (fun c h d => let* (r, k) := parse_ber_content SL T_Integer c h d in let* v := map_err nerr_of_err (as_u32 k) in Ok (r, v)) (hx "82 03 01 00 01") = Ok ([], 65537).
Proof. vm_compute. reflexivity. Qed.
(* tests/constructed.rs *)
Example t234 : parse_ber_tagged_implicit_g ber_ops 2 (fun c h d => let* (r, k) := parse_ber_content SL T_Integer c h d in let* v := map_err nerr_of_err (as_u32 k) in Ok (r, v)) (hx "83 03 01 00 01") = Err (Error (UnexpectedTag (Some 2) 3)).
Proof. vm_compute. reflexivity. Qed.
(* tests/der_constructed.rs *)
Example t235 : parse_der_tagged_explicit_g ber_ops 2 (fun c _ => let* (r, o) := parse_der_integer SL c in let* v := map_err nerr_of_err (as_u32 (o_content o)) in Ok (r, v)) (hx "a2 05 02 03 01 00 01") = Ok ([], 65537).
Proof. vm_compute. reflexivity. Qed.
(* tests/der_constructed.rs *)
Example t236 : parse_der_tagged_explicit_g ber_ops 2 (fun c _ => let* (r, o) := parse_der_integer SL c in let* v := map_err nerr_of_err (as_u32 (o_content o)) in Ok (r, v)) (hx "a2 80 02 03 01 00 01 00 00") = Err (Error (DerConstraintFailed DcIndefiniteLength)).
Proof. vm_compute. reflexivity. Qed.
(* tests/der_constructed.rs *)
Example t237 : parse_der_tagged_explicit_g ber_ops 2 (fun c _ => let* (r, o) := parse_der_integer SL c in let* v := map_err nerr_of_err (as_u32 (o_content o)) in Ok (r, v)) (hx "a3 05 02 03 01 00 01") = Err (Error (UnexpectedTag (Some 2) 3)).
Proof. vm_compute. reflexivity. Qed.
(* tests/der_constructed.rs *)
Example t238 : parse_der_tagged_explicit_g ber_ops 2 (fun c _ => let* (r, o) := parse_der_integer SL c in let* v := map_err nerr_of_err (as_u32 (o_content o)) in Ok (r, v)) (hx "22 05 02 03 01 00 01") = Err (Error (UnexpectedClass None Universal)).
Proof. vm_compute. reflexivity. Qed.
(* tests/der_constructed.rs *)
Example t239 : parse_der_tagged_explicit_g ber_ops 2 (fun c _ => let* (r, o) := parse_der_integer SL c in let* v := map_err nerr_of_err (as_u32 (o_content o)) in Ok (r, v)) (hx "82 05 02 03 01 00 01") = Err (Error ConstructExpected).
Proof. vm_compute. reflexivity. Qed.
(* tests/der_constructed.rs *)
Example t240 : parse_der_tagged_implicit_g ber_ops 2 (fun c h d => let* (r, k) := parse_der_content SL T_Integer c h d in let* v := map_err nerr_of_err (as_u32 k) in Ok (r, v)) (hx "82 03 01 00 01") = Ok ([], 65537).
Proof. vm_compute. reflexivity. Qed.
(* tests/der_constructed.rs *)
Example t241 : parse_der_tagged_implicit_g ber_ops 2 (fun c h d => let* (r, k) := parse_der_content SL T_Integer c h d in let* v := map_err nerr_of_err (as_u32 k) in Ok (r, v)) (hx "83 03 01 00 01") = Err (Error (UnexpectedTag (Some 2) 3)).
Proof. vm_compute. reflexivity. Qed.
(* tests/constructed.rs:339-361 *)
Example t242 : parse_der_tagged_explicit 3 (parse_der_integer SL) (hx "a2 05 02 03 01 00 01") = Err (Error (UnexpectedTag (Some 3) 2)).
Proof. vm_compute. reflexivity. Qed.
(* tests/constructed.rs:339-361 *)
Example t243 : parse_der_tagged_explicit 2 (parse_der_bool SL) (hx "a2 05 02 03 01 00 01") = Err (Error (UnexpectedTag (Some 1) 2)).
Proof. vm_compute. reflexivity. Qed.
(* tests/constructed.rs:280-296 *)
Example t244 : full (nom_map (fun l => from_seq l) (parse_der_sequence_defined_g ber_ops (fun c _ => (two (parse_ber_integer SL)) c)) (hx "30 0c 02 03 01 00 01 02 03 01 00 00 ff ff")) = Some (strip (from_seq [from_int_slice (hx "01 00 01"); from_int_slice (hx "01 00 00")])).
Proof. vm_compute. reflexivity. Qed.
(* tests/issue-76.rs *)
Example t245 : rem_empty (let* (i, h) := ber_read_element_header (hx "80 04 00 4c 00 65") in parse_ber_content SL T_BmpString i h MAX_RECURSION) = true.
Proof. vm_compute. reflexivity. Qed.
(* tests/issue-76.rs *)
Example t246 : rem_empty (let* (i, h) := ber_read_element_header (hx "80 06 79 3E 30 BA 30 FC") in parse_ber_content SL T_BmpString i h MAX_RECURSION) = true.
Proof. vm_compute. reflexivity. Qed.
(* src/ber/serialize.rs:240-251 *)
Example t247 : encode_length (Definite 38) = Ok (hx "26").
Proof. vm_compute. reflexivity. Qed.
(* src/ber/serialize.rs:240-251 *)
Example t248 : encode_length (Definite 201) = Ok (hx "81 c9").
Proof. vm_compute. reflexivity. Qed.
(* src/ber/serialize.rs:240-251 *)
Example t249 : encode_length (Definite 305419896) = Ok (hx "84 12 34 56 78").
Proof. vm_compute. reflexivity. Qed.
(* src/ber/serialize.rs:253-260 *)
Example t250 : (let* (_, h) := ber_read_element_header (hx "02 03 01 00 01") in map_err (fun _ => Incomplete None) (ber_encode_header h)) = Ok (hx "02 03").
Proof. vm_compute. reflexivity. Qed.
(* src/ber/serialize.rs:262-347 *)
Example t251 : ber_encode_object SL (from_obj (CBoolean true)) = Ok (hx "01 01 ff").
Proof. vm_compute. reflexivity. Qed.
(* src/ber/serialize.rs:262-347 *)
Example t252 : full (parse_ber SL (hx "01 01 ff")) = Some (strip (from_obj (CBoolean true))).
Proof. vm_compute. reflexivity. Qed.
(* src/ber/serialize.rs:262-347 *)
Example t253 : ber_encode_object SL (from_obj (CBitString 6 (hx "6e 5d e0"))) = Ok (hx "03 04 06 6e 5d e0").
Proof. vm_compute. reflexivity. Qed.
(* src/ber/serialize.rs:262-347 *)
Example t254 : full (parse_ber SL (hx "03 04 06 6e 5d e0")) = Some (strip (from_obj (CBitString 6 (hx "6e 5d e0")))).
Proof. vm_compute. reflexivity. Qed.
(* src/ber/serialize.rs:262-347 *)
Example t255 : ber_encode_object SL (from_obj (COctetString (hx "41 41 41 41 41"))) = Ok (hx "04 05 41 41 41 41 41").
Proof. vm_compute. reflexivity. Qed.
(* src/ber/serialize.rs:262-347 *)
Example t256 : full (parse_ber SL (hx "04 05 41 41 41 41 41")) = Some (strip (from_obj (COctetString (hx "41 41 41 41 41")))).
Proof. vm_compute. reflexivity. Qed.
(* src/ber/serialize.rs:262-347 *)
Example t257 : ber_encode_object SL (from_obj (CEnum 2)) = Ok (hx "0a 01 02").
Proof. vm_compute. reflexivity. Qed.
(* src/ber/serialize.rs:262-347 *)
Example t258 : full (parse_ber SL (hx "0a 01 02")) = Some (strip (from_obj (CEnum 2))).
Proof. vm_compute. reflexivity. Qed.
(* src/ber/serialize.rs:262-347 *)
Example t259 : ber_encode_object SL (from_obj CNull) = Ok (hx "05 00").
Proof. vm_compute. reflexivity. Qed.
(* src/ber/serialize.rs:262-347 *)
Example t260 : full (parse_ber SL (hx "05 00")) = Some (strip (from_obj CNull)).
Proof. vm_compute. reflexivity. Qed.
(* src/ber/serialize.rs:262-347 *)
Example t261 : ber_encode_object SL (from_obj (COID (mkOid false (hx "2A 86 48 86 F7 0D 01 01 05")))) = Ok (hx "06 09 2A 86 48 86 F7 0D 01 01 05").
Proof. vm_compute. reflexivity. Qed.
(* src/ber/serialize.rs:262-347 *)
Example t262 : full (parse_ber SL (hx "06 09 2A 86 48 86 F7 0D 01 01 05")) = Some (strip (from_obj (COID (mkOid false (hx "2A 86 48 86 F7 0D 01 01 05"))))).
Proof. vm_compute. reflexivity. Qed.
(* src/ber/serialize.rs:262-347 *)
Example t263 : ber_encode_object SL (from_obj (CRelativeOID (mkOid true (hx "c2 7b 03 02")))) = Ok (hx "0d 04 c2 7b 03 02").
Proof. vm_compute. reflexivity. Qed.
(* src/ber/serialize.rs:262-347 *)
Example t264 : full (parse_ber SL (hx "0d 04 c2 7b 03 02")) = Some (strip (from_obj (CRelativeOID (mkOid true (hx "c2 7b 03 02"))))).
Proof. vm_compute. reflexivity. Qed.
(* src/ber/serialize.rs:262-347 *)
Example t265 : ber_encode_object SL (from_seq [from_int_slice (hx "01 00 01"); from_int_slice (hx "01 00 00")]) = Ok (hx "30 0a 02 03 01 00 01 02 03 01 00 00").
Proof. vm_compute. reflexivity. Qed.
(* src/ber/serialize.rs:262-347 *)
Example t266 : full (parse_ber SL (hx "30 0a 02 03 01 00 01 02 03 01 00 00")) = Some (strip (from_seq [from_int_slice (hx "01 00 01"); from_int_slice (hx "01 00 00")])).
Proof. vm_compute. reflexivity. Qed.
(* src/ber/serialize.rs:262-347 *)
Example t267 : ber_encode_object SL (from_set [from_int_slice (hx "01 00 01"); from_int_slice (hx "01 00 00")]) = Ok (hx "31 0a 02 03 01 00 01 02 03 01 00 00").
Proof. vm_compute. reflexivity. Qed.
(* src/ber/serialize.rs:262-347 *)
Example t268 : full (parse_ber SL (hx "31 0a 02 03 01 00 01 02 03 01 00 00")) = Some (strip (from_set [from_int_slice (hx "01 00 01"); from_int_slice (hx "01 00 00")])).
Proof. vm_compute. reflexivity. Qed.
(* src/ber/serialize.rs:349-370 *)
Example t269 : ber_encode_tagged_explicit SL 0 ContextSpecific (from_int_slice [2]) = Ok (hx "a0 03 02 01 02").
Proof. vm_compute. reflexivity. Qed.
(* src/ber/serialize.rs:372-395 *)
Example t270 : ber_encode_tagged_implicit SL 3 ContextSpecific (from_int_slice [2]) = Ok (hx "83 01 02").
Proof. vm_compute. reflexivity. Qed.
(* src/ber/serialize.rs:397-420 *)
Example t271 : ber_encode_tagged_implicit SL 30 ContextSpecific (from_int_slice [2]) = Ok (hx "9e 01 02").
Proof. vm_compute. reflexivity. Qed.
(* src/ber/serialize.rs:422-445 *)
Example t272 : ber_encode_tagged_explicit SL 2 Application (from_int_slice [2]) = Ok (hx "62 03 02 01 02").
Proof. vm_compute. reflexivity. Qed.
(* src/ber/ber.rs:890-898 *)
Example t273 : (let* (_, a) := any_from_der (hx "02 03 01 00 01") in map_err nerr_of_err (let* o := try_from_any SL a in as_u32 (o_content o))) = Ok 65537.
Proof. vm_compute. reflexivity. Qed.
(* src/ber/ber.rs:900-904 *)
Example t274 : as_u64 (CInteger (hx "01 00 02")) = Ok 65538.
Proof. vm_compute. reflexivity. Qed.
(* src/ber/ber.rs:906-917 *)
Example t275 : acc as_u64 (parse_ber_bitstring SL (hx "03 04 06 6e 5d c0")) = Some (Ok 113015).
Proof. vm_compute. reflexivity. Qed.
(* src/ber/ber.rs:906-917 *)
Example t276 : acc as_u64 (parse_ber_bitstring SL (hx "03 04 06 6e 5d e0")) = Some (Ok 113015).
Proof. vm_compute. reflexivity. Qed.
(* src/ber/ber.rs:944-953 *)
Example t277 : bit_is_set (hx "0f 00 40") 0 = Ok false.
Proof. vm_compute. reflexivity. Qed.
(* src/ber/ber.rs:944-953 *)
Example t278 : bit_is_set (hx "0f 00 40") 7 = Ok true.
Proof. vm_compute. reflexivity. Qed.
(* src/ber/ber.rs:944-953 *)
Example t279 : bit_is_set (hx "0f 00 40") 9 = Ok false.
Proof. vm_compute. reflexivity. Qed.
(* src/ber/ber.rs:944-953 *)
Example t280 : bit_is_set (hx "0f 00 40") 17 = Ok true.
Proof. vm_compute. reflexivity. Qed.
(* src/ber/parser.rs:643-660 *)
Example t281 : bitstring_to_u64 8 (hx "0d 71 82") = Ok 3441.
Proof. vm_compute. reflexivity. Qed.
(* src/ber/parser.rs:643-660 *)
Example t282 : bitstring_to_u64 0 (hx "0d 71 82 0e 73 72 76 6e 67 6e 62 6c 6e 2d 65 78 30 31") = Err IntegerTooLarge.
Proof. vm_compute. reflexivity. Qed.
(* src/ber/parser.rs:643-660 *)
Example t283 : bitstring_to_u64 130 (hx "0d 71 82 0e 73 72 76 6e 67 6e 62 6c 6e 2d 65 78 30 31") = Ok 860.
Proof. vm_compute. reflexivity. Qed.
