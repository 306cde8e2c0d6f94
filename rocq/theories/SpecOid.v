(** * Independent specification of OBJECT IDENTIFIER contents (X.690 8.19, 8.20). *)

From Verif Require Import Base Spec.

(** The octets of a subidentifier: base 128 digits, most significant first, bit
    8 set in all but the last octet, in as few octets as possible. *)
Definition subidentifier (n : N) (bs : bytes) : Prop :=
  exists ds, bs = continued ds /\ digits_value 128 ds = n /\ ds <> []
    /\ Forall (fun d => d < 128) ds /\ (length ds = 1%nat \/ hd 0 ds <> 0).

(** A relative identifier: the subidentifiers of its components in order. *)
Definition relative_oid_contents (comps : list N) (bs : bytes) : Prop :=
  exists parts, bs = concat parts /\ Forall2 subidentifier comps parts.

(** An object identifier: the first two components [a], [b] make one
    subidentifier [40 * a + b], with [a <= 2] and [b < 40] unless [a = 2]. *)
Definition oid_components (comps : list N) : Prop :=
  match comps with
  | a :: b :: _ => a <= 2 /\ (a < 2 -> b < 40)
  | _ => False
  end.
Definition oid_contents (comps : list N) (bs : bytes) : Prop :=
  match comps with
  | a :: b :: rest => relative_oid_contents (40 * a + b :: rest) bs
  | _ => False
  end.

(** ** Dotted notation *)

(** A number written in decimal (leading zeros allowed). *)
Definition decimal (n : N) (text : bytes) : Prop :=
  exists ds, text = map (N.add 48) ds /\ ds <> [] /\ Forall (fun d => d < 10) ds /\ digits_value 10 ds = n.

Definition blank (s : bytes) : Prop := Forall (fun c => c = 32 \/ 9 <= c <= 13) s.

(** The components separated by dots, with blanks around each number. *)
Inductive dotted : list N -> bytes -> Prop :=
| dotted_one n a d b : blank a -> decimal n d -> blank b -> dotted [n] (a ++ d ++ b)
| dotted_more n a d b ns r : blank a -> decimal n d -> blank b -> dotted ns r ->
    dotted (n :: ns) ((a ++ d ++ b) ++ 46 :: r).

(** ** Array literals *)

(** A hexadecimal digit and its value. *)
Definition hex_char (d c : N) : Prop :=
  (d < 10 /\ c = 48 + d) \/ (10 <= d < 16 /\ (c = 87 + d \/ c = 55 + d)).
(** A hexadecimal literal: [0x] and digits. *)
Definition hex_literal (n : N) (text : bytes) : Prop :=
  exists ds cs, text = 48 :: 120 :: cs /\ ds <> [] /\ Forall2 hex_char ds cs /\ digits_value 16 ds = n.

(** Literals separated by commas, with blanks around them; a comma may follow the last. *)
Inductive listed : list N -> bytes -> Prop :=
| listed_none a : blank a -> listed [] a
| listed_last n a t b : blank a -> hex_literal n t -> blank b -> listed [n] (a ++ t ++ b)
| listed_more n a t b ns r : blank a -> hex_literal n t -> blank b -> listed ns r ->
    listed (n :: ns) ((a ++ t ++ b) ++ 44 :: r).

Definition array_literal (ns : list N) (text : bytes) : Prop :=
  exists t, text = 91 :: t ++ [93] /\ listed ns t.

(** ** What the macro takes for dotted notation *)

(** A number as [BigUint::from_str] takes it: a plus sign may precede it, underscores
    may follow the first digit. *)
Definition loose_number (n : N) (text : bytes) : Prop :=
  exists sign c cs, text = sign ++ c :: cs /\ (sign = [] \/ sign = [43]) /\ c <> 95
    /\ decimal n (filter (fun x => negb (x =? 95)) (c :: cs)).

Inductive loosely_dotted : list N -> bytes -> Prop :=
| loose_one n a d b : blank a -> loose_number n d -> blank b -> loosely_dotted [n] (a ++ d ++ b)
| loose_more n a d b ns r : blank a -> loose_number n d -> blank b -> loosely_dotted ns r ->
    loosely_dotted (n :: ns) ((a ++ d ++ b) ++ 46 :: r).
