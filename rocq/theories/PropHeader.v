(** * Property C08: header reading. *)

From Coq Require Import String.
From Verif Require Import Base Asn1rs Ber Der Spec LemBase LemHeader Conformance.
Local Open Scope string_scope.
Local Open Scope N_scope.
Local Open Scope list_scope.

(** C08.  [ber_read_element_header] accepts exactly the inputs that start with
    identifier and length octets in the sense of [Spec.header_octets], returns
    the header they denote and leaves the rest. *)
Theorem C08_ber_header : forall i r h, bytes_ok i ->
  (ber_read_element_header i = Ok (r, h)
   <-> exists bs, i = bs ++ r /\ header_octets h bs).
Proof. intros i r h Hok. exact (header_from_ber_iff i r h Hok). Qed.
Print Assumptions C08_ber_header.

(** The DER reader: the same without the indefinite form. *)
Theorem C08_der_header : forall i r h, bytes_ok i ->
  (der_read_element_header i = Ok (r, h)
   <-> h_length h <> Indefinite /\ exists bs, i = bs ++ r /\ header_octets h bs).
Proof. intros i r h Hok. exact (header_from_der_iff i r h Hok). Qed.
Print Assumptions C08_der_header.

(** High tag number 2^28 + 3, context-specific, constructed, long-form length 300. *)
Example C08_ex :
  bytes_ok (hx "bf 81 80 80 80 03 82 01 2c 00")
  /\ ber_read_element_header (hx "bf 81 80 80 80 03 82 01 2c 00")
     = Ok ([0], mkHeader ContextSpecific true (2 ^ 28 + 3) (Definite 300)
                  (Some (hx "bf 81 80 80 80 03"))).
Proof. split; [bok|vm_compute; reflexivity]. Qed.

(** Indefinite form: accepted by BER on a constructed identifier only. *)
Example C08_ex_indefinite :
  ber_read_element_header (hx "30 80") = Ok ([], mkHeader Universal true 16 Indefinite (Some [48]))
  /\ der_read_element_header (hx "30 80") = Err (Error (DerConstraintFailed DcIndefiniteLength))
  /\ ber_read_element_header (hx "04 80") = Err (Error ConstructExpected).
Proof. vm_compute. auto. Qed.
