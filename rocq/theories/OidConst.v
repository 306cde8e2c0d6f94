(** * The constants made by the [oid!] macro

    /repo/src/lib.rs:266-272 hands its tokens to [asn1_rs::oid!].  That macro is not in
    /repo: its three rules are modelled from memory, and the encoder it calls is taken
    to be the one of /repo/der-oid-macro. *)

From Verif Require Import Base OidMacro.

(** [oid!(1.2.3)], /repo/src/lib.rs:268-272: [Oid::new] of the octets of [encode_oid]. *)
Definition oid_const (text : bytes) : res unit oid :=
  let* b := encode_oid text in Ok (mkOid false b).

(** [oid!(rel 1.2.3)], /repo/src/lib.rs:268-272: [Oid::new_relative] of the octets of
    [encode_oid] for the text after [rel] and a space. *)
Definition oid_rel_const (text : bytes) : res unit oid :=
  let* b := encode_oid ([114; 101; 108; 32] ++ text) in Ok (mkOid true b).

(** [oid!(raw 1.2.3)], /repo/src/lib.rs:268-272 (used at /repo/UPGRADING.md:115): the octets. *)
Definition oid_raw_const (text : bytes) : res unit bytes := encode_oid text.
