(** * Encodings that are told apart by nothing in the decoded object (for C116) *)

From Verif Require Import Base Asn1rs Spec SpecValue.

Section Alike.
Context (L : leaves).

(** Two elements are alike if they have the same identifier octets and contents that are
    alike.  The length octets do not count: short, long or indefinite. *)
Inductive alike : bytes -> bytes -> Prop :=
| al_element h c bs h' c' bs' :
    element 50 h c bs -> element 50 h' c' bs' -> h_raw_tag h = h_raw_tag h' ->
    alike_contents h c h' c' -> alike bs bs'
with alike_contents : header -> bytes -> header -> bytes -> Prop :=
| ac_same h h' c :
    h_class h <> Universal \/ ~ In (h_tag h) [16; 17; 23; 24] -> alike_contents h c h' c
| ac_ignored h c h' c' :                                   (* end-of-contents, NULL *)
    h_class h = Universal -> h_tag h = 0 \/ h_tag h = 5 -> alike_contents h c h' c'
| ac_true h b h' b' :
    h_class h = Universal -> h_tag h = 1 -> b <> 0 -> b' <> 0 -> alike_contents h [b] h' [b']
| ac_enumerated h c h' c' :
    h_class h = Universal -> h_tag h = 10 -> unsigned c = unsigned c' -> alike_contents h c h' c'
| ac_utc_time h c h' c' t :
    h_class h = Universal -> h_tag h = 23 ->
    lf_utctime L (h_constructed h) (h_length h) c = inr t ->
    lf_utctime L (h_constructed h') (h_length h') c' = inr t -> alike_contents h c h' c'
| ac_generalized_time h c h' c' t :
    h_class h = Universal -> h_tag h = 24 ->
    lf_gentime L (h_constructed h) (h_length h) c = inr t ->
    lf_gentime L (h_constructed h') (h_length h') c' = inr t -> alike_contents h c h' c'
| ac_elements h c h' c' :
    h_class h = Universal -> h_tag h = 16 \/ h_tag h = 17 -> alike_series c c' ->
    alike_contents h c h' c'
with alike_series : bytes -> bytes -> Prop :=
| as_nil : alike_series [] []
| as_cons bs rest bs' rest' :
    alike bs bs' -> alike_series rest rest' -> alike_series (bs ++ rest) (bs' ++ rest').
End Alike.
