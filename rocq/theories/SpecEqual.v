(** * Independent specification of equality of objects (for C76) *)

From Verif Require Import Base.

(** The raw tags of all headers of an object, in document order. *)
Fixpoint raw_tags (o : obj) : list (option bytes) :=
  match o with Obj h c => h_raw_tag h :: raw_tags_content c end
with raw_tags_content (c : content) : list (option bytes) :=
  match c with
  | CSequence l => concat (map raw_tags l)
  | CSet l => concat (map raw_tags l)
  | COptional (Some o) => raw_tags o
  | CTagged _ _ o => raw_tags o
  | CUnknown a => [h_raw_tag (a_header a)]
  | _ => []
  end.

(** Two raw tags agree unless both are present and differ. *)
Definition compatible (r r' : option bytes) : Prop := r = None \/ r' = None \/ r = r'.
