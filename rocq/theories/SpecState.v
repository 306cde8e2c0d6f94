(** * Independent specification of callbacks with state. *)

From Verif Require Import Base Spec Asn1rs Combinators.

Section State.
Context {S E A : Type}.

(** Whatever its state, the callback returns a suffix of its input. *)
Definition nom_callback (f : S -> bytes -> S * iresult E A) : Prop :=
  forall s i s' r v, f s i = (s', Ok (r, v)) -> exists p, i = p ++ r.

(** [calls f s c vs s' c']: called once for each of [vs], from left to right, each
    time on what is left and in the state it left behind, [f] goes from state
    [s] and octets [c] to state [s'] and octets [c'], consuming something every
    time. *)
Inductive calls (f : S -> bytes -> S * iresult E A) : S -> bytes -> list A -> S -> bytes -> Prop :=
| calls_none s c : calls f s c [] s c
| calls_next s piece rest v s1 vs s' c' :
    piece <> [] -> f s (piece ++ rest) = (s1, Ok (rest, v)) -> calls f s1 rest vs s' c' ->
    calls f s (piece ++ rest) (v :: vs) s' c'.

(** What the last call makes of the series: [x] is its answer on [c'].  A series
    is good if the callback asks for more octets when nothing is left. *)
Definition verdict (ops : err_ops E) (vs : list A) (c' : bytes) (x : iresult E A)
  : res (nerr E) (list A) :=
  match x, c' with
  | Ok _, _ => Err (Error (from_error_kind ops c' EkMany0))
  | Err (Incomplete _), [] => Ok vs
  | Err (Incomplete _), _ => Err (Error (from_error_kind ops c' EkEof))
  | Err (Error e), _ | Err (Failure e), _ => Err (Failure e)
  | Panic, _ => Panic
  | Diverge, _ => Diverge
  end.

(** The call is the last one: it fails or consumes nothing. *)
Definition last_call (c' : bytes) (x : iresult E A) : Prop :=
  forall r v, x = Ok (r, v) -> r = c'.

(** A result followed by the octets [r]. *)
Definition followed_by {B} (x : res (nerr E) B) (r : bytes) : iresult E B :=
  match x with Ok v => Ok (r, v) | Err e => Err e | Panic => Panic | Diverge => Diverge end.

(** The value of a callback, whatever it left over. *)
Definition value_of {B} (x : iresult E B) : res (nerr E) B :=
  match x with Ok (_, v) => Ok v | Err e => Err e | Panic => Panic | Diverge => Diverge end.

End State.
