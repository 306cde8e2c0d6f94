(** * What the dump of a file shows

    Independent of the program: the lines as data, and which lines belong to an
    object. *)

From Coq Require Import String.
From Verif Require Import Base Asn1rs Ber Der PrintText Print Dump.
Local Open Scope string_scope.
Local Open Scope N_scope.
Local Open Scope list_scope.

(** The lines. *)
Inductive row :=
| RObject (depth : nat) (o : obj)
| ROpen (depth : nat)
| RClose (depth : nat)
| RError (depth : nat) (e : nerr berror)
| RTried (data : bytes)
| RLeft (depth : nat) (octets : bytes).

Definition blanks (depth : nat) : bytes := repeat 32 (2 * depth).

Definition line (T : dump_texts) (r : row) : write :=
  match r with
  | RObject d o => Stdout (fmt_obj (du_pretty T) [ShowHeader] (2 * N.of_nat d) 2 o ++ [10])
  | ROpen d => Stdout (blanks d ++ str "encapsulates {" ++ [10])
  | RClose d => Stdout (blanks d ++ str "}" ++ [10])
  | RError d e => Stderr (str "Error while parsing constructed object at depth " ++ dec (N.of_nat d)
                          ++ str ": " ++ du_error T e ++ [10])
  | RTried s => Stderr (str "tried to parse" ++ [10] ++ du_hex16 T s ++ [10])
  | RLeft d s => Stdout (str "WARNING: " ++ dec (nlen s) ++ str " remaining bytes at depth "
                         ++ dec (N.of_nat d) ++ [10])
  end.

(** [read_off L s os r e]: reading object after object from [s] gives [os] and stops
    with [r] left over, for the reason [e] if anything is. *)
Inductive read_off (L : leaves) : bytes -> list obj -> bytes -> option (nerr berror) -> Prop :=
| ro_end : read_off L [] [] [] None
| ro_stop i e : i <> [] -> parse_ber L i = Err e -> read_off L i [] i (Some e)
| ro_next i r o os r' e : parse_ber L i = Ok (r, o) -> read_off L r os r' e ->
    read_off L i (o :: os) r' e.

(** The octets of an object in which others are looked for. *)
Definition octets_of (o : obj) : option bytes :=
  match o_content o with
  | COctetString s => Some s
  | CUnknown a => Some (a_data a)
  | _ => None
  end.

Definition members (o : obj) : list obj :=
  match o_content o with CSequence l | CSet l => l | _ => [] end.

(** The lines about what was left over: for constructed objects only. *)
Definition trouble (o : obj) (d : nat) (s : bytes) (e : option (nerr berror)) : list row :=
  match e with
  | Some e => if h_constructed (o_header o) then [RError d e; RTried s] else []
  | None => []
  end.
Definition left_over (o : obj) (d : nat) (r : bytes) : list row :=
  match r with
  | _ :: _ => if h_constructed (o_header o) then [RLeft d r] else []
  | [] => []
  end.

(** [shown L d o rows]: the lines of [o] at depth [d]: itself, the objects in its octets
    between braces, and its members, one level deeper. *)
Inductive shown (L : leaves) : nat -> obj -> list row -> Prop :=
| sh_plain d o below : octets_of o = None -> shown_all L (S d) (members o) below ->
    shown L d o (RObject d o :: below)
| sh_nothing d o s r e : octets_of o = Some s -> read_off L s [] r e ->
    shown L d o (RObject d o :: trouble o d s e ++ left_over o d r)
| sh_inside d o s x os r e rows : octets_of o = Some s -> read_off L s (x :: os) r e ->
    shown_all L (S d) (x :: os) rows ->
    shown L d o (RObject d o :: ROpen d :: rows ++ trouble o d s e ++ RClose d :: left_over o d r)
with shown_all (L : leaves) : nat -> list obj -> list row -> Prop :=
| sh_nil d : shown_all L d [] []
| sh_cons d o os a b : shown L d o a -> shown_all L d os b -> shown_all L d (o :: os) (a ++ b).

Scheme shown_mut := Induction for shown Sort Prop
  with shown_all_mut := Induction for shown_all Sort Prop.
Combined Scheme shown_ind2 from shown_mut, shown_all_mut.

(** [found L d o d' n]: [n] is [o] or inside it, as a member or in its octets, at the
    depth [d'] if [o] is at depth [d]. *)
Inductive found (L : leaves) : nat -> obj -> nat -> obj -> Prop :=
| fo_self d o : found L d o d o
| fo_member d o x d' n : In x (members o) -> found L (S d) x d' n -> found L d o d' n
| fo_octets d o s os r e x d' n : octets_of o = Some s -> read_off L s os r e -> In x os ->
    found L (S d) x d' n -> found L d o d' n.

(** What the program says of octets after the object of a file. *)
Definition extra (T : dump_texts) (r : bytes) : list write :=
  match r with
  | [] => []
  | _ :: _ => [Stdout (str "WARNING: extra bytes after BER/DER object:" ++ [10] ++ du_octets T r ++ [10])]
  end.

(** [file_object L ber data r o]: the file [data], taken as BER or as DER, holds [o]
    and then [r]. *)
Definition file_object (L : leaves) (ber : bool) (data r : bytes) (o : obj) : Prop :=
  if ber then parse_ber L data = Ok (r, o) else parse_der L data = Ok (r, o).

(** [dumped L T ber args w]: the dumps of all files, each taken as the last option
    before it says, [ber] if there is none. *)
Inductive dumped (L : leaves) (T : dump_texts) : bool -> list argument -> list write -> Prop :=
| dd_end ber : dumped L T ber [] []
| dd_ber ber args w : dumped L T true args w -> dumped L T ber (ABer :: args) w
| dd_der ber args w : dumped L T false args w -> dumped L T ber (ADer :: args) w
| dd_file ber data r o rows args w :
    file_object L ber data r o -> shown L 1 o rows -> dumped L T ber args w ->
    dumped L T ber (AFile (Some data) :: args) (map (line T) rows ++ extra T r ++ w).

(** [matched rows]: every opening brace has its closing one, of the same depth, and
    the objects between them are deeper. *)
Definition is_brace (x : row) : Prop :=
  match x with ROpen _ | RClose _ => True | _ => False end.
Inductive matched : list row -> Prop :=
| ma_nil : matched []
| ma_line x rows : ~ is_brace x -> matched rows -> matched (x :: rows)
| ma_braces d inner rows : matched inner ->
    (forall d' n, In (RObject d' n) inner -> (d < d')%nat) -> matched rows ->
    matched (ROpen d :: inner ++ RClose d :: rows).
