(** * Model of examples/dump-der.rs.

    The program that shows the objects of a file, one per line, and the objects
    encapsulated in octet strings.  Simplifications: writing to the terminal never
    fails; a panic ([expect]) drops what was written before it; numbers do not
    overflow. *)

From Coq Require Import String.
From Verif Require Import Base Asn1rs Ber Der Visit Print PrintText.
Local Open Scope string_scope.
Local Open Scope N_scope.
Local Open Scope list_scope.

(** Texts made by other crates, used at /repo/examples/dump-der.rs:30-34,57,94. *)
Record dump_texts := mkDumpTexts {
  du_pretty : texts;                (* those of the pretty printer *)
  du_error : nerr berror -> bytes;  (* Display of nom::Err<BerError> *)
  du_hex16 : bytes -> bytes;        (* nom::HexDisplay::to_hex(16) *)
  du_octets : bytes -> bytes        (* {:x?} of &[u8] *)
}.

(** [println!] and [eprintln!]: one written text each, newline included,
    /repo/examples/dump-der.rs:21,30,34,44,47,57,94. *)
Inductive write := Stdout (s : bytes) | Stderr (s : bytes).

(** What has been written so far, or that the program does not come back.  The
    printer has no other state, /repo/examples/dump-der.rs:8. *)
Definition written := res unit (list write).

(** Writing one more text, e.g. /repo/examples/dump-der.rs:21. *)
Definition say (w : write) (s : written) : written := let* l := s in Ok (l ++ [w]).

(** ["{:1$}"] of one space: filled up to [n], at least the space itself,
    /repo/examples/dump-der.rs:21,44. *)
Definition fill (n : nat) : bytes := repeat 32 (Nat.max 1 n).

(** /repo/examples/dump-der.rs:43-48: after the loop. *)
Definition encapsulated_end (depth : nat) (first_object : bool) (i : bytes) (s : written) : written :=
  let s := if first_object then s else say (Stdout (fill (depth * 2) ++ str "}" ++ [10])) s in
  match i with
  | [] => s
  | _ :: _ =>
      say (Stdout (str "WARNING: " ++ dec (nlen i) ++ str " remaining bytes at depth "
                   ++ dec (N.of_nat depth) ++ [10])) s
  end.

(** /repo/examples/dump-der.rs:15-48: the loop [while !i.is_empty()] and what follows
    it.  [run_at] is [self.run_at]; every round reads an object or leaves the
    loop, [fuel] counts the rounds. *)
Fixpoint encapsulated_loop (L : leaves) (T : dump_texts) (run_at : written -> obj -> nat -> written)
    (data : bytes) (depth : nat) (constructed : bool) (fuel : nat) (first_object : bool)
    (i : bytes) (s : written) : written :=
  match i with
  | [] => encapsulated_end depth first_object i s
  | _ :: _ =>
      match fuel with
      | O => Diverge
      | S fuel' =>
          match parse_ber_any_r L i MAX_RECURSION with
          | Ok (rem, inner) =>                                     (* l.19-26 *)
              let s := if first_object
                       then say (Stdout (fill (depth * 2) ++ str "encapsulates {" ++ [10])) s else s in
              encapsulated_loop L T run_at data depth constructed fuel' false rem
                (run_at s inner (S depth))
          | Err e =>                                               (* l.27-40 *)
              if constructed then
                encapsulated_end depth first_object i
                  (say (Stderr (str "tried to parse" ++ [10] ++ du_hex16 T data ++ [10]))
                     (say (Stderr (str "Error while parsing constructed object at depth "
                                   ++ dec (N.of_nat depth) ++ str ": " ++ du_error T e ++ [10])) s))
              else encapsulated_end depth first_object [] s
          | Panic => Panic
          | Diverge => Diverge
          end
      end
  end.

(** /repo/examples/dump-der.rs:14-49 [try_print_encapsulated] *)
Definition try_print_encapsulated (L : leaves) (T : dump_texts)
    (run_at : written -> obj -> nat -> written) (data : bytes) (depth : nat) (ber : obj)
    (s : written) : written :=
  encapsulated_loop L T run_at data depth (h_constructed (o_header ber)) (length data) true data s.

(** /repo/examples/dump-der.rs:52-69 [impl Visit for BerPrinter]: [visit_ber], the other
    callbacks do nothing (/repo/src/ber/visit.rs:24-105). *)
Definition ber_printer (L : leaves) (T : dump_texts) (run_at : written -> obj -> nat -> written)
  : visitor written :=
  fun s c =>
    match c with
    | VisitBer ber depth =>
        let pp := pretty_new ber [ShowHeader] (N.of_nat depth * 2) 2 in
        let s := say (Stdout (pretty_text (du_pretty T) pp ++ [10])) s in
        match o_content ber with
        | CUnknown a => try_print_encapsulated L T run_at (a_data a) depth ber s
        | COctetString data => try_print_encapsulated L T run_at data depth ber s
        | _ => s
        end
    | VisitCb _ _ => s
    end.

(** [printer.run_at] (/repo/src/ber/visit.rs:117-121), which [visit_ber] calls again for
    objects it finds.  [fuel] counts how often one call is inside another. *)
Fixpoint dump_at (L : leaves) (T : dump_texts) (fuel : nat) (s : written) (o : obj) (depth : nat)
  : written :=
  match fuel with
  | O => Diverge
  | S fuel' => visit_run_at (ber_printer L T (dump_at L T fuel')) s o depth
  end.

(** /repo/examples/dump-der.rs:86-95: one file. *)
Definition dump_file (L : leaves) (T : dump_texts) (parse_as_ber : bool) (data : bytes) (s : written)
  : written :=
  match (if parse_as_ber then parse_ber L data else parse_der L data) with
  | Ok (rem, o) =>
      let s := dump_at L T (S (length data)) s o 1 in
      match rem with
      | [] => s
      | _ :: _ =>
          say (Stdout (str "WARNING: extra bytes after BER/DER object:" ++ [10] ++ du_octets T rem ++ [10])) s
      end
  | _ => Panic
  end.

(** An argument of the program: an option, or a file and its octets if it can be read,
    /repo/examples/dump-der.rs:73-85. *)
Inductive argument := ABer | ADer | AFile (contents : option bytes).

(** /repo/examples/dump-der.rs:71-98 [main] *)
Fixpoint dump_main (L : leaves) (T : dump_texts) (parse_as_ber : bool) (args : list argument) (s : written)
  : written :=
  match args with
  | [] => s
  | ABer :: r => dump_main L T true r s
  | ADer :: r => dump_main L T false r s
  | AFile None :: _ => Panic
  | AFile (Some data) :: r =>
      let* l := dump_file L T parse_as_ber data s in dump_main L T parse_as_ber r (Ok l)
  end.
