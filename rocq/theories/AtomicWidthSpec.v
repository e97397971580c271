(** How many references the memory of a program of threads holds. *)
From Verif Require Import Base AtomicRefModel AtomicRefSpec AtomicWidthModel.

(** The pointers in memory: those each thread owns, one more while it executes an operation, and one in each
    AtomicRef. *)
Definition places (s : state) : nat :=
  sum (map (fun th => length (held th) + match tpc th with Idle => 0 | _ => 1 end) (threads s)) + length (cells s).
(** The clients keep the obligations of AtomicRefSpec.v, in the machine whose count wraps. *)
Inductive legalW (vt : variant) (debug : bool) (width : nat) : state -> list event -> Prop :=
| legalW_nil s : legalW vt debug width s []
| legalW_cons s e es : allowed s e -> (forall s' o, stepW vt debug width s e = Ok (s', o) -> legalW vt debug width s' es) ->
    legalW vt debug width s (e :: es).
(** [P] holds before the schedule [es] and after each of its steps. *)
Definition throughout (vt : variant) (debug : bool) (width : nat) (s0 : state) (es : list event) (P : state -> Prop) : Prop :=
  forall before after s tr, es = before ++ after -> runW vt debug width s0 before = Ok (s, tr) -> P s.
