(** Specification: how many references memory holds. *)
From Verif Require Import Base RefcountModel RefcountSpec.

(** The pointers in memory: the variables in use, and the RefPtr members of the objects that are alive. *)
Definition places (s : state) : nat :=
  sum (map (fun x => match x with Some _ => 1 | None => 0 end) (vars s)) +
  sum (map (fun ob => match st ob with Alive => length (flds ob) | _ => 0 end) (objs (hp s))).
(** [P] holds before the history [ops] and after each of its operations. *)
Definition throughout (debug : bool) (n : nat) (ops : list op) (P : state -> Prop) : Prop :=
  forall before after s, ops = before ++ after -> run debug (init n) before = Ok s -> P s.
