(** What a client of malloc expects of a component that uses it. *)
From Verif Require Import Base HashTableMemModel.

(** Addresses in use are distinct and have been handed out. *)
Definition heap_ok (h : heap) : Prop :=
  NoDup (map fst (live h)) /\ Forall (fun x => fst x < next h) (live h).

(** Between [h] and [h'] every block handed out has been given back exactly once, and nothing else has. *)
Definition all_returned (h h' : heap) : Prop :=
  live h' = live h /\
  exists l, freed h' = l ++ freed h /\ NoDup l /\ (forall b, In b l <-> next h <= b < next h').
