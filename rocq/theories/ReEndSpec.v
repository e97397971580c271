(** Specification: which objects a destructor can create. *)
From Verif Require Import Base ReenterModel.

(** The classes of the objects a command can create. *)
Fixpoint news (k : cmd) : list nat :=
  match k with New _ c _ => [c] | Hold _ body => flat_map news body | _ => [] end.
(** Destructors create only objects of classes of lower rank than their own. *)
Definition creates_below (rank : nat -> nat) (script : nat -> list cmd) : Prop :=
  forall c k c', In k (script c) -> In c' (news k) -> rank c' < rank c.
