(** Specification: how often, and on what, a priority queue calls its comparator. *)
From Verif Require Import Base PQModel PQSpec PQCostModel.

(** What one call on a queue of [n] items may cost. *)
Definition bound {T} (o : op T) (n : nat) : nat :=
  match o with
  | PAdd _ => Nat.log2 (n + 1)
  | PPop => 2 * Nat.log2 (n - 1)
  | _ => 0
  end.
(** The calls of the comparator in a step from [w] to [w']: those now in the list in front of the old ones. *)
Definition new_calls {T St} (w w' : world T St) (cs : list (T * T)) : Prop := calls w' = cs ++ calls w.

(** Along a history that leaves the items [S] in the queue before the operation and [S'] after it, each operation costs no more
    than its bound and compares only items that are in the queue after it. *)
Inductive frugal {T St} (cmp : St -> T -> T -> bool * St) (debug : bool) : world T St -> pq T -> list (op T) -> list nat -> Prop :=
| fr_nil w q : frugal cmp debug w q [] []
| fr_cons w q o ops w' q' r cs rest :
    step cmp debug w q o = Ok (q', w', r) -> new_calls w w' cs -> length cs <= bound o (length q) ->
    (forall a b, In (a, b) cs -> In (Some a) q' /\ In (Some b) q') ->
    frugal cmp debug w' q' ops rest -> frugal cmp debug w q (o :: ops) (length cs :: rest).
