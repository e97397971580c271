(** Specification vocabulary for bit tricks: independent of how the code computes. *)
From Verif Require Import Base.
Local Open Scope N_scope.

(** [k] is the position of the highest / lowest set bit of [n]. *)
Definition highest_bit (n k : N) : Prop :=
  N.testbit n k = true /\ forall j, k < j -> N.testbit n j = false.
Definition lowest_bit (n k : N) : Prop :=
  N.testbit n k = true /\ forall j, j < k -> N.testbit n j = false.

Definition is_pow2 (n : N) : Prop := exists k, n = 2 ^ k.

(** [r] is the least multiple of [a] that is at least [c]. *)
Definition least_multiple_above (a c r : N) : Prop :=
  (exists q, r = q * a) /\ c <= r /\ forall q, c <= q * a -> r <= q * a.
(** [r] is the greatest multiple of [a] that is at most [c]. *)
Definition greatest_multiple_below (a c r : N) : Prop :=
  (exists q, r = q * a) /\ r <= c /\ forall q, q * a <= c -> q * a <= r.
