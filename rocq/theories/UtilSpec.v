(** What the helpers of am-utility.h are for, without reference to the model. *)
From Verif Require Import Base.
Local Open Scope Z_scope.

(** Values of an integer type of [w] bits. *)
Definition value_of (w : Z) (signed : bool) (x : Z) : Prop :=
  if signed then - 2 ^ (w - 1) <= x < 2 ^ (w - 1) else 0 <= x < 2 ^ w.
(** The integer types of C++. *)
Definition int_width (w : Z) : Prop := w = 8 \/ w = 16 \/ w = 32 \/ w = 64.
(** The addresses of the platform. *)
Definition pointer_width (p : Z) : Prop := p = 32 \/ p = 64.
Definition address (p a : Z) : Prop := 0 <= a < 2 ^ p.
Definition power_of_two (a : Z) : Prop := exists k, 0 <= k /\ a = 2 ^ k.
