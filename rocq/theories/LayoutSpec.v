(** Specification: an object of a type may live only at an address that is a multiple of the type's alignment, inside the storage
    that was obtained for it, and apart from every other object. *)
From Verif Require Import Base LayoutModel.
Local Open Scope N_scope.

Definition power_of_two (n : N) : Prop := exists k, n = 2 ^ k.
(** C++: alignments are powers of two, sizes positive multiples of the alignment. *)
Definition is_type (t : ctype) : Prop := power_of_two (align t) /\ 0 < size t /\ (align t | size t).
(** An object of type [t] at [a], inside the [n] bytes from [base] on. *)
Definition well_placed (t : ctype) (a base n : N) : Prop := (align t | a) /\ base <= a /\ a + size t <= base + n.
Definition apart (a n b m : N) : Prop := a + n <= b \/ b + m <= a.
