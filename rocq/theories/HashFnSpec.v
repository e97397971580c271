(** Reference definitions for the hash functions. *)
From Coq Require Import ZArith List.
Local Open Scope Z_scope.

(** The polynomial with the bytes of [s] as coefficients, at base 65599, most significant first. *)
Fixpoint poly (s : list Z) : Z :=
  match s with
  | nil => 0
  | (c :: r)%list => c * 65599 ^ Z.of_nat (length r) + poly r
  end.

Definition int32 (a : Z) : Prop := - 2 ^ 31 <= a < 2 ^ 31.
Definition int64 (a : Z) : Prop := - 2 ^ 63 <= a < 2 ^ 63.

(** Jenkins's one-at-a-time hash, as published: a byte is added and the sum multiplied by 1 + 2^10, then folded over itself; the end
    multiplies by 1 + 2^3, folds, and multiplies by 1 + 2^15. *)
Definition oaat_step (h c : Z) : Z := let h := (h + c) * 1025 mod 2 ^ 32 in Z.lxor h (h / 64).
Definition oaat_end (h : Z) : Z := let h := h * 9 mod 2 ^ 32 in Z.lxor h (h / 2048) * 32769 mod 2 ^ 32.
Definition one_at_a_time (s : list Z) : Z := oaat_end (fold_left oaat_step s 0).

Definition uint32 (a : Z) : Prop := 0 <= a < 2 ^ 32.
