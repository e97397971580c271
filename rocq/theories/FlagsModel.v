(** Model of amtl/am-flags.h and amtl/am-enum.h.

    An enum with a fixed underlying integer type of width w (signed or not, not bool) is represented by the
    mathematical value of that type.  Bit operators act on the promoted operands (two's complement) and the
    result is converted back, modulo 2^w. *)
From Verif Require Import Base.
Local Open Scope Z_scope.

Section Flags.
Variable sg : bool.      (* the underlying type is signed *)
Variable w : Z.          (* its width *)

(** Conversion of an integer to a type of the given signedness and width. *)
(** The conversions in T(..) and static_cast<T>(..) of am-flags.h:46-89 and am-enum.h:36-92. *)
Definition convert (sg : bool) (w : Z) (z : Z) : Z :=
  if sg then (z + 2 ^ (w - 1)) mod 2 ^ w - 2 ^ (w - 1) else z mod 2 ^ w.
(** The values of T (am-flags.h:42; the underlying type of the enum of am-enum.h:36-92). *)
Definition in_type (sg : bool) (w : Z) (z : Z) : Prop :=
  if sg then - 2 ^ (w - 1) <= z < 2 ^ (w - 1) else 0 <= z < 2 ^ w.

(** Integer promotion: types narrower than int (32 bits) become int, value-preservingly. *)
(** Signedness after integer promotion of the operands at am-flags.h:75-127 and am-enum.h:36-92. *)
Definition psg : bool := if w <? 32 then true else sg.
(** Width after integer promotion of the operands at am-flags.h:75-127 and am-enum.h:36-92. *)
Definition pw : Z := Z.max w 32.
(** The value of |, &, ^ and ~ at am-flags.h:75-127 and am-enum.h:36-92. *)
Definition arith (z : Z) : Z := convert psg pw z.   (* result of an operator, in the promoted type *)
Definition cast (z : Z) : Z := convert sg w z.      (* static_cast<T> / EnumName(...) *)

(** am-flags.h:46-58 *)
Definition f_empty : Z := cast 0.
(** am-flags.h:61-66 *)
Definition f_bool (a : Z) : bool := negb (a =? cast 0).
Definition f_not (a : Z) : bool := a =? cast 0.
(** am-flags.h:75-89 *)
Definition f_plus (a b : Z) : Z := cast (arith (Z.lor a b)).
Definition f_minus (a b : Z) : Z := cast (arith (Z.land a (arith (Z.lxor a b)))).
Definition f_or (a b : Z) : Z := cast (arith (Z.lor a b)).
Definition f_and (a b : Z) : Z := cast (arith (Z.land a b)).
Definition f_xor (a b : Z) : Z := cast (arith (Z.lxor a b)).
(** am-flags.h:90-95 *)
Definition f_eq (a b : Z) : bool := a =? b.
Definition f_ne (a b : Z) : bool := negb (a =? b).

(** am-flags.h:97-121: the compound assignments, as sequences run on one variable. *)
Inductive fop := Plus | Minus | Or | And | Xor.
Definition f_op (o : fop) : Z -> Z -> Z :=
  match o with Plus => f_plus | Minus => f_minus | Or => f_or | And => f_and | Xor => f_xor end.
Definition f_assign_op (o : fop) (this other : Z) : Z := f_op o this other.
Fixpoint f_program (this : Z) (l : list (fop * Z)) : Z :=
  match l with [] => this | (o, b) :: l' => f_program (f_assign_op o this b) l' end.

(** am-enum.h:48-76 KE_DEFINE_ENUM_OPERATORS *)
Definition e_or (a b : Z) : Z := cast (arith (Z.lor a b)).
Definition e_and (a b : Z) : Z := cast (arith (Z.land a b)).
Definition e_xor (a b : Z) : Z := cast (arith (Z.lxor a b)).
Definition e_compl (a : Z) : Z := cast (arith (Z.lnot a)).
Definition e_not (a : Z) : bool := a =? 0.

(** am-enum.h:78-90 KE_DEFINE_ENUM_COMPARATORS(EnumName, Type): the enum operand is converted to Type. *)
Definition e_cmp_eq (tsg : bool) (tw : Z) (left right : Z) : bool := convert tsg tw left =? right.
Definition e_cmp_ne (tsg : bool) (tw : Z) (left right : Z) : bool := negb (convert tsg tw left =? right).
End Flags.
