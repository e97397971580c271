(** Model of amtl/am-float.h.

    A floating point value is its bit pattern, a number below 2^(1+w+p), for p mantissa and w exponent bits
    (23 and 8 for float, 52 and 11 for double, IEEE 754).  std::isnan, the comparison with 0 and the narrowing of
    double to float are language or library operations: the first two are given by the format; the third depends on
    the rounding mode and on how NaN payloads are treated, and is an argument of the model, and so is fmod. *)
From Verif Require Import Base.
Local Open Scope N_scope.

Section Format.
Variables p w : N.
(** The sign bit of the format that am-float.h:40-41 and 43-75 take apart. *)
Definition sign_bit (b : N) : bool := N.testbit b (p + w).
(** The exponent field of the format that am-float.h:40-41 and 43-75 take apart. *)
Definition expo (b : N) : N := (b / 2 ^ p) mod 2 ^ w.
(** The mantissa field of the format that am-float.h:40-41 and 43-75 take apart. *)
Definition mant (b : N) : N := b mod 2 ^ p.
Definition top : N := 2 ^ w - 1.
End Format.

(** am-float.h:40, 43-58: float32_bits::to_layout(value).bits. *)
Definition kFloat32ExponentMask : N := 0x7F800000.
Definition to_layout32 (value : N) : N := value.

(** am-float.h:41, 60-75: float64_bits::to_layout takes a *float* and stores it in a float member of an 8-byte union:
    the double argument is narrowed, and four of the eight bytes of [bits] are whatever was there ([junk]: upper or
    lower half). *)
Definition kFloat64ExponentMask : N := 0x7FFF000000000000.
Definition to_layout64 (big_endian : bool) (narrow : N -> N) (junk : N) (value : N) : N :=
  if big_endian then narrow value * 2 ^ 32 + junk mod 2 ^ 32
  else junk mod 2 ^ 32 * 2 ^ 32 + narrow value.

(** am-float.h:95-103 *)
Definition is_infinite32 (value : N) : bool := N.land (to_layout32 value) kFloat32ExponentMask =? kFloat32ExponentMask.
Definition is_infinite64 (big_endian : bool) (narrow : N -> N) (junk : N) (value : N) : bool :=
  N.land (to_layout64 big_endian narrow junk value) kFloat64ExponentMask =? kFloat64ExponentMask.

(** left == 0: both zeroes *)
Definition eq_zero (p w b : N) : bool := (expo p w b =? 0) && (mant p b =? 0).

(** am-float.h:121-136.  [inf] is IsInfinite<T>; its calls are made with different stack contents, hence the first
    argument: 0, 1, 2 for the three calls in the order they are written. *)
Definition float_modulo (windows : bool) (p w : N) (inf : nat -> N -> bool) (fmod : N -> N -> N) (left right : N) : N :=
  if windows && ((negb (inf 0%nat left) && inf 1%nat right) || (eq_zero p w left && negb (inf 2%nat right)))
  then left
  else fmod left right.
