(** IEEE 754 values, independently of the code. *)
From Verif Require Import Base FloatModel.
Local Open Scope N_scope.

Section Format.
Variables p w : N.
Definition valid (b : N) : Prop := b < 2 ^ (1 + w + p).
Definition is_nan (b : N) : Prop := expo p w b = top w /\ mant p b <> 0.
Definition is_inf (b : N) : Prop := expo p w b = top w /\ mant p b = 0.
Definition is_fin (b : N) : Prop := expo p w b <> top w.
Definition is_zero (b : N) : Prop := expo p w b = 0 /\ mant p b = 0.

(** The magnitude of a finite value, in units of the smallest positive value of the format, and the signed value. *)
Definition magnitude (b : N) : N :=
  if expo p w b =? 0 then mant p b else (2 ^ p + mant p b) * 2 ^ (expo p w b - 1).
Definition value (b : N) : Z := if sign_bit p w b then - Z.of_N (magnitude b) else Z.of_N (magnitude b).

(** am-float.h:104-119, the documented contract of FloatModulo. *)
Record documented (x y r : N) : Prop := {
  doc_nan : is_nan x \/ is_nan y -> is_nan r;
  doc_inf : is_inf x -> is_nan r;
  doc_by_zero : is_zero y -> is_nan r;
  doc_by_inf : is_fin x -> is_inf y -> r = x;
  doc_of_zero : is_zero x -> is_fin y -> ~ is_zero y -> r = x;
  doc_mod : is_fin x -> is_fin y -> ~ is_zero y ->
    is_fin r /\ (exists k : Z, (value x = k * value y + value r)%Z) /\ (Z.abs (value r) < Z.abs (value y))%Z
    /\ (0 <= value x * value r)%Z }.

(** fmod as in C, Annex F - ... *)
Definition c99_fmod (fmod : N -> N -> N) : Prop := forall x y, valid x -> valid y -> documented x y (fmod x y).
(** ... and the Windows fmod, about which nothing is assumed for infinite divisors, and for zero dividends only the
    value. *)
Record documented_windows (x y r : N) : Prop := {
  wdoc_nan : is_nan x \/ is_nan y -> is_nan r;
  wdoc_inf : is_inf x -> is_nan r;
  wdoc_by_zero : is_zero y -> is_nan r;
  wdoc_mod : is_fin x -> is_fin y -> ~ is_zero y ->
    is_fin r /\ (exists k : Z, (value x = k * value y + value r)%Z) /\ (Z.abs (value r) < Z.abs (value y))%Z
    /\ (0 <= value x * value r)%Z }.
Definition windows_fmod (fmod : N -> N -> N) : Prop := forall x y, valid x -> valid y -> documented_windows x y (fmod x y).
End Format.

(** What every narrowing of double to float does, in every rounding mode. *)
Record narrowing (narrow : N -> N) : Prop := {
  nar_valid : forall d, valid 52 11 d -> valid 23 8 (narrow d);
  nar_inf : forall d, valid 52 11 d -> is_inf 52 11 d -> is_inf 23 8 (narrow d);
  nar_nan : forall d, valid 52 11 d -> is_nan 52 11 d -> is_nan 23 8 (narrow d);
  nar_fin : forall d, valid 52 11 d -> is_fin 52 11 d -> ~ is_nan 23 8 (narrow d) }.
