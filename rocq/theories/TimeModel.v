(** Model of amtl/am-time.h (FormatTime, which only wraps std::put_time, is not modelled).

    std::chrono: durations are 64-bit signed counts; converting one to another period multiplies or divides its count
    by the ratio of the periods in intmax_t ([time.duration.cast]); operator+ first converts both operands to the
    common period.  Signed overflow is undefined behaviour. *)
From Verif Require Import Base.
Local Open Scope Z_scope.

(** The argument of am-time.h:45, 53. *)
Record timespec := Timespec { tv_sec : Z; tv_nsec : Z }.
(** The representation of the durations of am-time.h:47-48, 55-56. *)
Definition int64 (z : Z) : bool := (- 2 ^ 63 <=? z) && (z <? 2 ^ 63).
Definition s64 (z : Z) : outcome Z := if int64 z then Ok z else Fault SignedOverflow.

(** duration_cast to a period [num] times finer (den = 1), or [den] times coarser (num = 1). *)
(** The conversions at am-time.h:47-48, 56. *)
Definition cast_finer (num count : Z) : outcome Z := s64 (count * num).
Definition cast_coarser (den count : Z) : outcome Z := Ok (Z.quot count den).

(** am-time.h:44-49: seconds + nanoseconds (common period: nanoseconds), and a cast that changes nothing. *)
Definition TimespecToDuration (ts : timespec) : outcome Z :=
  do a <- cast_finer 1000000000 (tv_sec ts);
  do b <- cast_finer 1 (tv_nsec ts);
  s64 (a + b).

(** am-time.h:51-57, for a clock with a period of [k] nanoseconds (only a multiple of a nanosecond compiles: the result
    is converted implicitly to nanoseconds). *)
Definition TimespecToTimePoint (k : Z) (ts : timespec) : outcome Z :=
  do d <- TimespecToDuration ts;
  do c <- cast_coarser k d;
  cast_finer k c.

(** am-time.h:73-78: duration{t} converts the (integral) argument to the clock's representation of [bits] bits, which
    is a conversion modulo 2^bits. *)
Definition EpochValueToTimePoint (bits : Z) (t : Z) : Z :=
  let r := t mod 2 ^ bits in if r <? 2 ^ (bits - 1) then r else r - 2 ^ bits.
