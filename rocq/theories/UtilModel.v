(** Model of amtl/am-utility.h (the helpers MemsetZero, ARRAY_LENGTH, IS_ALIGNED, cast_to_pointer) and of the value
    conversions of ThreadLocal (amtl/am-threadlocal.h:122-127, 150-155), which go through a pointer-sized word.

    [p] is the number of bits of a pointer, of uintptr_t and of size_t.  Machine integers are [Z]. *)
From Verif Require Import Base.
Local Open Scope Z_scope.

(** An integer type of C++ by width and signedness; the operand types of am-utility.h:56, 65-69. *)
Record ity := Ity { bits : Z; sgn : bool }.
(** int, the type narrower operands of am-utility.h:56 are promoted to. *)
Definition int_ty : ity := Ity 32 true.
(** Conversion of a value to an unsigned type, as in am-utility.h:56, 67. *)
Definition to_unsigned (w x : Z) : Z := x mod 2 ^ w.
(** Conversion of a value to type [t]; conversion to a signed type keeps the low bits (gcc, clang and MSVC; the language
    prescribes it from C++20 on).  am-utility.h:56, am-threadlocal.h:123, 151. *)
Definition convert (t : ity) (x : Z) : Z :=
  let u := x mod 2 ^ bits t in
  if sgn t && (2 ^ (bits t - 1) <=? u) then u - 2 ^ bits t else u.
(** Whether a value fits: signed arithmetic that does not is undefined.  am-utility.h:56. *)
Definition fits (t : ity) (x : Z) : bool :=
  if sgn t then (- 2 ^ (bits t - 1) <=? x) && (x <? 2 ^ (bits t - 1)) else (0 <=? x) && (x <? 2 ^ bits t).
(** Integer promotion of the operand [alignment] of am-utility.h:56. *)
Definition promote (t : ity) : ity := if bits t <? 32 then int_ty else t.
(** [(alignment)-1] of am-utility.h:56: the literal 1 is an int, so the subtraction is done in the promoted type. *)
Definition minus1 (t : ity) (a : Z) : outcome Z :=
  let t := promote t in
  if sgn t then (if fits t (a - 1) then Ok (a - 1) else Fault SignedOverflow) else Ok (to_unsigned (bits t) (a - 1)).
(** am-utility.h:56, IS_ALIGNED(addr, alignment), alignment an expression of type [t]: the mask is converted to the wider of
    uintptr_t and its own type, which is unsigned unless a wider signed type meets a narrower uintptr_t. *)
Definition IS_ALIGNED (p : Z) (t : ity) (addr alignment : Z) : outcome bool :=
  do m <- minus1 t alignment;
  let common := if bits (promote t) <=? p then Ity p false else promote t in
  Ok (Z.land (convert common (to_unsigned p addr)) (convert common m) =? 0).
(** am-utility.h:55, ARRAY_LENGTH(array) on an operand of [size] bytes whose first element has [elt] bytes. *)
Definition ARRAY_LENGTH (p size elt : Z) : outcome Z :=
  if elt =? 0 then Fault BadArg else Ok (to_unsigned p size / to_unsigned p elt).
(** am-utility.h:49-53, MemsetZero(t): memset over sizeof( *t) bytes of a memory given as a list of bytes; [at_] is the
    index of the pointed-to byte, None a null pointer. *)
Fixpoint zero_from (l : list Z) (n : nat) : outcome (list Z) :=
  match n, l with
  | O, _ => Ok l
  | S n, _ :: r => do r <- zero_from r n; Ok (0 :: r)
  | S _, [] => Fault OutOfBounds
  end.
Definition MemsetZero (memory : list Z) (at_ : option nat) (size : nat) : outcome (list Z) :=
  match at_ with
  | None => Fault NullDeref
  | Some i =>
      if (i <=? length memory)%nat
      then do r <- zero_from (skipn i memory) size; Ok (firstn i memory ++ r)
      else Fault OutOfBounds
  end.
(** am-utility.h:64-69, cast_to_pointer<T>::cast for an integer type T; also the reinterpret_cast<void*>(t) of
    am-threadlocal.h:154, which extends or truncates in the same way (gcc, clang). *)
Definition cast_to_pointer (p : Z) (x : Z) : Z := to_unsigned p x.
(** am-threadlocal.h:122-127 and 150-155: what a later get() of the same thread returns after set(x), the word of the slot
    being kept by the operating system. *)
Definition through_slot (p : Z) (t : ity) (x : Z) : Z := convert t (cast_to_pointer p x).
