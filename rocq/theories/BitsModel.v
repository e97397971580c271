(** Model of amtl/am-bits.h and amtl/am-arithmetic.h. *)
From Verif Require Import Base.
Local Open Scope N_scope.

(** ** Compiler intrinsics (trusted readings of the compiler manuals) *)

(** Index of the highest set bit of a non-zero word: what BSR / _BitScanReverse compute.  Used by
    am-bits.h:71,82,85,88,116,136. Undefined on 0. *)
Definition bit_scan_reverse (x : N) : outcome N :=
  if x =? 0 then Fault BadArg else Ok (N.log2 x).

(** __builtin_clz / __builtin_clzl on a word of [w] bits: the argument is first converted (truncated) to
    that width; undefined on 0. am-bits.h:100,119,140. *)
Definition builtin_clz (w x : N) : outcome N :=
  let y := uw w x in
  if y =? 0 then Fault BadArg else Ok (w - 1 - N.log2 y).

Fixpoint pos_ctz (p : positive) : N :=
  match p with xO q => N.succ (pos_ctz q) | _ => 0 end.
(** __builtin_ctz / __builtin_ctzl / _BitScanForward on [w] bits. am-bits.h:152,154,159,161. *)
Definition builtin_ctz (w x : N) : outcome N :=
  match uw w x with N0 => Fault BadArg | Npos p => Ok (pos_ctz p) end.

(** ** Log2 *)

(** am-bits.h:93-106, __GNUC__ branch: [31 - __builtin_clz(number)]; the parameter of __builtin_clz is
    [unsigned int], so [number] is truncated to 32 bits. *)
Definition Log2_gcc (debug : bool) (number : N) : outcome N :=
  do _ <- assert_ debug (negb (number =? 0));
  do c <- builtin_clz 32 number;
  Ok (31 - c).

(** am-bits.h:61-73, MSVC Log2<uint32_t>. *)
Definition Log2_msvc32 (debug : bool) (number : N) : outcome N :=
  do _ <- assert_ debug (negb (number =? 0));
  bit_scan_reverse (uw 32 number).

(** am-bits.h:75-92, MSVC Log2<uint64_t>; [x64] selects the _M_X64 branch. *)
Definition Log2_msvc64 (x64 debug : bool) (number : N) : outcome N :=
  do _ <- assert_ debug (negb (number =? 0));
  if x64 then bit_scan_reverse number
  else if 4294967295 <? number then
    do r <- bit_scan_reverse (uw 32 (N.shiftr number 32)); Ok (r + 32)
  else bit_scan_reverse (uw 32 number).

(** ** FindLeftmostBit / FindRightmostBit *)

(** am-bits.h:109-121, __GNUC__ branch. *)
Definition FindLeftmostBit32_gcc (debug : bool) (number : N) : outcome N :=
  do _ <- assert_ debug (negb (number =? 0));
  do c <- builtin_clz 32 number;
  Ok (31 - c).
(** am-bits.h:114-117, MSVC branch. *)
Definition FindLeftmostBit32_msvc (debug : bool) (number : N) : outcome N :=
  do _ <- assert_ debug (negb (number =? 0));
  bit_scan_reverse number.

(** am-bits.h:139-140, __GNUC__ branch: [63 - __builtin_clzl(number)].  [long_bits] is the width of
    [unsigned long] in the data model: 64 for LP64, 32 for ILP32 and LLP64 (MinGW). *)
Definition FindLeftmostBit64_gcc (long_bits : N) (debug : bool) (number : N) : outcome N :=
  do _ <- assert_ debug (negb (number =? 0));
  do c <- builtin_clz long_bits number;
  Ok (63 - c).
(** am-bits.h:128-138, MSVC; [x64] selects the _M_X64/_M_ARM64 branch. *)
Definition FindLeftmostBit64_msvc (x64 debug : bool) (number : N) : outcome N :=
  do _ <- assert_ debug (negb (number =? 0));
  if x64 then bit_scan_reverse number
  else
    let temp := N.shiftr number 32 in
    if negb (temp =? 0) then
      do r <- FindLeftmostBit32_msvc debug (uw 32 temp); Ok (32 + r)
    else FindLeftmostBit32_msvc debug (uw 32 (N.land number 4294967295)).

(** am-bits.h:144-164.  All branches scan forward a word of the width of size_t ([w]). *)
Definition FindRightmostBit (w : N) (debug : bool) (number : N) : outcome N :=
  do _ <- assert_ debug (negb (number =? 0));
  builtin_ctz w number.

(** ** Powers of two and alignment; [w] is the width of size_t / uintptr_t *)

(** am-bits.h:166-172. *)
Definition IsPowerOfTwo (w value : N) : bool :=
  if value =? 0 then false else N.land value (usub w value 1) =? 0.

(** am-bits.h:174-179. *)
Definition Align (w : N) (debug : bool) (count alignment : N) : outcome N :=
  do _ <- assert_ debug (IsPowerOfTwo w alignment);
  if alignment =? 0 then Fault BadArg (* division by zero *)
  else Ok (uadd w count (usub w alignment (count mod alignment) mod alignment)).

(** am-bits.h:240-246. *)
Definition IsAligned (w : N) (debug : bool) (addr alignment : N) : outcome bool :=
  do _ <- assert_ debug (IsPowerOfTwo w alignment);
  Ok (N.land addr (usub w alignment 1) =? 0).

(** am-bits.h:248-253: [addr & ~(alignment - 1)]. *)
Definition AlignedBase (w : N) (debug : bool) (addr alignment : N) : outcome N :=
  do _ <- assert_ debug (IsPowerOfTwo w alignment);
  Ok (N.land addr (N.lnot (usub w alignment 1) w)).

(** ** Overflow guards *)

(** am-bits.h:181-190 with T of [w] bits and [log2] the Log2 overload that is selected. *)
Definition IsUintAddSafe (log2 : N -> outcome N) (w a b : N) : outcome bool :=
  if (a =? 0) || (b =? 0) then Ok true
  else
    do la <- log2 a;
    do lb <- log2 b;
    Ok ((la <? w) && (lb <? w)).

(** am-bits.h:210-220. *)
Definition IsUintMultiplySafe (log2 : N -> outcome N) (w a b : N) : outcome bool :=
  if (a <=? 1) || (b <=? 1) then Ok true
  else
    do la <- log2 a;
    do lb <- log2 b;
    Ok (la + lb <? w).

(** ** Pointer tag bits *)

(** am-bits.h:255-258. *)
Definition SetPointerBits (ptr bits : N) : N := N.lor ptr bits.

(** The expression [(1 << NumBits) - 1] of type int, am-bits.h:262,267. *)
Definition int_mask (NumBits : N) : outcome N :=
  if 32 <=? NumBits then Fault BadShift
  else if NumBits =? 31 then Fault SignedOverflow  (* INT_MIN - 1 *)
  else Ok (2 ^ NumBits - 1).

(** am-bits.h:260-263. *)
Definition GetPointerBits (NumBits ptr : N) : outcome N :=
  do m <- int_mask NumBits; Ok (N.land ptr m).

(** am-bits.h:265-268. *)
Definition ClearPointerBits (w NumBits ptr : N) : outcome N :=
  do m <- int_mask NumBits; Ok (N.land ptr (N.lnot m w)).

(** ** amtl/am-arithmetic.h.  The result is (return value, new value of *out). *)

(** am-arithmetic.h:36-45. *)
Definition TryUint64Multiply (left right out : N) : bool * N :=
  let r := umul 64 left right in
  if negb (r =? 0) && negb (r / left =? right) then (false, out) else (true, r).

(** am-arithmetic.h:47-54 (w = 32) and 56-63 (w = 64). *)
Definition TryUintAdd (w left right out : N) : bool * N :=
  if uadd w left right <? N.max left right then (false, out)
  else (true, uadd w left right).
