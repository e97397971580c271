(** Model of the free hash functions of amtl/am-hashtable.h:555-654.  Machine integers are [Z]. *)
From Verif Require Import Base.
Local Open Scope Z_scope.

(** How signed arithmetic is compiled: ISO C++17 (negative or overflowing left shifts are undefined), ISO C++20
    (left shift is modular), or with -fwrapv (nothing is undefined). *)
(** The integer arithmetic of am-hashtable.h:587-654 under three dialects. *)
Inductive sem := Cxx17 | Cxx20 | Wrapv.

(** Conversion to a signed / unsigned integer of [w] bits. *)
(** Conversion to int32_t / int64_t at am-hashtable.h:587-654. *)
Definition swrap (w x : Z) : Z := (x + 2 ^ (w - 1)) mod 2 ^ w - 2 ^ (w - 1).
(** Conversion to uint32_t / uint64_t at am-hashtable.h:558-654. *)
Definition zwrap (w x : Z) : Z := x mod 2 ^ w.
(** The range of a signed type (am-hashtable.h:587-654). *)
Definition in_signed (w x : Z) : bool := (- 2 ^ (w - 1) <=? x) && (x <? 2 ^ (w - 1)).

(** Signed + and * at am-hashtable.h:587-654. *)
Definition sarith (m : sem) (w x : Z) : outcome Z :=
  match m with
  | Wrapv => Ok (swrap w x)
  | _ => if in_signed w x then Ok x else Fault SignedOverflow
  end.
(** Signed + at am-hashtable.h:587-654. *)
Definition sadd (m : sem) (w a b : Z) : outcome Z := sarith m w (a + b).
(** Signed * at am-hashtable.h:587-654. *)
Definition smul (m : sem) (w a b : Z) : outcome Z := sarith m w (a * b).
Definition sshl (m : sem) (w a s : Z) : outcome Z :=
  match m with
  | Cxx17 => if (a <? 0) || (2 ^ w <=? a * 2 ^ s) then Fault BadShift else Ok (swrap w (a * 2 ^ s))
  | _ => Ok (swrap w (a * 2 ^ s))
  end.

(** am-hashtable.h:558-584.  A hasher is its [hash] field; a char is its (possibly negative) value. *)
Definition hasher0 : Z := 0.
Definition add_char (hash c : Z) : Z :=
  let hash := zwrap 32 (hash + c) in
  let hash := zwrap 32 (hash + zwrap 32 (Z.shiftl hash 10)) in
  Z.lxor hash (Z.shiftr hash 6).
(** am-hashtable.h:573-576. *)
Definition add_chars (hash : Z) (s : list Z) : Z := fold_left add_char s hash.
(** am-hashtable.h:578-583.  It assigns to the field, so the returned value is also the new state. *)
Definition result (hash : Z) : Z :=
  let hash := zwrap 32 (hash + zwrap 32 (Z.shiftl hash 3)) in
  let hash := Z.lxor hash (Z.shiftr hash 11) in
  zwrap 32 (hash + zwrap 32 (Z.shiftl hash 15)).
(** am-hashtable.h:586-592. *)
Definition HashCharSequence (s : list Z) : Z := result (add_chars hasher0 s).

(** am-hashtable.h:594-601. *)
Definition FastHashCharSequence (s : list Z) : Z :=
  fold_left (fun hash c =>
    zwrap 32 (zwrap 32 (zwrap 32 (c + zwrap 32 (Z.shiftl hash 6)) + zwrap 32 (Z.shiftl hash 16)) - hash)) s 0.

(** am-hashtable.h:603-613; [>>] on a negative value is the arithmetic shift. *)
Definition HashInt32 (m : sem) (a : Z) : outcome Z :=
  let a := Z.lxor (Z.lxor a 61) (Z.shiftr a 16) in
  do t <- sshl m 32 a 3;
  do a <- sadd m 32 a t;
  let a := Z.lxor a (Z.shiftr a 4) in
  do a <- smul m 32 a 0x27d4eb2d;
  let a := Z.lxor a (Z.shiftr a 15) in
  Ok (zwrap 32 a).

(** am-hashtable.h:615-626.  [key ^ (uint64_t(key) >> k)] is unsigned and converted back. *)
Definition xorshift64 (key k : Z) : Z := swrap 64 (Z.lxor (zwrap 64 key) (Z.shiftr (zwrap 64 key) k)).
Definition HashInt64_mix (m : sem) (key : Z) : outcome Z :=
  do t <- sshl m 64 key 18;
  do key <- sadd m 64 (Z.lnot key) t;
  let key := xorshift64 key 31 in
  do key <- smul m 64 key 21;
  let key := xorshift64 key 11 in
  do t <- sshl m 64 key 6;
  do key <- sadd m 64 key t;
  Ok (xorshift64 key 22).
Definition HashInt64 (m : sem) (key : Z) : outcome Z :=
  do k <- HashInt64_mix m key; Ok (zwrap 32 k).

(** am-hashtable.h:628-649: a pointer value of [psize] bytes (4 or 8); uint32_t -> int32_t conversion. *)
Definition HashPointer (m : sem) (psize : Z) (p : Z) : outcome Z :=
  if psize =? 4 then HashInt32 m (swrap 32 (zwrap 32 p)) else HashInt64 m (swrap 64 p).

(** am-hashtable.h:651-654. *)
Definition HashCombine (first second : Z) : Z :=
  Z.lxor first (zwrap 32 (zwrap 32 (zwrap 32 (second + 0x9e3779b9) + zwrap 32 (Z.shiftl first 6)) + Z.shiftr second 2)).
