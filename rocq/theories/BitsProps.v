(** Properties C18-C27: bit tricks and checked arithmetic.  Only statements here; the machine words are the
    [n < 2 ^ w], [debug] ranges over both build modes. *)
From Verif Require Import Base BitsModel BitsSpec BitsProofs.
Local Open Scope N_scope.

(** ** C18 *)

(** Full statement: [forall long_bits, long_bits = 32 \/ long_bits = 64 -> ...] for the GCC branch of
    FindLeftmostBit64; it fails for 32-bit [long] (refuted below), so this is the part that holds. *)
Theorem C18_find_bits_exact_partial :
  (forall d n, n <> 0 -> n < 2 ^ 32 ->
     (exists k, FindLeftmostBit32_gcc d n = Ok k /\ highest_bit n k) /\
     (exists k, FindLeftmostBit32_msvc d n = Ok k /\ highest_bit n k)) /\
  (forall x64 d n, n <> 0 -> n < 2 ^ 64 ->
     (exists k, FindLeftmostBit64_gcc 64 d n = Ok k /\ highest_bit n k) /\
     (exists k, FindLeftmostBit64_msvc x64 d n = Ok k /\ highest_bit n k)) /\
  (forall w d n, n <> 0 -> n < 2 ^ w ->
     exists k, FindRightmostBit w d n = Ok k /\ lowest_bit n k).
Proof.
  exact (conj
    (fun d n H1 H2 => conj
      (ex_intro _ _ (conj (FindLeftmostBit32_gcc_log2 d n H1 H2) (highest_bit_log2 n H1)))
      (ex_intro _ _ (conj (FindLeftmostBit32_msvc_log2 d n H1) (highest_bit_log2 n H1))))
    (conj
    (fun x64 d n H1 H2 => conj
      (ex_intro _ _ (conj (FindLeftmostBit64_gcc_log2 d n H1 H2) (highest_bit_log2 n H1)))
      (ex_intro _ _ (conj (FindLeftmostBit64_msvc_log2 x64 d n H1 H2) (highest_bit_log2 n H1))))
    FindRightmostBit_lowest)).
Qed.
Print Assumptions C18_find_bits_exact_partial.

(** With a 32-bit [long], FindLeftmostBit64 is wrong for every input: it returns 32 plus the highest bit of
    the low word, or is undefined when the low word is 0. *)
Theorem C18_find_leftmost64_gcc_ilp32_refuted :
  exists d n, n <> 0 /\ n < 2 ^ 64 /\
    ~ exists k, FindLeftmostBit64_gcc 32 d n = Ok k /\ highest_bit n k.
Proof.
  exists false, 127. split; [lia|]. split; [reflexivity|].
  intros (k & E & H). vm_compute in E. injection E as <-.
  destruct H as [H _]. vm_compute in H. discriminate.
Qed.
Print Assumptions C18_find_leftmost64_gcc_ilp32_refuted.

Theorem C18_find_leftmost64_gcc_ilp32_actual :
  forall d n, n <> 0 -> n < 2 ^ 64 ->
  FindLeftmostBit64_gcc 32 d n =
    if n mod 2 ^ 32 =? 0 then Fault BadArg else Ok (32 + N.log2 (n mod 2 ^ 32)).
Proof. exact (fun d n H _ => FindLeftmostBit64_gcc32_char d n H). Qed.
Print Assumptions C18_find_leftmost64_gcc_ilp32_actual.

Example C18_nonvacuous :
  FindLeftmostBit64_gcc 64 true 0x8000000000000001 = Ok 63 /\
  FindLeftmostBit64_msvc false true 0x123456789abcdef0 = Ok 60 /\
  FindLeftmostBit32_gcc true 0x80000000 = Ok 31 /\ FindRightmostBit 64 true 0x1000000000000 = Ok 48.
Proof. repeat split. Qed.

(** ** C19 *)

(** Full statement: [forall n, n <> 0 -> n < 2 ^ 64 -> exists k, Log2 n = Ok k /\ highest_bit n k] on every
    compiler.  Proved for MSVC, and for GCC/Clang when n fits 32 bits. *)
Theorem C19_log2_exact_partial :
  (forall x64 d n, n <> 0 -> n < 2 ^ 64 ->
     exists k, Log2_msvc64 x64 d n = Ok k /\ highest_bit n k) /\
  (forall d n, n <> 0 -> n < 2 ^ 32 ->
     (exists k, Log2_msvc32 d n = Ok k /\ highest_bit n k) /\
     (exists k, Log2_gcc d n = Ok k /\ highest_bit n k)).
Proof.
  exact (conj
    (fun x64 d n H1 H2 =>
      ex_intro _ _ (conj (Log2_msvc64_log2 x64 d n H1 H2) (highest_bit_log2 n H1)))
    (fun d n H1 H2 => conj
      (ex_intro _ _ (conj (Log2_msvc32_log2 d n H1 H2) (highest_bit_log2 n H1)))
      (ex_intro _ _ (conj (Log2_gcc_log2 d n H1 H2) (highest_bit_log2 n H1))))).
Qed.
Print Assumptions C19_log2_exact_partial.

(** The GCC/Clang branch is wrong for EVERY size_t value of 2^32 and above. *)
Theorem C19_log2_gcc_64bit_refuted :
  forall d n, n <> 0 -> 2 ^ 32 <= n -> ~ exists k, Log2_gcc d n = Ok k /\ highest_bit n k.
Proof. exact log2_gcc_wrong_above_2_32. Qed.
Print Assumptions C19_log2_gcc_64bit_refuted.

Example C19_nonvacuous :
  Log2_gcc true 0xffffffff = Ok 31 /\ Log2_gcc true (2 ^ 40 + 5) = Ok 2 /\
  Log2_gcc false (2 ^ 40) = Fault BadArg /\ Log2_msvc64 false true (2 ^ 40 + 5) = Ok 40.
Proof. repeat split. Qed.

(** ** C20 *)
Theorem C20_is_power_of_two :
  forall w n, n < 2 ^ w -> (IsPowerOfTwo w n = true <-> exists k, n = 2 ^ k).
Proof. exact IsPowerOfTwo_iff. Qed.
Print Assumptions C20_is_power_of_two.
Example C20_nonvacuous : IsPowerOfTwo 64 (2 ^ 63) = true /\ IsPowerOfTwo 64 (2 ^ 63 + 1) = false.
Proof. split; reflexivity. Qed.

(** ** C21 *)
Theorem C21_align_up :
  forall w d count alignment r,
    count < 2 ^ w -> alignment < 2 ^ w -> (exists k, alignment = 2 ^ k) ->
    least_multiple_above alignment count r ->
    Align w d count alignment = Ok (if r <? 2 ^ w then r else 0).
Proof. exact Align_least. Qed.
Print Assumptions C21_align_up.
(** Such an [r] always exists, so the theorem above determines Align completely. *)
Theorem C21_align_up_total :
  forall count alignment, alignment <> 0 -> exists r, least_multiple_above alignment count r.
Proof. exact (fun c a H => ex_intro _ _ (round_up_least a c H)). Qed.
Print Assumptions C21_align_up_total.
Example C21_nonvacuous : Align 64 true 13 8 = Ok 16 /\ Align 64 true 16 8 = Ok 16 /\
  Align 32 true 0xfffffffd 16 = Ok 0.
Proof. repeat split. Qed.

(** ** C22 *)
Theorem C22_is_aligned :
  forall w d addr n, n < 2 ^ w -> (exists k, n = 2 ^ k) ->
  exists b, IsAligned w d addr n = Ok b /\ (b = true <-> exists q, addr = q * n).
Proof. exact IsAligned_divide. Qed.
Print Assumptions C22_is_aligned.
Theorem C22_aligned_base :
  forall w d addr n, addr < 2 ^ w -> n < 2 ^ w -> (exists k, n = 2 ^ k) ->
  exists r, AlignedBase w d addr n = Ok r /\ greatest_multiple_below n addr r.
Proof. exact AlignedBase_greatest. Qed.
Print Assumptions C22_aligned_base.
Example C22_nonvacuous : IsAligned 64 true 24 8 = Ok true /\ IsAligned 64 true 28 8 = Ok false /\
  AlignedBase 64 true 0x12345 4096 = Ok 0x12000.
Proof. repeat split. Qed.

(** ** C23 *)
Theorem C23_pointer_bits :
  forall w nb p t,
    nb <= 30 -> p < 2 ^ w -> (exists q, p = q * 2 ^ nb) -> t < 2 ^ nb -> nb <= w ->
    GetPointerBits nb (SetPointerBits p t) = Ok t /\
    ClearPointerBits w nb (SetPointerBits p t) = Ok p /\
    SetPointerBits p t = p + t.
Proof. exact pointer_bits_roundtrip. Qed.
Print Assumptions C23_pointer_bits.
(** NumBits <= 30 is exactly where [(1 << NumBits) - 1] is defined. *)
Theorem C23_beyond_30_undefined :
  forall w nb p, 31 <= nb ->
    (exists f, GetPointerBits nb p = Fault f) /\ (exists f, ClearPointerBits w nb p = Fault f).
Proof.
  intros w nb p H. unfold GetPointerBits, ClearPointerBits, int_mask.
  destruct (N.leb_spec 32 nb); [split; eexists; reflexivity|].
  replace nb with 31 by lia. split; eexists; reflexivity.
Qed.
Print Assumptions C23_beyond_30_undefined.
Example C23_nonvacuous : GetPointerBits 3 (SetPointerBits 0x7fff1238 5) = Ok 5 /\
  ClearPointerBits 64 3 (SetPointerBits 0x7fff1238 5) = Ok 0x7fff1238.
Proof. split; reflexivity. Qed.

(** ** C24 *)

(** Full statement: [IsUintMultiplySafe .. a b = Ok true <-> a * b < 2 ^ w].  Proved: "unsafe" verdicts are
    right, and "safe" verdicts are wrong by less than a factor of two.  Stated for the Log2 overloads that
    are correct on the type (C19): MSVC on 32 and 64 bits, GCC on 32 bits.  The remaining case, GCC on 64 bits,
    is settled by C24_guards_gcc64_verdict_refuted. *)
Definition right_log2 (w : N) (log2 : N -> outcome N) : Prop :=
  w = 32 /\ (exists d, log2 = Log2_gcc d \/ log2 = Log2_msvc32 d) \/
  w = 64 /\ exists x64 d, log2 = Log2_msvc64 x64 d.
Lemma right_log2_correct w f : right_log2 w f -> log2_correct w f.
Proof.
  intros [(-> & d & [-> | ->])|(-> & x & d & ->)] n.
  - apply Log2_gcc_log2.
  - apply Log2_msvc32_log2.
  - apply Log2_msvc64_log2.
Qed.

Theorem C24_multiply_guard_partial :
  forall w log2 a b, right_log2 w log2 -> a < 2 ^ w -> b < 2 ^ w ->
  exists r, IsUintMultiplySafe log2 w a b = Ok r /\
    (r = true -> a * b < 2 ^ (w + 1)) /\ (r = false -> 2 ^ w <= a * b).
Proof.
  intros w f a b Hf Ha Hb. apply right_log2_correct in Hf. eexists.
  split; [now apply IsUintMultiplySafe_char|].
  exact (IsUintMultiplySafe_sound w f a b _ Hf Ha Hb (IsUintMultiplySafe_char w f a b Hf Ha Hb)).
Qed.
Print Assumptions C24_multiply_guard_partial.

Theorem C24_multiply_guard_refuted :
  (exists a b, a < 2 ^ 32 /\ b < 2 ^ 32 /\ 2 ^ 32 <= a * b /\
     IsUintMultiplySafe (Log2_gcc true) 32 a b = Ok true /\
     IsUintMultiplySafe (Log2_msvc32 true) 32 a b = Ok true) /\
  (exists a b, a < 2 ^ 64 /\ b < 2 ^ 64 /\ 2 ^ 64 <= a * b /\
     IsUintMultiplySafe (Log2_msvc64 true true) 64 a b = Ok true) /\
  (exists a b, a < 2 ^ 64 /\ b < 2 ^ 64 /\ 2 ^ 96 <= a * b /\
     IsUintMultiplySafe (Log2_gcc true) 64 a b = Ok true).
Proof.
  split; [|split].
  - exists 0xffff, 0x1ffff. vm_compute. intuition discriminate.
  - exists 0xffffffff, 0x1ffffffff. vm_compute. intuition discriminate.
  - exists (2 ^ 63 + 1), (2 ^ 63 + 1). vm_compute. intuition discriminate.
Qed.
Print Assumptions C24_multiply_guard_refuted.

(** On GCC/Clang the 64-bit guard is undefined for operands that are multiples of 2^32. *)
Theorem C24_multiply_guard_gcc64_undefined_refuted :
  exists a b, a < 2 ^ 64 /\ b < 2 ^ 64 /\ a * b < 2 ^ 64 /\
     IsUintMultiplySafe (Log2_gcc true) 64 a b = Fault BadArg.
Proof. exists (2 ^ 32), 2. vm_compute. intuition discriminate. Qed.
Print Assumptions C24_multiply_guard_gcc64_undefined_refuted.

(** The complete verdict of the 64-bit guards on GCC/Clang: undefined when an operand above 1 is a multiple of
    2^32, and "safe" in every other case, so a "not safe" verdict does not exist. *)
Theorem C24_guards_gcc64_verdict_refuted :
  forall d a b,
  (1 < a -> 1 < b ->
   IsUintMultiplySafe (Log2_gcc d) 64 a b =
     if (a mod 2 ^ 32 =? 0) || (b mod 2 ^ 32 =? 0) then Fault BadArg else Ok true) /\
  (0 < a -> 0 < b ->
   IsUintAddSafe (Log2_gcc d) 64 a b =
     if (a mod 2 ^ 32 =? 0) || (b mod 2 ^ 32 =? 0) then Fault BadArg else Ok true).
Proof.
  intros d a b. assert (Hlt : forall x, x mod 2 ^ 32 <> 0 -> N.log2 (x mod 2 ^ 32) < 32).
  { intros x Hx. apply N.log2_lt_pow2; [lia|]. apply N.mod_lt. lia. }
  split; intros Ha Hb.
  - unfold IsUintMultiplySafe. rewrite (proj2 (N.leb_gt a 1)), (proj2 (N.leb_gt b 1)) by assumption. cbn [orb].
    rewrite !Log2_gcc_trunc by lia.
    destruct (N.eqb_spec (a mod 2 ^ 32) 0) as [|Ea]; [reflexivity|]. cbn [bind orb].
    destruct (N.eqb_spec (b mod 2 ^ 32) 0) as [|Eb]; [reflexivity|]. cbn [bind].
    apply Hlt in Ea, Eb. f_equal. apply N.ltb_lt. lia.
  - unfold IsUintAddSafe. rewrite (proj2 (N.eqb_neq a 0)), (proj2 (N.eqb_neq b 0)) by lia. cbn [orb].
    rewrite !Log2_gcc_trunc by lia.
    destruct (N.eqb_spec (a mod 2 ^ 32) 0) as [|Ea]; [reflexivity|]. cbn [bind orb].
    destruct (N.eqb_spec (b mod 2 ^ 32) 0) as [|Eb]; [reflexivity|]. cbn [bind].
    apply Hlt in Ea, Eb. f_equal. apply andb_true_iff. rewrite !N.ltb_lt. lia.
Qed.
Print Assumptions C24_guards_gcc64_verdict_refuted.

(** ** C25 *)

(** Full statement: [IsUintAddSafe .. a b = Ok true -> a + b < 2 ^ w].  The only half that holds is that no
    safe addition is rejected; in fact the guard accepts everything. *)
Theorem C25_add_guard_partial :
  forall w log2 a b, right_log2 w log2 -> a < 2 ^ w -> b < 2 ^ w -> IsUintAddSafe log2 w a b = Ok true.
Proof. intros w f a b Hf. apply IsUintAddSafe_always. now apply right_log2_correct. Qed.
Print Assumptions C25_add_guard_partial.
Theorem C25_add_guard_refuted :
  exists a b, a < 2 ^ 32 /\ b < 2 ^ 32 /\ 2 ^ 32 <= a + b /\
    IsUintAddSafe (Log2_gcc true) 32 a b = Ok true /\
    IsUintAddSafe (Log2_msvc32 true) 32 a b = Ok true.
Proof. exists 0xffffffff, 0xffffffff. vm_compute. intuition discriminate. Qed.
Print Assumptions C25_add_guard_refuted.

Example C24_C25_nonvacuous :
  right_log2 32 (Log2_gcc true) /\ right_log2 64 (Log2_msvc64 true true) /\
  IsUintMultiplySafe (Log2_gcc true) 32 0xffff 0x10000 = Ok true /\
  IsUintMultiplySafe (Log2_msvc64 true true) 64 0x100000000 0x200000000 = Ok false /\
  IsUintMultiplySafe (Log2_gcc true) 64 3 5 = Ok true /\
  IsUintAddSafe (Log2_msvc64 true true) 64 0xffffffff 7 = Ok true.
Proof.
  split; [left; split; [reflexivity|]; exists true; now left|].
  split; [right; split; [reflexivity|]; now exists true, true|]. vm_compute. auto.
Qed.

(** ** C26 *)
Theorem C26_try_add_exact :
  forall w left right out,
    (w = 32 \/ w = 64) -> left < 2 ^ w -> right < 2 ^ w ->
    TryUintAdd w left right out =
      if left + right <? 2 ^ w then (true, left + right) else (false, out).
Proof. exact (fun w l r out _ Hl Hr => TryUintAdd_exact w l r out Hl Hr). Qed.
Print Assumptions C26_try_add_exact.
Example C26_nonvacuous : TryUintAdd 32 0xffffffff 1 7 = (false, 7) /\
  TryUintAdd 32 0xfffffffe 1 7 = (true, 0xffffffff).
Proof. split; reflexivity. Qed.

(** ** C27 *)

(** Full statement: as C26 for the product.  It fails exactly when the product is a non-zero multiple of
    2^64; this theorem gives the result for all inputs. *)
Theorem C27_try_multiply_partial :
  forall left right out, left < 2 ^ 64 -> right < 2 ^ 64 ->
    ((left * right) mod 2 ^ 64 <> 0 \/ left * right < 2 ^ 64 ->
     TryUint64Multiply left right out =
       if left * right <? 2 ^ 64 then (true, left * right) else (false, out)) /\
    ((left * right) mod 2 ^ 64 = 0 -> TryUint64Multiply left right out = (true, 0)).
Proof.
  intros l r out Hl Hr. rewrite TryUint64Multiply_char by assumption. split.
  - intros [H|H].
    + rewrite (proj2 (N.eqb_neq _ _) H), orb_false_r.
      destruct (N.ltb_spec (l * r) (2 ^ 64)) as [Hs|]; [now rewrite N.mod_small by exact Hs|reflexivity].
    + rewrite (proj2 (N.ltb_lt _ _) H), N.mod_small by exact H. reflexivity.
  - intros E. rewrite E. now rewrite orb_true_r.
Qed.
Print Assumptions C27_try_multiply_partial.
Theorem C27_try_multiply_refuted :
  exists left right out, left < 2 ^ 64 /\ right < 2 ^ 64 /\ 2 ^ 64 <= left * right /\
    TryUint64Multiply left right out = (true, 0).
Proof. exists (2 ^ 32), (2 ^ 32), 7. vm_compute. intuition discriminate. Qed.
Print Assumptions C27_try_multiply_refuted.
Example C27_nonvacuous : TryUint64Multiply (2 ^ 63) 3 9 = (false, 9) /\
  TryUint64Multiply (2 ^ 32) (2 ^ 32 - 1) 9 = (true, 2 ^ 64 - 2 ^ 32).
Proof. split; reflexivity. Qed.
