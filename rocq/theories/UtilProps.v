(** C114-C115: the helpers of am-utility.h. *)
From Verif Require Import Base UtilModel UtilSpec UtilProofs.
Local Open Scope Z_scope.

(** C114.  IS_ALIGNED never faults on a positive alignment of any integer type, and it answers whether the alignment divides the
    address for every address exactly when the alignment is a power of two. *)
Theorem C114_is_aligned p w s alignment :
  pointer_width p -> int_width w -> value_of w s alignment -> 0 < alignment < 2 ^ p ->
  (forall addr, address p addr -> exists b, IS_ALIGNED p (Ity w s) addr alignment = Ok b) /\
  ((forall addr, address p addr ->
      (IS_ALIGNED p (Ity w s) addr alignment = Ok true <-> (alignment | addr)))
   <-> power_of_two alignment).
Proof.
  intros Hp Hw Ha H0. split; [|split].
  - intros addr Hd. eexists. apply (is_aligned_eq p (Ity w s)); auto; lia.
  - intros H. apply land_self_pred; [lia|].
    assert (Hd : address p alignment) by (unfold address; lia).
    assert (Hx := proj2 (H alignment Hd) (Z.divide_refl _)).
    rewrite (is_aligned_eq p (Ity w s)) in Hx by (auto; lia). injection Hx as Hx. now apply Z.eqb_eq.
  - intros (k & Hk & ->) addr Hd. rewrite (is_aligned_eq p (Ity w s)) by (auto; lia).
    rewrite <- (land_pow2_0 addr k Hk). split; [intros [=H]; auto|now intros ->].
Qed.

(** C114.  An alignment of 0: with a signed type, or an unsigned type as wide as the address, only the null address passes; an
    unsigned 32-bit 0 on a 64-bit platform tests the low half of the address only. *)
Theorem C114_zero_alignment p w s addr :
  pointer_width p -> int_width w -> address p addr ->
  IS_ALIGNED p (Ity w s) addr 0 =
  Ok (if negb s && (w =? 32) && (p =? 64) then addr mod 2 ^ 32 =? 0 else addr =? 0).
Proof.
  unfold pointer_width, int_width, address. intros Hp Hw Hd.
  assert (L32 : forall a, Z.land a 4294967295 = a mod 4294967296).
  { intros a. change 4294967295 with (Z.ones 32). now rewrite Z.land_ones by lia. }
  assert (L64 : forall a, Z.land a 18446744073709551615 = a mod 18446744073709551616).
  { intros a. change 18446744073709551615 with (Z.ones 64). now rewrite Z.land_ones by lia. }
  destruct Hp as [-> | ->], Hw as [ -> | [ -> | [ -> | -> ]]], s; pows; cbn -[Z.land Z.modulo convert]; unfold to_unsigned; pows;
    rewrite ?(Z.mod_small addr) by assumption;
    rewrite ?(convert_id (Ity 32 false) addr), ?(convert_id (Ity 64 false) addr), ?(convert_id (Ity 64 true) addr)
      by (cbn -[Z.pow Z.sub]; pows; lia);
    match goal with |- context [convert ?t ?m] => let v := eval vm_compute in (convert t m) in change (convert t m) with v end;
    rewrite ?L32, ?L64, ?Z.land_m1_r, ?(Z.mod_small addr) by lia; reflexivity.
Qed.

(** C114.  The most negative value of a signed type: the subtraction overflows, for int, long and long long alike. *)
Theorem C114_most_negative p w addr :
  w = 32 \/ w = 64 -> IS_ALIGNED p (Ity w true) addr (- 2 ^ (w - 1)) = Fault SignedOverflow.
Proof. intros [-> | ->]; reflexivity. Qed.

(** C114.  That is the only alignment, of any type, for which IS_ALIGNED has no answer. *)
Theorem C114_only_fault p w s addr alignment :
  int_width w -> value_of w s alignment ->
  (exists b, IS_ALIGNED p (Ity w s) addr alignment = Ok b) \/
  (s = true /\ (w = 32 \/ w = 64) /\ alignment = - 2 ^ (w - 1)).
Proof.
  intros Hw Ha. unfold IS_ALIGNED, minus1.
  assert (D : (exists m, (let t := promote (Ity w s) in
      if sgn t then (if fits t (alignment - 1) then Ok (alignment - 1) else Fault SignedOverflow)
      else Ok (to_unsigned (bits t) (alignment - 1))) = Ok m) \/ (s = true /\ (w = 32 \/ w = 64) /\ alignment = - 2 ^ (w - 1))).
  { destruct Hw as [ -> | [ -> | [ -> | -> ]]], s; cbn [promote bits sgn int_ty Z.ltb Z.compare Pos.compare Pos.compare_cont];
      unfold fits, int_ty; cbn [sgn bits]; unfold value_of in Ha; pows; try (left; eexists; reflexivity);
      destruct (- _ <=? alignment - 1) eqn:E1; destruct (alignment - 1 <? _) eqn:E2; cbn [andb]; try (left; eexists; reflexivity); try lia;
      right; lia. }
  destruct D as [[m D]|D]; [left|right; exact D]. cbv zeta in D |- *. rewrite D. cbn [bind]. eauto.
Qed.
Print Assumptions C114_only_fault.

(** C114.  ARRAY_LENGTH of an array of [n] elements of [elt] bytes is [n]. *)
Theorem C114_array_length p n elt :
  pointer_width p -> 0 < n -> 0 < elt -> n * elt < 2 ^ p -> ARRAY_LENGTH p (n * elt) elt = Ok n.
Proof.
  intros Hp Hn He Hs. unfold ARRAY_LENGTH, to_unsigned.
  destruct (Z.eqb_spec elt 0); [lia|].
  rewrite !Z.mod_small by nia. now rewrite Z.div_mul by lia.
Qed.
(** C114.  Given a pointer instead of an array, it does not depend on the array at all: it is the number of elements that fit
    into a pointer, hence 0 for every element type bigger than a pointer. *)
Theorem C114_array_length_of_pointer p elt :
  pointer_width p -> 0 < elt < 2 ^ p -> ARRAY_LENGTH p (p / 8) elt = Ok (p / 8 / elt).
Proof.
  intros Hp He. unfold ARRAY_LENGTH, to_unsigned. destruct (Z.eqb_spec elt 0); [lia|].
  rewrite (Z.mod_small elt) by lia. rewrite Z.mod_small; auto.
  destruct Hp as [-> | ->]; pows; cbn; lia.
Qed.

(** C114.  MemsetZero clears the bytes of the object and no other byte, for every object inside the memory. *)
Theorem C114_memset_zero before object after :
  MemsetZero (before ++ object ++ after) (Some (length before)) (length object) =
  Ok (before ++ repeat 0 (length object) ++ after).
Proof.
  unfold MemsetZero. rewrite (proj2 (Nat.leb_le _ _)) by (rewrite app_length; lia).
  rewrite skipn_app, firstn_app, Nat.sub_diag, skipn_all, firstn_all, app_nil_r. cbn [skipn app].
  rewrite zero_from_spec by (rewrite app_length; lia). cbn [bind].
  rewrite skipn_app, Nat.sub_diag, skipn_all. reflexivity.
Qed.

(** C115.  A value of an integer type put into a ThreadLocal comes back unchanged, for every value of the type, exactly when the
    type is no wider than a pointer. *)
Theorem C115_thread_local_values_partial p w s :
  pointer_width p -> int_width w ->
  ((forall x, value_of w s x -> through_slot p (Ity w s) x = x) <-> w <= p).
Proof.
  intros Hp Hw. split.
  - intros H. destruct (Z.le_gt_cases w p) as [L|L]; auto. exfalso.
    destruct Hp as [-> | ->], Hw as [ -> | [ -> | [ -> | -> ]]]; try lia.
    specialize (H 4294967296). destruct s; cbn -[through_slot Z.pow Z.sub] in H; pows;
      specialize (H ltac:(lia)); vm_compute in H; discriminate.
  - intros H x Hx. apply through_id; auto. cbn. destruct Hw as [ -> | [ -> | [ -> | -> ]]]; lia.
Qed.
(** C115.  The same bound for telling values apart by the pointers cast_to_pointer makes of them. *)
Theorem C115_cast_to_pointer_partial p w s :
  pointer_width p -> int_width w ->
  ((forall x y, value_of w s x -> value_of w s y -> cast_to_pointer p x = cast_to_pointer p y -> x = y) <-> w <= p).
Proof.
  intros Hp Hw. split.
  - intros H. destruct (Z.le_gt_cases w p) as [L|L]; auto. exfalso.
    destruct Hp as [-> | ->], Hw as [ -> | [ -> | [ -> | -> ]]]; try lia.
    specialize (H 4294967296 0). destruct s; cbn -[cast_to_pointer Z.pow Z.sub] in H; pows;
      specialize (H ltac:(lia) ltac:(lia) eq_refl); discriminate.
  - intros H x y Hx Hy E.
    rewrite <- (through_id p (Ity w s) x), <- (through_id p (Ity w s) y); auto;
      try (cbn; destruct Hw as [ -> | [ -> | [ -> | -> ]]]; lia).
    unfold through_slot. now rewrite E.
Qed.
(** C115 fails for 64-bit integers on a 32-bit platform: every value outside 0 .. 2^32-1, all negative ones included, comes back
    different. *)
Theorem C115_wide_values_refuted s x :
  value_of 64 s x -> (through_slot 32 (Ity 64 s) x = x <-> 0 <= x < 2 ^ 32).
Proof.
  intros Hx. unfold through_slot, cast_to_pointer, to_unsigned.
  assert (Hr : 0 <= x mod 2 ^ 32 < 2 ^ 32) by (apply Z.mod_pos_bound; reflexivity).
  rewrite convert_id; [|cbn; lia|].
  - split; [intros <-; assumption|apply Z.mod_small].
  - destruct s; cbn -[Z.pow Z.sub Z.modulo]; pows; lia.
Qed.

Print Assumptions C114_is_aligned.
Print Assumptions C114_zero_alignment.
Print Assumptions C114_most_negative.
Print Assumptions C114_array_length.
Print Assumptions C114_array_length_of_pointer.
Print Assumptions C114_memset_zero.
Print Assumptions C115_thread_local_values_partial.
Print Assumptions C115_cast_to_pointer_partial.
Print Assumptions C115_wide_values_refuted.

(** The hypotheses are met: 48 is 16-aligned and not 32-aligned; with the alignment 24, which is no power of two, the
    multiple 24 fails the test and 8, which is no multiple, passes it. *)
Example ex_aligned :
  IS_ALIGNED 64 (Ity 32 true) 48 16 = Ok true /\ IS_ALIGNED 64 (Ity 8 false) 48 32 = Ok false /\
  IS_ALIGNED 32 (Ity 64 true) 4096 4096 = Ok true /\
  IS_ALIGNED 64 (Ity 32 true) 24 24 = Ok false /\ IS_ALIGNED 64 (Ity 32 true) 8 24 = Ok true /\ power_of_two 16.
Proof. repeat split; try reflexivity. exists 4. split; [lia|reflexivity]. Qed.
Example ex_zero_low_half : IS_ALIGNED 64 (Ity 32 false) (2 ^ 32) 0 = Ok true /\ IS_ALIGNED 64 (Ity 32 true) (2 ^ 32) 0 = Ok false.
Proof. split; reflexivity. Qed.
Example ex_array : ARRAY_LENGTH 64 (5 * 24) 24 = Ok 5 /\ ARRAY_LENGTH 64 8 24 = Ok 0.
Proof. split; reflexivity. Qed.
Example ex_memset : MemsetZero [1; 2; 3; 4] (Some 1%nat) 2 = Ok [1; 0; 0; 4] /\ MemsetZero [1] (Some 0%nat) 2 = Fault OutOfBounds.
Proof. split; reflexivity. Qed.
Example ex_slot : through_slot 64 (Ity 32 true) (-7) = -7 /\ through_slot 32 (Ity 64 true) (-7) = 2 ^ 32 - 7.
Proof. split; reflexivity. Qed.
