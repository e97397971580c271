(** Proofs about the helpers of am-utility.h. *)
From Verif Require Import Base UtilModel UtilSpec.
Local Open Scope Z_scope.

Lemma land_pow2_0 a k : 0 <= k -> (Z.land a (2 ^ k - 1) =? 0) = true <-> (2 ^ k | a).
Proof.
  intros Hk.
  replace (2 ^ k - 1) with (Z.ones k) by (rewrite Z.ones_equiv; lia).
  rewrite Z.land_ones by lia. rewrite Z.eqb_eq.
  assert (0 < 2 ^ k) by (apply Z.pow_pos_nonneg; lia).
  split; intros H1; [apply Z.mod_divide in H1|apply Z.mod_divide]; auto; lia.
Qed.
Lemma land_self_pred a : 0 < a -> Z.land a (a - 1) = 0 -> power_of_two a.
Proof.
  intros Ha H. exists (Z.log2 a). split; [apply Z.log2_nonneg|].
  destruct (Z.log2_spec a Ha) as [H1 H2].
  assert (Hk := Z.log2_nonneg a).
  destruct (Z.eq_dec a (2 ^ Z.log2 a)) as [E|E]; auto. exfalso.
  assert (Hl : Z.log2 (a - 1) = Z.log2 a) by (apply Z.log2_unique; lia).
  assert (Hb := Z.bit_log2 a Ha).
  assert (Hp : 0 < 2 ^ Z.log2 a) by (apply Z.pow_pos_nonneg; lia).
  assert (Hb2 : Z.testbit (a - 1) (Z.log2 a) = true) by (rewrite <- Hl; apply Z.bit_log2; lia).
  assert (Z.testbit (Z.land a (a - 1)) (Z.log2 a) = true) by (rewrite Z.land_spec, Hb, Hb2; reflexivity).
  rewrite H, Z.bits_0 in *. discriminate.
Qed.
Ltac pows := change (2 ^ 64) with 18446744073709551616 in *; change (2 ^ 32) with 4294967296 in *;
  change (2 ^ 16) with 65536 in *; change (2 ^ 8) with 256 in *; change (2 ^ (64 - 1)) with 9223372036854775808 in *;
  change (2 ^ (32 - 1)) with 2147483648 in *; change (2 ^ (16 - 1)) with 32768 in *; change (2 ^ (8 - 1)) with 128 in *.

Lemma convert_id t x : 0 < bits t -> value_of (bits t) (sgn t) x -> convert t x = x.
Proof.
  unfold value_of, convert. intros Hb. assert (Hp : 2 ^ bits t = 2 * 2 ^ (bits t - 1)).
  { rewrite <- Z.pow_succ_r by lia. f_equal. lia. }
  assert (0 < 2 ^ (bits t - 1)) by (apply Z.pow_pos_nonneg; lia).
  destruct (sgn t); cbn [andb]; intros Hx.
  - destruct (Z.ltb_spec x 0).
    + replace (x mod 2 ^ bits t) with (x + 2 ^ bits t).
      * destruct (Z.leb_spec (2 ^ (bits t - 1)) (x + 2 ^ bits t)); lia.
      * rewrite <- (Z.mod_small (x + 2 ^ bits t) (2 ^ bits t)) at 1 by lia.
        rewrite <- (Z_mod_plus_full x 1 (2 ^ bits t)) at 1. f_equal. lia.
    + rewrite Z.mod_small by lia. destruct (Z.leb_spec (2 ^ (bits t - 1)) x); lia.
  - now apply Z.mod_small.
Qed.
Lemma convert_mod t x y : x mod 2 ^ bits t = y mod 2 ^ bits t -> convert t x = convert t y.
Proof. unfold convert. now intros ->. Qed.
Lemma mod_mod_le x a b : 0 <= a <= b -> (x mod 2 ^ b) mod 2 ^ a = x mod 2 ^ a.
Proof.
  intros H. symmetry. apply Znumtheory.Zmod_div_mod; try (apply Z.pow_pos_nonneg; lia).
  exists (2 ^ (b - a)). rewrite <- Z.pow_add_r by lia. f_equal. lia.
Qed.
Lemma through_id p t x : 0 < bits t <= p -> value_of (bits t) (sgn t) x -> through_slot p t x = x.
Proof.
  intros H Hx. unfold through_slot, cast_to_pointer, to_unsigned.
  rewrite (convert_mod t _ x); [now apply convert_id|]. apply mod_mod_le. lia.
Qed.

(** The mask, for positive alignments. *)
Lemma minus1_pos t a : int_width (bits t) -> value_of (bits t) (sgn t) a -> 0 < a -> minus1 t a = Ok (a - 1).
Proof.
  unfold minus1, value_of, int_width, promote. intros Hw Ha H0.
  destruct t as [w s]. cbn [bits sgn] in *.
  destruct Hw as [ -> | [ -> | [ -> | -> ]]], s;
    change (8 <? 32) with true in *; change (16 <? 32) with true in *; change (32 <? 32) with false in *;
    change (64 <? 32) with false in *; unfold fits, to_unsigned, int_ty; cbn [sgn bits]; pows;
    try (rewrite Z.mod_small by lia; reflexivity);
    match goal with |- context [if ?b then _ else _] => assert (b = true) as -> by lia; reflexivity end.
Qed.
Lemma is_aligned_eq p t addr a :
  pointer_width p -> int_width (bits t) -> value_of (bits t) (sgn t) a -> 0 < a -> address p addr ->
  IS_ALIGNED p t addr a = Ok (Z.land addr (a - 1) =? 0).
Proof.
  intros Hp Hw Ha H0 Hd. unfold IS_ALIGNED. rewrite (minus1_pos t a) by assumption. cbn [bind].
  assert (E : to_unsigned p addr = addr) by (apply Z.mod_small; assumption). rewrite E.
  f_equal. f_equal. unfold pointer_width, int_width, address, value_of, promote in *. destruct t as [w s]. cbn [bits sgn] in *.
  f_equal; apply convert_id;
  destruct Hp as [-> | ->], Hw as [ -> | [ -> | [ -> | -> ]]], s;
  cbn -[Z.pow Z.sub]; unfold value_of; cbn -[Z.pow Z.sub]; pows; lia.
Qed.
Lemma zero_from_spec l : forall n, (n <= length l)%nat -> zero_from l n = Ok (repeat 0 n ++ skipn n l).
Proof.
  induction l as [|x l IH]; intros [|n] H; cbn in *; try lia; auto.
  rewrite IH by lia. reflexivity.
Qed.
Lemma zero_from_short l : forall n, (length l < n)%nat -> zero_from l n = Fault OutOfBounds.
Proof.
  induction l as [|x l IH]; intros [|n] H; cbn in *; try lia; auto.
  rewrite IH by lia. reflexivity.
Qed.
