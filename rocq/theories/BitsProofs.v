(** Proofs about the bit tricks of am-bits.h and am-arithmetic.h. *)
From Verif Require Import Base BitsModel BitsSpec.
Local Open Scope N_scope.

Lemma highest_bit_log2 n : n <> 0 -> highest_bit n (N.log2 n).
Proof.
  intros Hn; split; [now apply N.bit_log2|].
  intros j Hj; now apply N.bits_above_log2.
Qed.

Lemma highest_bit_unique n j k : highest_bit n j -> highest_bit n k -> j = k.
Proof.
  intros [Hj1 Hj2] [Hk1 Hk2].
  destruct (N.lt_trichotomy j k) as [H|[H|H]]; auto.
  - rewrite (Hj2 _ H) in Hk1; discriminate.
  - rewrite (Hk2 _ H) in Hj1; discriminate.
Qed.

Lemma highest_bit_log2_eq n k : n <> 0 -> highest_bit n k -> k = N.log2 n.
Proof. intros Hn H. eapply highest_bit_unique; [exact H|now apply highest_bit_log2]. Qed.

Lemma highest_bit_bounds n k : n <> 0 -> highest_bit n k <-> 2 ^ k <= n < 2 ^ (k + 1).
Proof.
  intros Hn; split.
  - intros H. rewrite (highest_bit_log2_eq _ _ Hn H).
    rewrite N.add_1_r. apply N.log2_spec. lia.
  - intros H. replace k with (N.log2 n); [now apply highest_bit_log2|].
    apply N.log2_unique; [lia|]. rewrite <- N.add_1_r. exact H.
Qed.

Lemma pos_ctz_spec p : lowest_bit (Npos p) (pos_ctz p).
Proof.
  induction p as [p IH|p IH|]; cbn [pos_ctz].
  - split; [reflexivity|intros j Hj; lia].
  - destruct IH as [H1 H2]. change (N.pos p~0) with (N.double (N.pos p)).
    rewrite N.double_spec. split.
    + now rewrite N.testbit_even_succ by lia.
    + intros j Hj. destruct (N.eq_dec j 0) as [->|Hne].
      * now rewrite N.testbit_even_0.
      * rewrite <- (N.succ_pred j) by lia. rewrite N.testbit_even_succ by lia.
        apply H2; lia.
  - split; [reflexivity|intros j Hj; lia].
Qed.

Lemma lowest_bit_unique n j k : lowest_bit n j -> lowest_bit n k -> j = k.
Proof.
  intros [Hj1 Hj2] [Hk1 Hk2].
  destruct (N.lt_trichotomy j k) as [H|[H|H]]; auto.
  - rewrite (Hk2 _ H) in Hj1; discriminate.
  - rewrite (Hj2 _ H) in Hk1; discriminate.
Qed.

Lemma assert_true {A} debug c (k : outcome A) : c = true -> (do _ <- assert_ debug c; k) = k.
Proof. intros ->. unfold assert_. now rewrite andb_false_r. Qed.

Lemma nz n : n <> 0 -> negb (n =? 0) = true.
Proof. intros H. apply N.eqb_neq in H. now rewrite H. Qed.

Lemma uw_small w n : n < 2 ^ w -> uw w n = n.
Proof. apply N.mod_small. Qed.

Lemma log2_lt_w w n : n <> 0 -> n < 2 ^ w -> N.log2 n < w.
Proof. intros Hn H. apply N.log2_lt_pow2; lia. Qed.

Lemma clz_ok w n : n <> 0 -> n < 2 ^ w -> builtin_clz w n = Ok (w - 1 - N.log2 n).
Proof.
  intros Hn H. unfold builtin_clz. rewrite uw_small by exact H.
  apply N.eqb_neq in Hn. now rewrite Hn.
Qed.

Lemma FindLeftmostBit32_gcc_log2 d n :
  n <> 0 -> n < 2 ^ 32 -> FindLeftmostBit32_gcc d n = Ok (N.log2 n).
Proof.
  intros Hn H. unfold FindLeftmostBit32_gcc. rewrite assert_true by now apply nz.
  rewrite clz_ok by assumption. cbn [bind]. pose proof (log2_lt_w _ _ Hn H). f_equal; lia.
Qed.
Lemma FindLeftmostBit32_msvc_log2 d n : n <> 0 -> FindLeftmostBit32_msvc d n = Ok (N.log2 n).
Proof.
  intros Hn. unfold FindLeftmostBit32_msvc, bit_scan_reverse. rewrite assert_true by now apply nz.
  apply N.eqb_neq in Hn. now rewrite Hn.
Qed.
Lemma FindLeftmostBit64_gcc_log2 d n :
  n <> 0 -> n < 2 ^ 64 -> FindLeftmostBit64_gcc 64 d n = Ok (N.log2 n).
Proof.
  intros Hn H. unfold FindLeftmostBit64_gcc. rewrite assert_true by now apply nz.
  rewrite clz_ok by assumption. cbn [bind]. pose proof (log2_lt_w _ _ Hn H). f_equal; lia.
Qed.

Lemma log2_shiftr32 n : n / 2 ^ 32 <> 0 -> 32 + N.log2 (n / 2 ^ 32) = N.log2 n.
Proof.
  intros H. rewrite <- N.shiftr_div_pow2. rewrite N.log2_shiftr.
  assert (2 ^ 32 <= n).
  { destruct (N.lt_ge_cases n (2 ^ 32)) as [Hl|]; auto. rewrite N.div_small in H; lia. }
  assert (32 <= N.log2 n). { apply N.log2_le_pow2; lia. }
  lia.
Qed.

Lemma FindLeftmostBit64_msvc_log2 x64 d n :
  n <> 0 -> n < 2 ^ 64 -> FindLeftmostBit64_msvc x64 d n = Ok (N.log2 n).
Proof.
  intros Hn H. unfold FindLeftmostBit64_msvc. rewrite assert_true by now apply nz.
  destruct x64.
  - unfold bit_scan_reverse. apply N.eqb_neq in Hn. now rewrite Hn.
  - rewrite N.shiftr_div_pow2. cbn zeta.
    assert (Hd : n / 2 ^ 32 < 2 ^ 32).
    { apply N.div_lt_upper_bound; [lia|]. exact H. }
    destruct (N.eqb_spec (n / 2 ^ 32) 0) as [Hz|Hz]; cbn [negb].
    + assert (Hs : n < 2 ^ 32).
      { apply N.div_small_iff in Hz; lia. }
      change 4294967295 with (N.ones 32). rewrite N.land_ones, (N.mod_small _ _ Hs).
      rewrite uw_small by exact Hs. now apply FindLeftmostBit32_msvc_log2.
    + rewrite uw_small by exact Hd. rewrite FindLeftmostBit32_msvc_log2 by exact Hz.
      cbn [bind]. f_equal. now apply log2_shiftr32.
Qed.

Lemma Log2_msvc32_log2 d n : n <> 0 -> n < 2 ^ 32 -> Log2_msvc32 d n = Ok (N.log2 n).
Proof.
  intros Hn H. unfold Log2_msvc32, bit_scan_reverse. rewrite assert_true by now apply nz.
  rewrite uw_small by exact H. apply N.eqb_neq in Hn. now rewrite Hn.
Qed.
Lemma Log2_msvc64_log2 x64 d n :
  n <> 0 -> n < 2 ^ 64 -> Log2_msvc64 x64 d n = Ok (N.log2 n).
Proof.
  intros Hn H. unfold Log2_msvc64. rewrite assert_true by now apply nz.
  destruct x64.
  - unfold bit_scan_reverse. apply N.eqb_neq in Hn. now rewrite Hn.
  - rewrite N.shiftr_div_pow2.
    assert (Hd : n / 2 ^ 32 < 2 ^ 32).
    { apply N.div_lt_upper_bound; [lia|]. exact H. }
    change (2 ^ 32) with 4294967296 in *.
    destruct (N.ltb_spec 4294967295 n) as [Hl|Hl].
    + rewrite uw_small by exact Hd.
      assert (n / 4294967296 <> 0).
      { intros E. apply N.div_small_iff in E; lia. }
      unfold bit_scan_reverse. rewrite (proj2 (N.eqb_neq _ _)) by assumption. cbn [bind].
      f_equal. rewrite N.add_comm. now apply (log2_shiftr32 n).
    + rewrite uw_small by (change (2 ^ 32) with 4294967296; lia).
      unfold bit_scan_reverse. apply N.eqb_neq in Hn. now rewrite Hn.
Qed.
Lemma Log2_gcc_log2 d n : n <> 0 -> n < 2 ^ 32 -> Log2_gcc d n = Ok (N.log2 n).
Proof. exact (FindLeftmostBit32_gcc_log2 d n). Qed.

(** What the GCC/Clang Log2 really computes. *)
Lemma Log2_gcc_trunc d n :
  n <> 0 ->
  Log2_gcc d n = if n mod 2 ^ 32 =? 0 then Fault BadArg else Ok (N.log2 (n mod 2 ^ 32)).
Proof.
  intros Hn. unfold Log2_gcc, builtin_clz. rewrite assert_true by now apply nz.
  unfold uw. destruct (N.eqb_spec (n mod 2 ^ 32) 0) as [E|E]; [reflexivity|].
  assert (n mod 2 ^ 32 < 2 ^ 32) by (apply N.mod_lt; lia).
  cbn [bind]. f_equal. pose proof (log2_lt_w _ _ E H). lia.
Qed.

(** What the 32-bit-long GCC FindLeftmostBit64 really computes. *)
Lemma FindLeftmostBit64_gcc32_char d n :
  n <> 0 ->
  FindLeftmostBit64_gcc 32 d n =
    if n mod 2 ^ 32 =? 0 then Fault BadArg else Ok (32 + N.log2 (n mod 2 ^ 32)).
Proof.
  intros Hn. unfold FindLeftmostBit64_gcc, builtin_clz. rewrite assert_true by now apply nz.
  unfold uw. destruct (N.eqb_spec (n mod 2 ^ 32) 0) as [E|E]; [reflexivity|].
  assert (n mod 2 ^ 32 < 2 ^ 32) by (apply N.mod_lt; lia).
  cbn [bind]. f_equal. pose proof (log2_lt_w _ _ E H). lia.
Qed.

Lemma FindRightmostBit_lowest w d n :
  n <> 0 -> n < 2 ^ w -> exists k, FindRightmostBit w d n = Ok k /\ lowest_bit n k.
Proof.
  intros Hn H. unfold FindRightmostBit, builtin_ctz. rewrite assert_true by now apply nz.
  rewrite uw_small by exact H. destruct n as [|p]; [congruence|].
  exists (pos_ctz p); split; [reflexivity|apply pos_ctz_spec].
Qed.

(** ** IsPowerOfTwo *)

Lemma usub1 w n : n <> 0 -> n < 2 ^ w -> usub w n 1 = n - 1.
Proof.
  intros Hn H. unfold usub.
  destruct (N.eq_dec w 0) as [->|Hw]; [cbn in H; lia|].
  assert (2 <= 2 ^ w).
  { change 2 with (2 ^ 1) at 1. apply N.pow_le_mono_r; lia. }
  rewrite (N.mod_small 1) by lia.
  replace (n + (2 ^ w - 1)) with (n - 1 + 1 * 2 ^ w) by lia.
  rewrite N.mod_add by lia. apply N.mod_small; lia.
Qed.

Lemma land_pred_zero n : n <> 0 -> N.land n (n - 1) = 0 <-> is_pow2 n.
Proof.
  intros Hn. pose proof (N.log2_spec n ltac:(lia)) as [Hlo Hhi].
  set (k := N.log2 n) in *. split.
  - intros H. exists k.
    destruct (N.eq_dec n (2 ^ k)) as [|Hne]; [assumption|exfalso].
    assert (Hk : N.testbit (N.land n (n - 1)) k = true).
    { rewrite N.land_spec. apply andb_true_iff; split.
      - now apply N.bit_log2.
      - replace k with (N.log2 (n - 1)).
        + apply N.bit_log2. lia.
        + apply N.log2_unique; [lia|]. lia. }
    rewrite H, N.bits_0 in Hk. discriminate.
  - intros [j ->]. apply N.bits_inj. intros i. rewrite N.bits_0, N.land_spec, N.pow2_bits_eqb.
    destruct (N.eqb_spec j i) as [->|]; [|reflexivity]. cbn [andb].
    replace (2 ^ i - 1) with (N.ones i) by (rewrite N.ones_equiv; lia).
    now apply N.ones_spec_high.
Qed.

Lemma IsPowerOfTwo_iff w n : n < 2 ^ w -> IsPowerOfTwo w n = true <-> is_pow2 n.
Proof.
  intros H. unfold IsPowerOfTwo. destruct (N.eqb_spec n 0) as [->|Hn].
  - split; [discriminate|]. intros [k Hk]. pose proof (N.pow_nonzero 2 k). lia.
  - rewrite usub1 by assumption. rewrite N.eqb_eq. now apply land_pred_zero.
Qed.

(** ** Align *)

Lemma usub_le w a b : b <= a -> a < 2 ^ w -> usub w a b = a - b.
Proof.
  intros Hb Ha. unfold usub. rewrite (N.mod_small b) by lia.
  replace (a + (2 ^ w - b)) with (a - b + 1 * 2 ^ w) by lia.
  rewrite N.mod_add by lia. apply N.mod_small; lia.
Qed.

(** The mathematical round-up. *)
Lemma round_up_least a c : a <> 0 -> least_multiple_above a c (c + (a - c mod a) mod a).
Proof.
  intros Ha. pose proof (N.mod_lt c a Ha) as Hm. pose proof (N.div_mod c a Ha) as Hd.
  set (q := c / a) in *. set (r := c mod a) in *.
  destruct (N.eq_dec r 0) as [Hr|Hr].
  - rewrite Hr. rewrite N.sub_0_r, N.mod_same by exact Ha. rewrite N.add_0_r.
    split; [exists q; nia|]. split; [lia|]. intros; assumption.
  - rewrite (N.mod_small (a - r)) by lia.
    split; [exists (q + 1); nia|]. split; [lia|].
    intros q' Hq'. assert (q < q') by nia. nia.
Qed.

Lemma least_multiple_unique a c r r' :
  least_multiple_above a c r -> least_multiple_above a c r' -> r = r'.
Proof.
  intros ((q & ->) & H1 & H2) ((q' & ->) & H1' & H2').
  pose proof (H2 _ H1'). pose proof (H2' _ H1). lia.
Qed.

Lemma Align_eq w d c a :
  a < 2 ^ w -> is_pow2 a -> Align w d c a = Ok ((c + (a - c mod a) mod a) mod 2 ^ w).
Proof.
  intros Ha Hp. unfold Align.
  rewrite assert_true by (now apply IsPowerOfTwo_iff).
  assert (Hn : a <> 0) by (destruct Hp as [k ->]; apply N.pow_nonzero; lia).
  rewrite (proj2 (N.eqb_neq _ _) Hn).
  pose proof (N.mod_lt c a Hn).
  rewrite usub_le by lia. reflexivity.
Qed.

Lemma Align_least w d c a r :
  c < 2 ^ w -> a < 2 ^ w -> is_pow2 a -> least_multiple_above a c r ->
  Align w d c a = Ok (if r <? 2 ^ w then r else 0).
Proof.
  intros Hc Ha Hp Hr. rewrite Align_eq by assumption.
  destruct Hp as [k ->].
  assert (Hn : 2 ^ k <> 0) by (apply N.pow_nonzero; lia).
  rewrite (least_multiple_unique _ _ _ _ (round_up_least (2 ^ k) c Hn) Hr).
  f_equal. destruct (N.ltb_spec r (2 ^ w)) as [Hl|Hl]; [now apply N.mod_small|].
  (* r >= 2^w, a multiple of 2^k, and 2^w is itself a multiple above c, so r = 2^w *)
  destruct Hr as (_ & _ & Hmin).
  assert (Hkw : k <= w). { destruct (N.le_gt_cases k w) as [|Hg]; auto.
    apply (N.pow_lt_mono_r 2) in Hg; lia. }
  assert (Hw : 2 ^ w = 2 ^ (w - k) * 2 ^ k).
  { rewrite <- N.pow_add_r. f_equal. lia. }
  specialize (Hmin (2 ^ (w - k))). rewrite <- Hw in Hmin.
  replace r with (2 ^ w) by lia. apply N.mod_same; lia.
Qed.

Lemma land_pow2_pred a k : N.land a (2 ^ k - 1) = a mod 2 ^ k.
Proof.
  replace (2 ^ k - 1) with (N.ones k) by (rewrite N.ones_equiv; lia).
  apply N.land_ones.
Qed.

Lemma IsAligned_divide w d a n :
  n < 2 ^ w -> is_pow2 n -> exists b, IsAligned w d a n = Ok b /\ (b = true <-> exists q, a = q * n).
Proof.
  intros Hn Hp. unfold IsAligned.
  rewrite assert_true by (now apply IsPowerOfTwo_iff).
  assert (Hz : n <> 0) by (destruct Hp as [k ->]; apply N.pow_nonzero; lia).
  rewrite usub1 by assumption. eexists; split; [reflexivity|].
  destruct Hp as [k ->]. rewrite land_pow2_pred, N.eqb_eq, N.mod_divide by exact Hz.
  reflexivity.
Qed.


Lemma testbit_above a w i : a < 2 ^ w -> w <= i -> N.testbit a i = false.
Proof.
  intros Ha Hi. rewrite <- (N.mod_small a (2 ^ w)) by exact Ha. now apply N.mod_pow2_bits_high.
Qed.

Lemma land_lnot_ones a k w : a < 2 ^ w ->
  N.land a (N.lnot (2 ^ k - 1) w) = N.ldiff a (N.ones k).
Proof.
  intros Ha. apply N.bits_inj. intros i. rewrite N.land_spec, N.ldiff_spec.
  replace (2 ^ k - 1) with (N.ones k) by (rewrite N.ones_equiv; lia).
  destruct (N.lt_ge_cases i w) as [Hi|Hi].
  - now rewrite N.lnot_spec_low.
  - now rewrite (testbit_above a w i).
Qed.

Lemma ldiff_low a k w : a < 2 ^ w ->
  N.land a (N.lnot (2 ^ k - 1) w) = a / 2 ^ k * 2 ^ k.
Proof.
  intros Ha. rewrite land_lnot_ones by exact Ha.
  now rewrite N.ldiff_ones_r, N.shiftr_div_pow2, N.shiftl_mul_pow2.
Qed.

Lemma AlignedBase_greatest w d a n :
  a < 2 ^ w -> n < 2 ^ w -> is_pow2 n ->
  exists r, AlignedBase w d a n = Ok r /\ greatest_multiple_below n a r.
Proof.
  intros Ha Hn Hp. unfold AlignedBase.
  rewrite assert_true by (now apply IsPowerOfTwo_iff).
  assert (Hz : n <> 0) by (destruct Hp as [k ->]; apply N.pow_nonzero; lia).
  rewrite usub1 by assumption. eexists; split; [reflexivity|].
  destruct Hp as [k ->]. rewrite ldiff_low by exact Ha.
  pose proof (N.div_mod a (2 ^ k) Hz). pose proof (N.mod_lt a (2 ^ k) Hz).
  split; [eexists; reflexivity|]. split; [lia|].
  intros q Hq. apply N.mul_le_mono_r. apply N.div_le_lower_bound; lia.
Qed.

(** ** Pointer bits *)
Lemma pointer_bits_roundtrip w nb p t :
  nb <= 30 -> p < 2 ^ w -> (exists q, p = q * 2 ^ nb) -> t < 2 ^ nb -> nb <= w ->
  GetPointerBits nb (SetPointerBits p t) = Ok t /\
  ClearPointerBits w nb (SetPointerBits p t) = Ok p /\
  SetPointerBits p t = p + t.
Proof.
  intros Hnb Hp [q Hq] Ht Hw.
  assert (H2 : 2 ^ nb <> 0) by (apply N.pow_nonzero; lia).
  assert (Hl : N.lor p t = p + t).
  { rewrite Hq. rewrite <- N.shiftl_mul_pow2.
    rewrite <- N.lxor_lor; [symmetry; apply N.add_nocarry_lxor|]; apply N.bits_inj; intros i;
    rewrite N.land_spec, N.bits_0; destruct (N.lt_ge_cases i nb) as [Hi|Hi];
    try (rewrite N.shiftl_spec_low by exact Hi; reflexivity);
    rewrite (testbit_above t nb i) by assumption; apply andb_false_r. }
  unfold GetPointerBits, ClearPointerBits, SetPointerBits, int_mask.
  rewrite (proj2 (N.leb_gt 32 nb)) by lia. rewrite (proj2 (N.eqb_neq nb 31)) by lia.
  cbn [bind]. rewrite Hl.
  assert (Hb : p + t < 2 ^ w).
  { assert (E : 2 ^ w = 2 ^ (w - nb) * 2 ^ nb).
    { rewrite <- N.pow_add_r. f_equal. lia. }
    rewrite E in Hp |- *. rewrite Hq in Hp |- *.
    apply N.mul_lt_mono_pos_r in Hp; [|lia].
    assert ((q + 1) * 2 ^ nb <= 2 ^ (w - nb) * 2 ^ nb) by (apply N.mul_le_mono_r; lia). lia. }
  rewrite land_pow2_pred, ldiff_low by exact Hb. rewrite Hq.
  rewrite N.div_add_l by exact H2. rewrite N.div_small by exact Ht.
  rewrite N.add_comm, N.mod_add by exact H2. rewrite N.mod_small by exact Ht.
  repeat split; f_equal; lia.
Qed.

(** ** Overflow guards *)

(** A Log2 overload that is correct on [w]-bit words. *)
Definition log2_correct (w : N) (f : N -> outcome N) : Prop :=
  forall n, n <> 0 -> n < 2 ^ w -> f n = Ok (N.log2 n).

Lemma IsUintAddSafe_always w f a b :
  log2_correct w f -> a < 2 ^ w -> b < 2 ^ w -> IsUintAddSafe f w a b = Ok true.
Proof.
  intros Hf Ha Hb. unfold IsUintAddSafe.
  destruct (N.eqb_spec a 0) as [|Hna]; [reflexivity|].
  destruct (N.eqb_spec b 0) as [|Hnb]; [reflexivity|]. cbn [orb].
  rewrite !Hf by assumption. cbn [bind].
  rewrite !(proj2 (N.ltb_lt _ _)) by now apply log2_lt_w. reflexivity.
Qed.

Lemma IsUintMultiplySafe_char w f a b :
  log2_correct w f -> a < 2 ^ w -> b < 2 ^ w ->
  IsUintMultiplySafe f w a b =
  Ok ((a <=? 1) || (b <=? 1) || (N.log2 a + N.log2 b <? w)).
Proof.
  intros Hf Ha Hb. unfold IsUintMultiplySafe.
  destruct (N.leb_spec a 1); [reflexivity|].
  destruct (N.leb_spec b 1); [reflexivity|]. cbn [orb].
  rewrite !Hf by (try assumption; lia). reflexivity.
Qed.

Lemma IsUintMultiplySafe_sound w f a b r :
  log2_correct w f -> a < 2 ^ w -> b < 2 ^ w ->
  IsUintMultiplySafe f w a b = Ok r ->
  (r = true -> a * b < 2 ^ (w + 1)) /\ (r = false -> 2 ^ w <= a * b).
Proof.
  intros Hf Ha Hb. rewrite IsUintMultiplySafe_char by assumption. intros E; injection E as <-.
  assert (H1 : 2 ^ (w + 1) = 2 * 2 ^ w) by (rewrite N.add_1_r, N.pow_succ_r'; lia).
  destruct (N.leb_spec a 1) as [|Ha1]; [cbn [orb]; split; [nia|discriminate]|].
  destruct (N.leb_spec b 1) as [|Hb1]; [cbn [orb]; split; [nia|discriminate]|]. cbn [orb].
  pose proof (N.log2_spec a ltac:(lia)) as [Hal Hah].
  pose proof (N.log2_spec b ltac:(lia)) as [Hbl Hbh].
  destruct (N.ltb_spec (N.log2 a + N.log2 b) w) as [Hs|Hs]; (split; [intros E|intros E]; try discriminate).
  - assert (a * b < 2 ^ N.succ (N.log2 a) * 2 ^ N.succ (N.log2 b)) by nia.
    rewrite <- N.pow_add_r in H.
    eapply N.lt_le_trans; [exact H|]. apply N.pow_le_mono_r; lia.
  - assert (2 ^ N.log2 a * 2 ^ N.log2 b <= a * b) by nia.
    rewrite <- N.pow_add_r in H. etransitivity; [|exact H]. apply N.pow_le_mono_r; lia.
Qed.

(** ** am-arithmetic.h *)
Lemma TryUintAdd_exact w l r out :
  l < 2 ^ w -> r < 2 ^ w ->
  TryUintAdd w l r out = if l + r <? 2 ^ w then (true, l + r) else (false, out).
Proof.
  intros Hl Hr. unfold TryUintAdd, uadd.
  destruct (N.ltb_spec (l + r) (2 ^ w)) as [H|H].
  - rewrite N.mod_small by exact H. rewrite (proj2 (N.ltb_ge _ _)) by lia. reflexivity.
  - assert (E : (l + r) mod 2 ^ w = l + r - 2 ^ w).
    { replace (l + r) with (l + r - 2 ^ w + 1 * 2 ^ w) at 1 by lia.
      rewrite N.mod_add by lia. apply N.mod_small; lia. }
    rewrite E. rewrite (proj2 (N.ltb_lt _ _)) by lia. reflexivity.
Qed.

Lemma TryUint64Multiply_char l r out :
  l < 2 ^ 64 -> r < 2 ^ 64 ->
  TryUint64Multiply l r out =
    if (l * r <? 2 ^ 64) || ((l * r) mod 2 ^ 64 =? 0)
    then (true, (l * r) mod 2 ^ 64) else (false, out).
Proof.
  intros Hl Hr. unfold TryUint64Multiply, umul. cbn zeta.
  destruct (N.eqb_spec ((l * r) mod 2 ^ 64) 0) as [Hz|Hz]; cbn [negb andb].
  - now rewrite orb_true_r.
  - rewrite orb_false_r. destruct (N.ltb_spec (l * r) (2 ^ 64)) as [H|H].
    + rewrite N.mod_small in * by exact H.
      assert (Hl0 : l <> 0) by (intros ->; lia).
      rewrite N.mul_comm, N.div_mul by exact Hl0.
      rewrite N.eqb_refl. reflexivity.
    + assert (Hl0 : l <> 0) by (intros ->; lia).
      destruct (N.eqb_spec ((l * r) mod 2 ^ 64 / l) r) as [E|E]; [exfalso|reflexivity].
      pose proof (N.div_mod ((l * r) mod 2 ^ 64) l Hl0) as Hd. rewrite E in Hd.
      pose proof (N.mod_lt (l * r) (2 ^ 64) ltac:(lia)). lia.
Qed.

Lemma log2_gcc_wrong_above_2_32 d n :
  n <> 0 -> 2 ^ 32 <= n -> ~ exists k, Log2_gcc d n = Ok k /\ highest_bit n k.
Proof.
  intros Hn H (k & E & Hk). rewrite (highest_bit_log2_eq _ _ Hn Hk) in E.
  rewrite Log2_gcc_trunc in E by exact Hn.
  destruct (N.eqb_spec (n mod 2 ^ 32) 0) as [|Hz]; [discriminate|].
  assert (E2 : N.log2 (n mod 2 ^ 32) = N.log2 n) by congruence. clear E.
  assert (n mod 2 ^ 32 < 2 ^ 32) by (apply N.mod_lt; lia).
  pose proof (log2_lt_w 32 _ Hz H0).
  assert (32 <= N.log2 n) by (apply N.log2_le_pow2; [now apply N.neq_0_lt_0|exact H]).
  rewrite E2 in H1. exact (N.lt_irrefl _ (N.le_lt_trans _ _ _ H2 H1)).
Qed.

