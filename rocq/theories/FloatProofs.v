From Coq Require Import ZifyN Zify.
From Verif Require Import Base FloatModel FloatSpec.
Local Open Scope N_scope.

Lemma land_field b p w : N.land b (N.shiftl (N.ones w) p) = N.shiftl ((b / 2 ^ p) mod 2 ^ w) p.
Proof.
  rewrite <- N.land_ones, <- N.shiftr_div_pow2. apply N.bits_inj. intros n. rewrite N.land_spec.
  destruct (N.lt_ge_cases n p) as [H|H].
  - rewrite !N.shiftl_spec_low by auto. apply andb_false_r.
  - rewrite !N.shiftl_spec_high' by auto. rewrite N.land_spec, N.shiftr_spec'. now rewrite N.sub_add.
Qed.
Lemma field_full b p w : (N.land b (N.shiftl (N.ones w) p) =? N.shiftl (N.ones w) p) = ((b / 2 ^ p) mod 2 ^ w =? 2 ^ w - 1).
Proof.
  rewrite land_field, N.ones_equiv, <- N.sub_1_r. rewrite !N.shiftl_mul_pow2.
  set (e := (b / 2 ^ p) mod 2 ^ w). set (t := 2 ^ w - 1). assert (2 ^ p <> 0) by (apply N.pow_nonzero; lia).
  destruct (N.eqb_spec e t) as [->|E]; [apply N.eqb_refl|]. apply N.eqb_neq. intros C. apply E. apply N.mul_cancel_r in C; auto.
Qed.

Lemma inf32 b : is_infinite32 b = (expo 23 8 b =? top 8).
Proof. exact (field_full b 23 8). Qed.
Lemma inf64 be narrow junk d : is_infinite64 be narrow junk d = ((to_layout64 be narrow junk d / 2 ^ 48) mod 2 ^ 15 =? 2 ^ 15 - 1).
Proof. exact (field_full _ 48 15). Qed.

Ltac Nlia := zify; Z.to_euclidean_division_equations; lia.

Lemma inf64_le narrow junk d : narrow d < 2 ^ 32 ->
  is_infinite64 false narrow junk d = ((junk / 2 ^ 16) mod 2 ^ 15 =? 2 ^ 15 - 1).
Proof.
  intros H. rewrite inf64. unfold to_layout64. f_equal. change (2 ^ 48) with (2 ^ 32 * 2 ^ 16).
  rewrite <- N.div_div by discriminate. rewrite N.div_add_l by discriminate. rewrite (N.div_small _ _ H), N.add_0_r.
  change (2 ^ 16) with 65536. change (2 ^ 15) with 32768. change (2 ^ 32) with 4294967296. Nlia.
Qed.
Lemma inf64_be narrow junk d : 
  is_infinite64 true narrow junk d = ((narrow d / 2 ^ 16) mod 2 ^ 15 =? 2 ^ 15 - 1).
Proof.
  rewrite inf64. unfold to_layout64. f_equal. change (2 ^ 48) with (2 ^ 32 * 2 ^ 16).
  rewrite <- N.div_div by discriminate. rewrite N.div_add_l by discriminate.
  rewrite (N.div_small (junk mod _)) by (apply N.mod_lt; discriminate). now rewrite N.add_0_r.
Qed.
Lemma be_nan f : (f / 2 ^ 16) mod 2 ^ 15 = 2 ^ 15 - 1 -> is_nan 23 8 f.
Proof.
  intros H. unfold is_nan, expo, mant, top. change (2 ^ 16) with 65536 in *. change (2 ^ 15) with 32768 in *. change (2 ^ 23) with 8388608. change (2 ^ 8) with 256.
  split; Nlia.
Qed.

(** ** A format in general *)
Section Format.
Variables p w : N.
Hypothesis Hp : 0 < p.
Hypothesis Hw : 1 < w.
Let P2 : 0 < 2 ^ p. Proof. apply N.neq_0_lt_0, N.pow_nonzero. lia. Qed.
Let W2 : 4 <= 2 ^ w. Proof. change 4 with (2 ^ 2). apply N.pow_le_mono_r; lia. Qed.

(** Assembled patterns. *)
Definition pack (s : bool) (e m : N) : N := (if s then 2 ^ (p + w) else 0) + (e * 2 ^ p + m).
Lemma pack_low e m : e < 2 ^ w -> m < 2 ^ p -> e * 2 ^ p + m < 2 ^ (p + w).
Proof. intros. rewrite N.pow_add_r. nia. Qed.
Lemma pack_valid s e m : e < 2 ^ w -> m < 2 ^ p -> valid p w (pack s e m).
Proof.
  intros He Hm. pose proof (pack_low e m He Hm). unfold valid, pack.
  replace (1 + w + p) with (1 + (p + w)) by lia. rewrite (N.pow_add_r 2 1). change (2 ^ 1) with 2. destruct s; lia.
Qed.
Lemma pack_expo s e m : e < 2 ^ w -> m < 2 ^ p -> expo p w (pack s e m) = e.
Proof.
  intros He Hm. unfold expo, pack. replace ((if s then 2 ^ (p + w) else 0) + (e * 2 ^ p + m)) with (((if s then 2 ^ w else 0) + e) * 2 ^ p + m)
    by (destruct s; rewrite ?N.pow_add_r; ring).
  rewrite N.div_add_l by lia. rewrite (N.div_small m) by auto. rewrite N.add_0_r.
  destruct s; [|now apply N.mod_small]. rewrite N.add_comm. replace (2 ^ w) with (1 * 2 ^ w) at 1 by lia. rewrite N.mod_add by lia. now apply N.mod_small.
Qed.
Lemma pack_mant s e m : m < 2 ^ p -> mant p (pack s e m) = m.
Proof.
  intros Hm. unfold mant, pack. replace ((if s then 2 ^ (p + w) else 0) + (e * 2 ^ p + m)) with (m + ((if s then 2 ^ w else 0) + e) * 2 ^ p)
    by (destruct s; rewrite ?N.pow_add_r; ring).
  rewrite N.mod_add by lia. now apply N.mod_small.
Qed.
Lemma pack_sign s e m : e < 2 ^ w -> m < 2 ^ p -> sign_bit p w (pack s e m) = s.
Proof.
  intros He Hm. pose proof (pack_low e m He Hm). unfold sign_bit, pack. apply N.b2n_inj. rewrite N.testbit_spec'.
  destruct s.
  - replace (2 ^ (p + w)) with (1 * 2 ^ (p + w)) at 1 by lia. rewrite N.div_add_l by (apply N.pow_nonzero; lia). rewrite N.div_small by auto. reflexivity.
  - cbn [N.add]. rewrite N.div_small by auto. reflexivity.
Qed.

Lemma magnitude_form b : is_fin p w b -> exists m k, magnitude p w b = m * 2 ^ k /\ m < 2 ^ (p + 1) /\ k + 2 < 2 ^ w.
Proof.
  intros Hf. unfold is_fin, top in Hf. unfold magnitude. assert (He : expo p w b < 2 ^ w) by (apply N.mod_lt; lia).
  assert (Hm : mant p b < 2 ^ p) by (apply N.mod_lt; lia). rewrite N.pow_add_r. change (2 ^ 1) with 2.
  destruct (N.eqb_spec (expo p w b) 0) as [E|E].
  - exists (mant p b), 0. rewrite N.pow_0_r. lia.
  - exists (2 ^ p + mant p b), (expo p w b - 1). split; [reflexivity|]. lia.
Qed.

(** The pattern of a magnitude. *)
Definition enc (s : bool) (n : N) : N :=
  let k := N.log2 n - p in
  if n <? 2 ^ p then pack s 0 n else pack s (k + 1) (n / 2 ^ k - 2 ^ p).
Lemma enc_ok s m c : m < 2 ^ (p + 1) -> c + 2 < 2 ^ w ->
  let b := enc s (m * 2 ^ c) in valid p w b /\ is_fin p w b /\ magnitude p w b = m * 2 ^ c /\ sign_bit p w b = s.
Proof.
  intros Hm Hc. cbv zeta. unfold enc. set (n := m * 2 ^ c). set (k := N.log2 n - p).
  destruct (N.ltb_spec n (2 ^ p)) as [L|L].
  - split; [apply pack_valid; lia|]. split; [unfold is_fin, top; rewrite pack_expo by lia; lia|]. split; [|apply pack_sign; lia].
    unfold magnitude. rewrite pack_expo by lia. cbn. apply pack_mant. exact L.
  - assert (Hn : 0 < n) by lia.
    assert (Lp : p <= N.log2 n) by (apply N.log2_le_pow2; auto).
    assert (Lc : N.log2 n <= p + c).
    { apply N.lt_succ_r. apply N.log2_lt_pow2; auto. unfold n. replace (N.succ (p + c)) with (p + 1 + c) by lia. rewrite (N.pow_add_r 2 (p + 1)).
      apply N.mul_lt_mono_pos_r; auto. apply N.neq_0_lt_0, N.pow_nonzero. lia. }
    assert (Hk : k <= c) by (unfold k; lia).
    assert (Hd : n = (m * 2 ^ (c - k)) * 2 ^ k) by (unfold n; rewrite <- N.mul_assoc, <- N.pow_add_r; f_equal; f_equal; lia).
    set (q := m * 2 ^ (c - k)) in *. assert (K2 : 2 ^ k <> 0) by (apply N.pow_nonzero; lia).
    assert (Hq : n / 2 ^ k = q) by (rewrite Hd; now apply N.div_mul). rewrite Hq.
    pose proof (N.log2_spec n Hn) as [L1 L2]. replace (N.succ (N.log2 n)) with (p + 1 + k) in L2 by (unfold k; lia).
    replace (N.log2 n) with (p + k) in L1 by (unfold k; lia). rewrite N.pow_add_r in L1, L2. rewrite Hd in L1, L2.
    apply N.mul_le_mono_pos_r in L1; [|lia]. apply N.mul_lt_mono_pos_r in L2; [|lia]. rewrite N.pow_add_r in L2. change (2 ^ 1) with 2 in L2.
    split; [apply pack_valid; lia|]. split; [unfold is_fin, top; rewrite pack_expo by lia; lia|]. split; [|apply pack_sign; lia].
    unfold magnitude. rewrite pack_expo, pack_mant by lia. destruct (N.eqb_spec (k + 1) 0); [lia|].
    replace (2 ^ p + (q - 2 ^ p)) with q by lia. replace (k + 1 - 1) with k by lia. symmetry. exact Hd.
Qed.

(** The remainder of two magnitudes is a magnitude. *)
Lemma rem_form a i b j : a < 2 ^ (p + 1) -> i + 2 < 2 ^ w -> b < 2 ^ (p + 1) -> j + 2 < 2 ^ w -> b * 2 ^ j <> 0 ->
  exists m c, (a * 2 ^ i) mod (b * 2 ^ j) = m * 2 ^ c /\ m < 2 ^ (p + 1) /\ c + 2 < 2 ^ w.
Proof.
  intros Ha Hi Hb Hj Hz. assert (b <> 0) by (intros ->; lia).
  destruct (N.le_ge_cases j i) as [L|L].
  - exists ((a * 2 ^ (i - j)) mod b), j. split.
    + replace (a * 2 ^ i) with (a * 2 ^ (i - j) * 2 ^ j) by (rewrite <- N.mul_assoc, <- N.pow_add_r; f_equal; f_equal; lia).
      apply N.mul_mod_distr_r; auto. apply N.pow_nonzero. lia.
    + split; [|lia]. eapply N.lt_trans; [apply N.mod_lt; auto|auto].
  - exists (a mod (b * 2 ^ (j - i))), i. split.
    + replace (b * 2 ^ j) with (b * 2 ^ (j - i) * 2 ^ i) by (rewrite <- N.mul_assoc, <- N.pow_add_r; f_equal; f_equal; lia).
      apply N.mul_mod_distr_r; [|apply N.pow_nonzero; lia]. assert (2 ^ (j - i) <> 0) by (apply N.pow_nonzero; lia). nia.
    + split; [|lia]. eapply N.le_lt_trans; [apply N.mod_le|auto]. assert (2 ^ (j - i) <> 0) by (apply N.pow_nonzero; lia). nia.
Qed.

Lemma zero_magnitude b : is_fin p w b -> (magnitude p w b = 0 <-> is_zero p w b).
Proof.
  intros _. unfold magnitude, is_zero. destruct (N.eqb_spec (expo p w b) 0) as [E|E]; [tauto|].
  assert (2 ^ (expo p w b - 1) <> 0) by (apply N.pow_nonzero; lia). split; [nia|tauto].
Qed.

(** An fmod as in Annex F. *)
Definition quiet : N := pack false (top w) (2 ^ (p - 1)).
Definition fmod_ieee (x y : N) : N :=
  if (expo p w x =? top w) || eq_zero p w y || ((expo p w y =? top w) && negb (mant p y =? 0)) then quiet
  else if expo p w y =? top w then x
  else if eq_zero p w x then x
  else enc (sign_bit p w x) (magnitude p w x mod magnitude p w y).
Lemma quiet_nan : is_nan p w quiet.
Proof.
  assert (2 ^ (p - 1) < 2 ^ p) by (apply N.pow_lt_mono_r; lia). unfold quiet, is_nan.
  rewrite pack_expo, pack_mant by (unfold top; lia). split; [reflexivity|]. apply N.pow_nonzero. lia.
Qed.
Lemma eq_zero_spec b : eq_zero p w b = true <-> is_zero p w b.
Proof. unfold eq_zero, is_zero. rewrite andb_true_iff, !N.eqb_eq. tauto. Qed.
Lemma zero_value b : is_zero p w b -> value p w b = 0%Z.
Proof.
  intros [E M]. unfold value, magnitude. rewrite E. cbn. rewrite M. now destruct (sign_bit p w b).
Qed.
Lemma value_nonzero b : is_fin p w b -> ~ is_zero p w b -> value p w b <> 0%Z /\ magnitude p w b <> 0.
Proof.
  intros Hf Hz. assert (magnitude p w b <> 0) by (rewrite zero_magnitude; auto). split; auto. unfold value. destruct (sign_bit p w b); lia.
Qed.
Lemma zero_fin b : is_zero p w b -> is_fin p w b.
Proof. intros [E _]. unfold is_fin, top. lia. Qed.
Lemma fmod_ieee_ok : c99_fmod p w fmod_ieee.
Proof.
  intros x y Hx Hy. pose proof quiet_nan as Q.
  assert (Q' : (expo p w x = top w \/ is_zero p w y \/ is_nan p w y) -> fmod_ieee x y = quiet).
  { intros H. unfold fmod_ieee. destruct (N.eqb_spec (expo p w x) (top w)) as [E|E]; [reflexivity|].
    destruct (eq_zero p w y) eqn:Ez; [reflexivity|]. destruct H as [H|[H|[H1 H2]]]; [contradiction|apply eq_zero_spec in H; congruence|].
    apply N.eqb_eq in H1. apply N.eqb_neq in H2. rewrite H1, H2. reflexivity. }
  assert (R : is_fin p w x -> is_fin p w y -> ~ is_zero p w y -> ~ is_zero p w x ->
    fmod_ieee x y = enc (sign_bit p w x) (magnitude p w x mod magnitude p w y)).
  { intros H1 H2 H3 H4. unfold fmod_ieee, is_fin in *. apply N.eqb_neq in H1, H2. rewrite H1, H2. cbn [orb andb].
    destruct (eq_zero p w y) eqn:Ey; [apply eq_zero_spec in Ey; contradiction|]. destruct (eq_zero p w x) eqn:Ex; [apply eq_zero_spec in Ex; contradiction|].
    reflexivity. }
  assert (Z0 : is_zero p w x -> is_fin p w y -> ~ is_zero p w y -> fmod_ieee x y = x).
  { intros H1 H2 H3. pose proof (zero_fin _ H1) as Hf. unfold fmod_ieee, is_fin in *. apply N.eqb_neq in H2, Hf. rewrite H2, Hf. cbn [orb andb].
    destruct (eq_zero p w y) eqn:Ey; [apply eq_zero_spec in Ey; contradiction|]. apply eq_zero_spec in H1. now rewrite H1. }
  constructor.
  - intros [H|H]; rewrite Q'; auto. left. apply H.
  - intros H. rewrite Q'; auto. left. apply H.
  - intros H. rewrite Q'; auto.
  - intros Hf [He Hm]. unfold is_fin in Hf. unfold fmod_ieee. apply N.eqb_neq in Hf. rewrite Hf, He, Hm.
    destruct (eq_zero p w y) eqn:Ey; [apply eq_zero_spec in Ey; destruct Ey as [Ey _]; rewrite Ey in He; unfold top in He; lia|].
    rewrite N.eqb_refl. reflexivity.
  - exact Z0.
  - intros Hfx Hfy Hzy. destruct (eq_zero p w x) eqn:Ex.
    + apply eq_zero_spec in Ex. rewrite (Z0 Ex Hfy Hzy). rewrite !zero_value by auto. split; [auto|]. split; [exists 0%Z; lia|].
      destruct (value_nonzero y Hfy Hzy). lia.
    + assert (Hzx : ~ is_zero p w x) by (intros C; apply eq_zero_spec in C; congruence). rewrite R by auto.
      destruct (value_nonzero y Hfy Hzy) as [_ My]. destruct (magnitude_form x Hfx) as (a & i & Ea & La & Li). destruct (magnitude_form y Hfy) as (b & j & Eb & Lb & Lj).
      destruct (rem_form a i b j La Li Lb Lj) as (m & c & Em & Lm & Lc); [congruence|]. rewrite <- Ea, <- Eb in Em. rewrite Em.
      destruct (enc_ok (sign_bit p w x) m c Lm Lc) as (V & F & M & Sg). split; [exact F|].
      clear R; set (r := enc (sign_bit p w x) (m * 2 ^ c)) in *. assert (Hr : magnitude p w r = magnitude p w x mod magnitude p w y) by congruence.
      pose proof (N.div_mod (magnitude p w x) (magnitude p w y) My) as D. rewrite <- Hr in D. pose proof (N.mod_lt (magnitude p w x) (magnitude p w y) My) as Lt. rewrite <- Hr in Lt.
      unfold value. rewrite Sg. set (X := magnitude p w x) in *. set (Y := magnitude p w y) in *. set (Rr := magnitude p w r) in *.
      assert (D' : (Z.of_N X = Z.of_N Y * Z.of_N (X / Y) + Z.of_N Rr)%Z) by (rewrite <- N2Z.inj_mul, <- N2Z.inj_add; now rewrite <- D).
      set (q := Z.of_N (X / Y)) in *. split; [|split].
      * destruct (sign_bit p w x), (sign_bit p w y).
        -- exists q. lia.
        -- exists (- q)%Z. lia.
        -- exists (- q)%Z. lia.
        -- exists q. lia.
      * destruct (sign_bit p w x), (sign_bit p w y); lia.
      * assert (0 <= Z.of_N X * Z.of_N Rr)%Z by (apply Z.mul_nonneg_nonneg; apply N2Z.is_nonneg).
        destruct (sign_bit p w x); [rewrite Z.mul_opp_opp|]; assumption.
Qed.

Lemma c99_windows f : c99_fmod p w f -> windows_fmod p w f.
Proof. intros H x y Hx Hy. destruct (H x y Hx Hy). constructor; auto. Qed.
End Format.

(** ** Narrowing double to float, to nearest even *)
Definition narrow_rne (d : N) : N :=
  let s := sign_bit 52 11 d in
  if expo 52 11 d =? top 11 then
    if mant 52 d =? 0 then pack 23 8 s 255 0 else pack 23 8 s 255 (mant 52 d / 2 ^ 29 mod 2 ^ 22 + 2 ^ 22)
  else
    let n := magnitude 52 11 d in
    let q := N.max 925 (N.log2 n - 23) in
    let f := n / 2 ^ q in let r := n mod 2 ^ q in let half := 2 ^ (q - 1) in
    let f := if (half <? r) || ((half =? r) && N.odd f) then f + 1 else f in
    if 277 <=? N.log2 (f * 2 ^ (q - 925)) then pack 23 8 s 255 0 else enc 23 8 s (f * 2 ^ (q - 925)).
Lemma narrow_rne_ok : narrowing narrow_rne.
Proof.
  assert (Fin : forall d, is_fin 52 11 d -> valid 23 8 (narrow_rne d) /\ ~ is_nan 23 8 (narrow_rne d)).
  { intros d Hf. unfold narrow_rne. destruct (N.eqb_spec (expo 52 11 d) (top 11)) as [E|_]; [contradiction|].
    set (n := magnitude 52 11 d). set (q := N.max 925 (N.log2 n - 23)). set (f := n / 2 ^ q). set (g := if (_ : bool) then f + 1 else f).
    assert (Inf : valid 23 8 (pack 23 8 (sign_bit 52 11 d) 255 0) /\ ~ is_nan 23 8 (pack 23 8 (sign_bit 52 11 d) 255 0)).
    { split; [apply pack_valid; reflexivity|]. intros [_ C]. apply C. apply pack_mant; reflexivity. }
    destruct (N.leb_spec 277 (N.log2 (g * 2 ^ (q - 925)))) as [L|L]; [exact Inf|].
    assert (Q2 : 0 < 2 ^ q) by (apply N.neq_0_lt_0, N.pow_nonzero; lia).
    assert (Lf : f < 2 ^ 24).
    { unfold f. apply N.div_lt_upper_bound; [lia|]. rewrite <- N.pow_add_r. destruct (N.eq_dec n 0) as [->|Hn].
      - apply N.neq_0_lt_0, N.pow_nonzero. lia.
      - apply N.log2_lt_pow2; [lia|]. unfold q. lia. }
    assert (Lg : g <= 2 ^ 24) by (unfold g; destruct (_ || _); lia).
    assert (Form : exists m c, g * 2 ^ (q - 925) = m * 2 ^ c /\ m < 2 ^ (23 + 1) /\ c + 2 < 2 ^ 8).
    { destruct (N.eq_dec q 925) as [Eq|Eq].
      - destruct (N.eq_dec g (2 ^ 24)) as [Eg|Eg].
        + exists (2 ^ 23), (q - 925 + 1). rewrite Eg, N.add_1_r, N.pow_succ_r'. split; [|split; [reflexivity|rewrite Eq; reflexivity]].
          change (2 ^ 24) with (2 ^ 23 * 2). now rewrite N.mul_assoc.
        + exists g, (q - 925). split; [reflexivity|]. split; [change (23 + 1) with 24; lia|]. rewrite Eq. reflexivity.
      - assert (Hq : q = N.log2 n - 23 /\ 925 < q) by (unfold q in *; lia). destruct Hq as [Hq Hq'].
        assert (Gf : 2 ^ 23 <= f).
        { unfold f. apply N.div_le_lower_bound; [lia|]. rewrite <- N.pow_add_r. replace (q + 23) with (N.log2 n) by lia. apply N.log2_spec.
          destruct (N.eq_dec n 0) as [E0|]; [rewrite E0 in Hq; cbn in Hq; lia|lia]. }
        assert (Gg : 2 ^ 23 <= g) by (unfold g; destruct (_ || _); lia).
        assert (Lq : 23 + (q - 925) < 277).
        { eapply N.le_lt_trans; [|exact L]. apply N.log2_le_pow2; [assert (2 ^ (q - 925) <> 0) by (apply N.pow_nonzero; lia); change (2 ^ 23) with 8388608 in Gg; nia|].
          rewrite N.pow_add_r. now apply N.mul_le_mono_r. }
        destruct (N.eq_dec g (2 ^ 24)) as [Eg|Eg].
        + exists (2 ^ 23), (q - 925 + 1). rewrite Eg, N.add_1_r, N.pow_succ_r'. split; [change (2 ^ 24) with (2 ^ 23 * 2); now rewrite N.mul_assoc|].
          split; [reflexivity|]. change (2 ^ 8) with 256.
          assert (24 + (q - 925) < 277); [|lia]. eapply N.le_lt_trans; [|exact L]. rewrite Eg. apply N.log2_le_pow2; [|now rewrite N.pow_add_r].
          apply N.mul_pos_pos; [reflexivity|]. apply N.neq_0_lt_0, N.pow_nonzero. lia.
        + exists g, (q - 925). split; [reflexivity|]. split; [change (23 + 1) with 24; lia|]. change (2 ^ 8) with 256. lia. }
    destruct Form as (m & c & -> & Lm & Lc). destruct (enc_ok 23 8 ltac:(lia) ltac:(lia) (sign_bit 52 11 d) m c Lm Lc) as (V & F & _).
    split; [exact V|]. intros [C _]. contradiction. }
  assert (Spec : forall d, expo 52 11 d = top 11 -> valid 23 8 (narrow_rne d) /\ (is_inf 52 11 d -> is_inf 23 8 (narrow_rne d)) /\ (is_nan 52 11 d -> is_nan 23 8 (narrow_rne d))).
  { intros d E. unfold narrow_rne. rewrite E, N.eqb_refl. destruct (N.eqb_spec (mant 52 d) 0) as [M|M].
    - split; [apply pack_valid; reflexivity|]. split; [|intros [_ C]; contradiction]. intros _. split; [apply pack_expo; reflexivity|apply pack_mant; reflexivity].
    - assert (B : mant 52 d / 2 ^ 29 mod 2 ^ 22 + 2 ^ 22 < 2 ^ 23).
      { pose proof (N.mod_lt (mant 52 d / 2 ^ 29) (2 ^ 22) ltac:(discriminate)). change (2 ^ 23) with (2 ^ 22 + 2 ^ 22). lia. }
      split; [apply pack_valid; (reflexivity || exact B)|]. split; [intros [_ C]; contradiction|]. intros _.
      split; [apply pack_expo; (reflexivity || exact B)|]. rewrite pack_mant by (reflexivity || exact B). change (2 ^ 22) with 4194304. lia. }
  constructor.
  - intros d _. destruct (N.eq_dec (expo 52 11 d) (top 11)) as [E|E]; [apply (Spec d E)|apply (Fin d E)].
  - intros d _ H. apply (Spec d); [apply H|exact H].
  - intros d _ H. apply (Spec d); [apply H|exact H].
  - intros d _ H. apply (Fin d H).
Qed.
