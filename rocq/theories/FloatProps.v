(** Properties C83, C84 (amtl/am-float.h). *)
From Verif Require Import Base FloatModel FloatSpec FloatProofs.
Local Open Scope N_scope.

(** * C83 *)
(** float: true for every infinity and false for every finite value, for all 2^32 bit patterns ... *)
Theorem C83_float_partial : forall v, valid 23 8 v ->
  (is_inf 23 8 v -> is_infinite32 v = true) /\ (is_fin 23 8 v -> is_infinite32 v = false).
Proof.
  intros v _. rewrite inf32. unfold is_inf, is_fin. split.
  - intros [-> _]. reflexivity.
  - intros H. now apply N.eqb_neq.
Qed.
Print Assumptions C83_float_partial.
(** ... but also true for every NaN. *)
Theorem C83_float_refuted : forall v, is_nan 23 8 v -> is_infinite32 v = true.
Proof. intros v [E _]. rewrite inf32, E. reflexivity. Qed.
Print Assumptions C83_float_refuted.
Example C83_float_cases : is_inf 23 8 0xFF800000 /\ is_nan 23 8 0x7FC00000 /\ is_fin 23 8 0x3F800000 /\ valid 23 8 0xFF800000.
Proof. unfold is_inf, is_nan, is_fin, valid. vm_compute. intuition discriminate. Qed.

(** double, little-endian: the result does not depend on the argument at all, but on four bytes of stale memory; both
    results occur for every argument. *)
Theorem C83_double_little_endian_refuted : forall narrow, narrowing narrow -> forall d, valid 52 11 d ->
  (forall junk d', valid 52 11 d' -> is_infinite64 false narrow junk d = is_infinite64 false narrow junk d')
  /\ is_infinite64 false narrow 0 d = false /\ is_infinite64 false narrow 0x7FFF0000 d = true.
Proof.
  intros narrow Hn d Hd. assert (V : forall e, valid 52 11 e -> narrow e < 2 ^ 32) by (intros e He; exact (nar_valid _ Hn e He)).
  split; [|split].
  - intros junk d' Hd'. now rewrite !inf64_le by auto.
  - rewrite inf64_le by auto. reflexivity.
  - rewrite inf64_le by auto. reflexivity.
Qed.
Print Assumptions C83_double_little_endian_refuted.
(** double, big-endian: false for everything but certain NaNs - in particular for all infinities. *)
Theorem C83_double_big_endian_refuted : forall narrow junk d, narrowing narrow -> valid 52 11 d ->
  ~ is_nan 52 11 d -> is_infinite64 true narrow junk d = false.
Proof.
  intros narrow junk d Hn Hd Hnan. rewrite inf64_be. apply N.eqb_neq. intros C. apply be_nan in C.
  destruct (N.eq_dec (expo 52 11 d) (top 11)) as [E|E].
  - destruct (N.eq_dec (mant 52 d) 0) as [M|M]; [|apply Hnan; split; assumption].
    destruct (nar_inf _ Hn d Hd (conj E M)) as [_ M']. destruct C as [_ C]. contradiction.
  - exact (nar_fin _ Hn d Hd E C).
Qed.
Print Assumptions C83_double_big_endian_refuted.
Example C83_narrowing : narrowing narrow_rne /\ narrow_rne 0x3FF0000000000000 = 0x3F800000 /\ narrow_rne 0x7FEFFFFFFFFFFFFF = 0x7F800000
  /\ narrow_rne 0x3FB999999999999A = 0x3DCCCCCD /\ narrow_rne 0xFFF0000000000000 = 0xFF800000 /\ narrow_rne 1 = 0.
Proof. split; [exact narrow_rne_ok|]. vm_compute. auto. Qed.

(** * C84 *)
(** Everywhere but on Windows FloatModulo is fmod, whose C99 contract is the documented one - for float and double. *)
Theorem C84_modulo_c99 : forall p w inf fmod x y, c99_fmod p w fmod -> valid p w x -> valid p w y ->
  documented p w x y (float_modulo false p w inf fmod x y).
Proof. intros p w inf fmod x y H. apply H. Qed.
Print Assumptions C84_modulo_c99.
Example C84_fmod_exists : c99_fmod 23 8 (fmod_ieee 23 8) /\ c99_fmod 52 11 (fmod_ieee 52 11)
  /\ fmod_ieee 23 8 0x40B00000 0x40000000 = 0x3FC00000.   (* 5.5 mod 2 = 1.5 *)
Proof. split; [apply fmod_ieee_ok; lia|]. split; [apply fmod_ieee_ok; lia|]. vm_compute. reflexivity. Qed.

Notation modulo_windows32 := (float_modulo true 23 8 (fun _ => is_infinite32)).
(** float on Windows: whatever its fmod does with infinite divisors and signed zeroes, FloatModulo follows the
    documentation, except when a finite value is divided by NaN or a zero by zero. *)
Theorem C84_windows_float_partial : forall fmod x y, windows_fmod 23 8 fmod -> valid 23 8 x -> valid 23 8 y ->
  ~ (is_fin 23 8 x /\ is_nan 23 8 y) -> ~ (is_zero 23 8 x /\ is_zero 23 8 y) ->
  documented 23 8 x y (modulo_windows32 fmod x y).
Proof.
  intros fmod x y Hf Hx Hy N1 N2. destruct (Hf x y Hx Hy) as [F1 F2 F3 F4].
  assert (T : forall b, is_zero 23 8 b -> is_fin 23 8 b) by (intros b [E _]; unfold is_fin; rewrite E; discriminate).
  assert (Zf : forall b, is_inf 23 8 b -> ~ is_fin 23 8 b) by (intros b [E _] C; contradiction).
  assert (Nf : forall b, is_nan 23 8 b -> ~ is_fin 23 8 b) by (intros b [E _] C; contradiction).
  unfold float_modulo. rewrite !inf32. cbn [andb].
  assert (EZ : forall b, eq_zero 23 8 b = true <-> is_zero 23 8 b) by (intros b; apply eq_zero_spec).
  destruct (N.eqb_spec (expo 23 8 x) (top 8)) as [Ex|Ex]; destruct (N.eqb_spec (expo 23 8 y) (top 8)) as [Ey|Ey]; cbn [negb andb orb].
  - rewrite andb_false_r. constructor; auto; try (intros H; exfalso; (exact (H Ex) || now apply T in H)).
  - destruct (eq_zero 23 8 x) eqn:Z0; [apply EZ in Z0; exfalso; now apply (T x Z0)|]. cbn [andb].
    constructor; auto; try (intros H; exfalso; (exact (H Ex) || now apply T in H)).
  - assert (Iy : is_inf 23 8 y). { split; [exact Ey|]. destruct (N.eq_dec (mant 23 y) 0) as [M|M]; [exact M|]. exfalso. apply N1. split; [exact Ex|split; assumption]. }
    constructor.
    + intros [H|H]; exfalso; [now apply (Nf x H)|]. apply N1. auto.
    + intros H. exfalso. now apply (Zf x H).
    + intros H. exfalso. apply T in H. now apply (Zf y Iy).
    + auto.
    + auto.
    + intros _ H. exfalso. now apply (Zf y Iy).
  - destruct (eq_zero 23 8 x) eqn:Z0; cbn [andb].
    + apply EZ in Z0. constructor.
      * intros [H|H]; exfalso; [now apply (Nf x H)|now apply (Nf y H)].
      * intros H. exfalso. now apply (Zf x H).
      * intros H. exfalso. apply N2. auto.
      * auto.
      * auto.
      * intros _ _ Hz. rewrite !zero_value by auto. split; [exact Ex|]. split; [exists 0%Z; lia|].
        destruct (value_nonzero 23 8 ltac:(lia) ltac:(lia) y Ey Hz) as [V _]. lia.
    + constructor; auto.
      * intros _ H. exfalso. now apply (Zf y H).
      * intros H. apply EZ in H. congruence.
Qed.
Print Assumptions C84_windows_float_partial.
Example C84_windows_fmod_exists : windows_fmod 23 8 (fmod_ieee 23 8).
Proof. apply c99_windows, fmod_ieee_ok; lia. Qed.
(** The exceptions: both give the dividend back instead of NaN. *)
Theorem C84_windows_float_refuted : forall fmod x y,
  (is_fin 23 8 x /\ is_nan 23 8 y) \/ (is_zero 23 8 x /\ is_zero 23 8 y) ->
  modulo_windows32 fmod x y = x /\ ~ documented 23 8 x y (modulo_windows32 fmod x y).
Proof.
  intros fmod x y H. assert (E : modulo_windows32 fmod x y = x /\ is_fin 23 8 x).
  { unfold float_modulo. rewrite !inf32. destruct H as [[Hx [Hy _]]|[Hx Hy]].
    - unfold is_fin in *. rewrite Hy, N.eqb_refl. apply N.eqb_neq in Hx as Hx'. rewrite Hx'. auto.
    - assert (expo 23 8 x <> top 8) as Ex by (destruct Hx as [-> _]; discriminate). assert (expo 23 8 y <> top 8) as Ey by (destruct Hy as [-> _]; discriminate).
      apply N.eqb_neq in Ey. rewrite Ey. apply eq_zero_spec in Hx. rewrite Hx. cbn [negb andb]. rewrite !orb_true_r. auto. }
  destruct E as [E Hx]. split; [exact E|]. intros D. assert (C : is_nan 23 8 (modulo_windows32 fmod x y)).
  { destruct H as [[_ H]|[_ H]]; [apply (doc_nan _ _ _ _ _ D); auto|apply (doc_by_zero _ _ _ _ _ D); auto]. }
  rewrite E in C. destruct C as [C _]. contradiction.
Qed.
Print Assumptions C84_windows_float_refuted.
Example C84_refuted_case : is_fin 23 8 0x42280000 /\ is_nan 23 8 0x7FC00000 /\ is_zero 23 8 0x80000000.
Proof. unfold is_fin, is_nan, is_zero. vm_compute. intuition discriminate. Qed.

(** double on Windows (little-endian): with the stale bytes in the way, any x modulo any y can come out as x. *)
Theorem C84_windows_double_refuted : forall narrow fmod, narrowing narrow ->
  exists junk : nat -> N, forall x y, valid 52 11 x -> valid 52 11 y ->
    float_modulo true 52 11 (fun i => is_infinite64 false narrow (junk i)) fmod x y = x.
Proof.
  intros narrow fmod Hn. exists (fun i => match i with 1%nat => 0x7FFF0000 | _ => 0 end). intros x y Hx Hy. unfold float_modulo.
  destruct (C83_double_little_endian_refuted narrow Hn x Hx) as (_ & E0 & _). destruct (C83_double_little_endian_refuted narrow Hn y Hy) as (_ & _ & E1).
  rewrite E0, E1. reflexivity.
Qed.
Print Assumptions C84_windows_double_refuted.
