(** Proofs about the hash functions. *)
From Coq Require Import Znumtheory Zpow_facts.
From Verif Require Import Base HashFnModel HashFnSpec.
Local Open Scope Z_scope.

Lemma zwrap_range w x : 0 <= w -> 0 <= zwrap w x < 2 ^ w.
Proof. intros. unfold zwrap. apply Z.mod_pos_bound. now apply Z.pow_pos_nonneg. Qed.
Lemma zwrap_id w x : 0 <= x < 2 ^ w -> zwrap w x = x.
Proof. apply Z.mod_small. Qed.
Lemma swrap_range w x : 0 < w -> - 2 ^ (w - 1) <= swrap w x < 2 ^ (w - 1).
Proof.
  intros Hw. unfold swrap.
  assert (E : 2 ^ w = 2 * 2 ^ (w - 1)).
  { rewrite <- (Z.pow_succ_r 2 (w - 1)) by lia. f_equal. lia. }
  pose proof (Z.mod_pos_bound (x + 2 ^ (w - 1)) (2 ^ w) ltac:(apply Z.pow_pos_nonneg; lia)). lia.
Qed.
Lemma swrap_id w x : 0 < w -> - 2 ^ (w - 1) <= x < 2 ^ (w - 1) -> swrap w x = x.
Proof.
  intros Hw Hx. unfold swrap.
  assert (E : 2 ^ w = 2 * 2 ^ (w - 1)).
  { rewrite <- (Z.pow_succ_r 2 (w - 1)) by lia. f_equal. lia. }
  rewrite Z.mod_small by lia. lia.
Qed.
Lemma swrap_congr w x : 0 < w -> swrap w x mod 2 ^ w = x mod 2 ^ w.
Proof.
  intros Hw. unfold swrap. rewrite Zminus_mod, Z.mod_mod by (apply Z.pow_nonzero; lia).
  rewrite <- Zminus_mod. f_equal. lia.
Qed.
Lemma swrap_eq w x y : 0 < w -> swrap w x = swrap w y -> (x - y) mod 2 ^ w = 0.
Proof.
  intros Hw H. pose proof (swrap_congr w x Hw). pose proof (swrap_congr w y Hw).
  rewrite Zminus_mod. rewrite <- H0, <- H1, H, Z.sub_diag. now rewrite Zmod_0_l.
Qed.

(** *** bit lengths *)
Lemma lxor_range n a b : 0 <= n -> 0 <= a < 2 ^ n -> 0 <= b < 2 ^ n -> 0 <= Z.lxor a b < 2 ^ n.
Proof.
  intros Hn Ha Hb. assert (Hp : 0 <= Z.lxor a b) by (apply Z.lxor_nonneg; lia).
  split; [exact Hp|]. destruct (Z.eq_dec (Z.lxor a b) 0) as [->|Hz]; [lia|].
  apply Z.log2_lt_pow2; [lia|].
  eapply Z.le_lt_trans; [apply Z.log2_lxor; lia|].
  destruct (Z.eq_dec a 0) as [->|Ha0].
  - destruct (Z.eq_dec b 0) as [->|Hb0]; [now rewrite Z.lxor_0_r in Hz|].
    change (Z.log2 0) with 0. pose proof (proj1 (Z.log2_lt_pow2 b n ltac:(lia)) ltac:(lia)).
    pose proof (Z.log2_nonneg b). lia.
  - pose proof (proj1 (Z.log2_lt_pow2 a n ltac:(lia)) ltac:(lia)).
    destruct (Z.eq_dec b 0) as [->|Hb0].
    + change (Z.log2 0) with 0. pose proof (Z.log2_nonneg a). lia.
    + pose proof (proj1 (Z.log2_lt_pow2 b n ltac:(lia)) ltac:(lia)). lia.
Qed.
Lemma shiftr_range n a k : 0 <= k -> 0 <= a < 2 ^ n -> 0 <= Z.shiftr a k < 2 ^ n.
Proof.
  intros Hk Ha. rewrite Z.shiftr_div_pow2 by lia. split; [apply Z.div_pos; [lia|apply Z.pow_pos_nonneg; lia]|].
  pose proof (Z.pow_pos_nonneg 2 k ltac:(lia) Hk).
  assert (a / 2 ^ k <= a); [|lia]. apply Z.div_le_upper_bound; nia.
Qed.
Lemma lnot_range n a : - 2 ^ n <= a < 2 ^ n -> - 2 ^ n <= Z.lnot a < 2 ^ n.
Proof. unfold Z.lnot. lia. Qed.

(** [a ^ (a >> k)] on signed values: always non-negative. *)
Lemma shiftr_same_sign a k : 0 <= k -> (0 <= Z.shiftr a k <-> 0 <= a).
Proof. intros. apply Z.shiftr_nonneg. Qed.
Lemma lxor_lnot a b : Z.lxor (Z.lnot a) (Z.lnot b) = Z.lxor a b.
Proof.
  apply Z.bits_inj'. intros i Hi. rewrite !Z.lxor_spec, !Z.lnot_spec by lia.
  now destruct (Z.testbit a i), (Z.testbit b i).
Qed.
Lemma lxor_lnot_l a b : Z.lxor (Z.lnot a) b = Z.lnot (Z.lxor a b).
Proof.
  apply Z.bits_inj'. intros i Hi. rewrite !Z.lnot_spec, !Z.lxor_spec, !Z.lnot_spec by lia.
  now destruct (Z.testbit a i), (Z.testbit b i).
Qed.
Lemma shiftr_lnot a k : 0 <= k -> Z.shiftr (Z.lnot a) k = Z.lnot (Z.shiftr a k).
Proof.
  intros Hk. apply Z.bits_inj'. intros i Hi.
  rewrite Z.lnot_spec, !Z.shiftr_spec, Z.lnot_spec by lia. reflexivity.
Qed.
Definition sxs (k a : Z) : Z := Z.lxor a (Z.shiftr a k).
Lemma sxs_lnot k a : 0 <= k -> sxs k (Z.lnot a) = sxs k a.
Proof. intros. unfold sxs. rewrite shiftr_lnot by lia. apply lxor_lnot. Qed.
Lemma sxs_range k n a : 0 <= k -> 0 <= n -> - 2 ^ n <= a < 2 ^ n -> 0 <= sxs k a < 2 ^ n.
Proof.
  intros Hk Hn Ha. destruct (Z_le_gt_dec 0 a) as [Hp|Hneg].
  - apply lxor_range; [lia|lia|]. apply shiftr_range; lia.
  - rewrite <- sxs_lnot by lia. pose proof (lnot_range n a Ha).
    assert (0 <= Z.lnot a) by (unfold Z.lnot; lia).
    apply lxor_range; [lia|lia|]. apply shiftr_range; lia.
Qed.
(** Two values collide under [a ^ (a >> k)] iff they are equal or complementary. *)
Lemma sxs_eq k a b : 0 < k -> sxs k a = sxs k b <-> (a = b \/ a = Z.lnot b).
Proof.
  intros Hk. split.
  - intros H. unfold sxs in H.
    assert (E : Z.lxor a b = Z.shiftr (Z.lxor a b) k).
    { rewrite Z.shiftr_lxor.
      apply Z.bits_inj'. intros i Hi. apply (f_equal (fun z => Z.testbit z i)) in H.
      rewrite !Z.lxor_spec in *.
      destruct (Z.testbit a i), (Z.testbit b i), (Z.testbit (Z.shiftr a k) i), (Z.testbit (Z.shiftr b k) i);
        cbn in *; congruence. }
    rewrite Z.shiftr_div_pow2 in E by lia. set (d := Z.lxor a b) in *.
    assert (Hd : d = 0 \/ d = -1).
    { pose proof (Z.pow_gt_1 2 k ltac:(lia)) as [Hp _]. specialize (Hp Hk).
      pose proof (Z.div_mod d (2 ^ k) ltac:(lia)). pose proof (Z.mod_pos_bound d (2 ^ k) ltac:(lia)).
      rewrite <- E in H0. nia. }
    destruct Hd as [Hd|Hd].
    + left. now apply Z.lxor_eq.
    + right. assert (X : Z.lxor a (Z.lnot b) = 0).
      { rewrite Z.lxor_comm, lxor_lnot_l, Z.lxor_comm. fold d. rewrite Hd. reflexivity. }
      now apply Z.lxor_eq in X.
  - intros [->| ->]; [reflexivity|]. apply sxs_lnot. lia.
Qed.
Lemma sxs_inj_nonneg k a b : 0 < k -> 0 <= a -> 0 <= b -> sxs k a = sxs k b -> a = b.
Proof. intros Hk Ha Hb H. apply sxs_eq in H; [|lia]. destruct H as [H| ->]; [exact H|]. unfold Z.lnot in Ha. lia. Qed.

Lemma lxor_const_inj c a b : Z.lxor a c = Z.lxor b c -> a = b.
Proof.
  intros H. apply (f_equal (fun z => Z.lxor z c)) in H.
  now rewrite !Z.lxor_assoc, !Z.lxor_nilpotent, !Z.lxor_0_r in H.
Qed.

(** Multiplication by an odd constant is injective modulo 2^w. *)
Lemma odd_mul_inj w m a b : 0 < w -> Z.odd m = true -> Z.abs (a - b) < 2 ^ w ->
  (m * (a - b)) mod 2 ^ w = 0 -> a = b.
Proof.
  intros Hw Hm Hd H. apply Z.mod_divide in H; [|apply Z.pow_nonzero; lia].
  apply Z.gauss in H.
  - destruct H as [q Hq]. assert (q = 0) by nia. lia.
  - apply Zgcd_1_rel_prime. apply rel_prime_sym. apply Zpow_facts.rel_prime_Zpower_r; [lia|].
    apply Z.odd_spec in Hm. destruct Hm as [q ->].
    apply Zgcd_1_rel_prime. rewrite Z.add_comm, (Z.mul_comm 2 q), Z.gcd_comm, Z.gcd_add_mult_diag_r. reflexivity.
Qed.

(** ** Streams *)
Lemma add_chars_app h a b : add_chars h (a ++ b) = add_chars (add_chars h a) b.
Proof. apply fold_left_app. Qed.
Lemma add_chars_chunks h chunks : fold_left add_chars chunks h = add_chars h (concat chunks).
Proof.
  revert h. induction chunks as [|s r IH]; intros h; [reflexivity|]. cbn [fold_left concat]. now rewrite IH, add_chars_app.
Qed.
Lemma result_range h : 0 <= result h < 2 ^ 32.
Proof. apply zwrap_range. lia. Qed.

(** ** The polynomial *)
Lemma zwrap_eq w a b : (a - b) mod 2 ^ w = 0 -> 0 < w -> zwrap w a = zwrap w b.
Proof.
  intros H Hw. unfold zwrap. apply Z.mod_divide in H; [|apply Z.pow_nonzero; lia]. destruct H as [q Hq].
  replace a with (b + q * 2 ^ w) by lia. apply Z.mod_add. apply Z.pow_nonzero; lia.
Qed.
Lemma fast_step h c :
  zwrap 32 (zwrap 32 (zwrap 32 (c + zwrap 32 (Z.shiftl h 6)) + zwrap 32 (Z.shiftl h 16)) - h) =
  zwrap 32 (h * 65599 + c).
Proof.
  unfold zwrap. rewrite !Z.shiftl_mul_pow2 by lia.
  change (2 ^ 6) with 64. change (2 ^ 16) with 65536.
  rewrite (Zplus_mod_idemp_r (h * 64) c), Zplus_mod_idemp_l, Zplus_mod_idemp_r, Zminus_mod_idemp_l.
  f_equal. lia.
Qed.
Lemma fast_fold s : forall h,
  fold_left (fun hash c =>
    zwrap 32 (zwrap 32 (zwrap 32 (c + zwrap 32 (Z.shiftl hash 6)) + zwrap 32 (Z.shiftl hash 16)) - hash)) s (zwrap 32 h)
  = zwrap 32 (h * 65599 ^ Z.of_nat (length s) + poly s).
Proof.
  induction s as [|c s IH]; intros h.
  - cbn [fold_left poly length]. change (Z.of_nat 0) with 0. rewrite Z.pow_0_r. f_equal. lia.
  - cbn [fold_left poly length]. rewrite fast_step.
    replace (zwrap 32 (zwrap 32 h * 65599 + c)) with (zwrap 32 (h * 65599 + c)).
    2:{ unfold zwrap. rewrite <- Zplus_mod_idemp_l, <- (Zmult_mod_idemp_l h), Zplus_mod_idemp_l. reflexivity. }
    rewrite IH. f_equal. rewrite Nat2Z.inj_succ, Z.pow_succ_r by lia. ring.
Qed.
Lemma fast_is_poly s : FastHashCharSequence s = poly s mod 2 ^ 32.
Proof. exact (fast_fold s 0). Qed.

(** ** Integer hashes *)
Lemma sarith_ok m w x y : 0 < w -> sarith m w x = Ok y -> y = swrap w x.
Proof.
  intros Hw. unfold sarith. destruct m; try (intros H; congruence);
    (destruct (in_signed w x) eqn:E; [|discriminate]; intros H; injection H as <-; symmetry; apply swrap_id; [lia|];
     unfold in_signed in E; lia).
Qed.
Lemma sshl_ok m w a s y : sshl m w a s = Ok y -> y = swrap w (a * 2 ^ s).
Proof. unfold sshl. destruct m; try congruence. destruct (_ || _); congruence. Qed.

(** Whenever the ISO semantics define a value it is the wrapping one. *)
Lemma HashInt32_defined m a h : HashInt32 m a = Ok h -> HashInt32 Wrapv a = Ok h.
Proof.
  unfold HashInt32. cbv zeta. set (x := Z.lxor _ _).
  destruct (sshl m 32 x 3) as [t| |] eqn:E1; cbn [bind]; try discriminate.
  apply sshl_ok in E1. subst t. cbn [sshl bind].
  unfold sadd. destruct (sarith m 32 _) as [t| |] eqn:E1; cbn [bind]; try discriminate.
  apply sarith_ok in E1; [|lia]. subst t. cbn [sarith bind].
  unfold smul. destruct (sarith m 32 _) as [t| |] eqn:E1; cbn [bind]; try discriminate.
  apply sarith_ok in E1; [|lia]. subst t. cbn [sarith bind]. auto.
Qed.
Lemma HashInt64_defined m a h : HashInt64 m a = Ok h -> HashInt64 Wrapv a = Ok h.
Proof.
  unfold HashInt64, HashInt64_mix.
  destruct (sshl m 64 a 18) as [t| |] eqn:E1; cbn [bind]; try discriminate.
  apply sshl_ok in E1. subst t. cbn [sshl bind].
  unfold sadd. destruct (sarith m 64 _) as [t| |] eqn:E1; cbn [bind]; try discriminate.
  apply sarith_ok in E1; [|lia]. subst t. cbn [sarith bind].
  unfold smul. destruct (sarith m 64 _) as [t| |] eqn:E1; cbn [bind]; try discriminate.
  apply sarith_ok in E1; [|lia]. subst t. cbn [sarith bind].
  destruct (sshl m 64 _ 6) as [t| |] eqn:E1; cbn [bind]; try discriminate.
  apply sshl_ok in E1. subst t. cbn [sshl bind].
  destruct (sarith m 64 _) as [t| |] eqn:E1; cbn [bind]; try discriminate.
  apply sarith_ok in E1; [|lia]. subst t. cbn [sarith bind]. auto.
Qed.
Lemma HashInt32_wrapv_total a : exists h, HashInt32 Wrapv a = Ok h /\ 0 <= h < 2 ^ 32.
Proof. unfold HashInt32. cbn [sshl sadd smul sarith bind]. eexists. split; [reflexivity|]. apply zwrap_range. lia. Qed.
Lemma HashInt64_wrapv_total a : exists h, HashInt64 Wrapv a = Ok h /\ 0 <= h < 2 ^ 32.
Proof.
  unfold HashInt64, HashInt64_mix. cbn [sshl sadd smul sarith bind]. eexists. split; [reflexivity|]. apply zwrap_range. lia.
Qed.

(** The stages of the wrapping HashInt32. *)
Definition st1 (a : Z) : Z := Z.lxor (Z.lxor a 61) (Z.shiftr a 16).
Definition st2 (a : Z) : Z := swrap 32 (a + swrap 32 (a * 8)).
Definition st4 (a : Z) : Z := swrap 32 (a * 0x27d4eb2d).
Lemma HashInt32_stages a : HashInt32 Wrapv a = Ok (zwrap 32 (sxs 15 (st4 (sxs 4 (st2 (st1 a)))))).
Proof. reflexivity. Qed.

Lemma st1_sxs a : st1 a = Z.lxor (sxs 16 a) 61.
Proof. unfold st1, sxs. rewrite !Z.lxor_assoc. f_equal. apply Z.lxor_comm. Qed.
Lemma st1_eq a b : st1 a = st1 b <-> (a = b \/ a = Z.lnot b).
Proof.
  rewrite !st1_sxs, <- (sxs_eq 16) by lia. split; [apply lxor_const_inj|congruence].
Qed.
Lemma st1_range a : int32 a -> 0 <= st1 a < 2 ^ 31.
Proof.
  intros Ha. rewrite st1_sxs. apply lxor_range; [lia| |lia]. apply sxs_range; [lia|lia|exact Ha].
Qed.
Lemma st2_range a : int32 (st2 a).
Proof. apply (swrap_range 32). lia. Qed.
Lemma st4_range a : int32 (st4 a).
Proof. apply (swrap_range 32). lia. Qed.
Lemma st2_inj a b : int32 a -> int32 b -> st2 a = st2 b -> a = b.
Proof.
  intros Ha Hb H. unfold st2 in H. apply swrap_eq in H; [|lia].
  apply (odd_mul_inj 32 9); [lia|reflexivity|unfold int32 in *; change (2 ^ 31) with 2147483648 in *; change (2 ^ 32) with 4294967296; lia|].
  etransitivity; [|exact H].
  pose proof (swrap_congr 32 (a * 8) ltac:(lia)) as Ca. pose proof (swrap_congr 32 (b * 8) ltac:(lia)) as Cb.
  replace (a + swrap 32 (a * 8) - (b + swrap 32 (b * 8))) with ((a - b) + (swrap 32 (a * 8) - swrap 32 (b * 8))) by lia.
  rewrite <- (Zplus_mod_idemp_r (_ - _)), Zminus_mod, Ca, Cb, <- Zminus_mod, Zplus_mod_idemp_r. f_equal. lia.
Qed.
Lemma st4_inj a b : int32 a -> int32 b -> st4 a = st4 b -> a = b.
Proof.
  intros Ha Hb H. unfold st4 in H. apply swrap_eq in H; [|lia].
  apply (odd_mul_inj 32 0x27d4eb2d); [lia|reflexivity|unfold int32 in *; change (2 ^ 31) with 2147483648 in *; change (2 ^ 32) with 4294967296; lia|].
  etransitivity; [|exact H]. f_equal. lia.
Qed.

Lemma HashInt32_complement a : HashInt32 Wrapv (Z.lnot a) = HashInt32 Wrapv a.
Proof. rewrite !HashInt32_stages. do 4 f_equal. assert (E : st1 (Z.lnot a) = st1 a) by (apply st1_eq; auto). now rewrite E. Qed.
Lemma HashInt32_31bits a h : int32 a -> HashInt32 Wrapv a = Ok h -> 0 <= h < 2 ^ 31.
Proof.
  intros Ha. rewrite HashInt32_stages. intros E. injection E as <-.
  assert (R : 0 <= sxs 15 (st4 (sxs 4 (st2 (st1 a)))) < 2 ^ 31).
  { apply sxs_range; [lia|lia|]. apply st4_range. }
  rewrite zwrap_id; [exact R|]. change (2 ^ 31) with 2147483648 in R. change (2 ^ 32) with 4294967296. lia.
Qed.

(** At most 8 inputs share a hash: each of the three xor-shifts is at most two-to-one. *)
Definition at_most_to_one (n : nat) (P : Z -> Prop) (f : Z -> Z) : Prop :=
  forall y l, NoDup l -> (forall a, In a l -> P a /\ f a = y) -> (length l <= n)%nat.

Lemma nodup_image_bound (n : nat) (f : Z -> Z) :
  forall l, NoDup l -> (forall y l', NoDup l' -> (forall a, In a l' -> In a l /\ f a = y) -> (length l' <= n)%nat) ->
  (length l <= n * length (nodup Z.eq_dec (map f l)))%nat.
Proof.
  intros l Hl Hb.
  set (ys := nodup Z.eq_dec (map f l)).
  assert (Hcov : forall a, In a l -> In (f a) ys) by (intros a Ha; apply nodup_In, in_map, Ha).
  clearbody ys. revert l Hl Hb Hcov. induction ys as [|y ys IH]; intros l Hl Hb Hcov.
  - destruct l as [|a l]; [cbn; lia|]. destruct (Hcov a). now left.
  - set (g := fun a => if Z.eq_dec (f a) y then true else false).
    assert (Hsplit : forall l, length l = (length (filter g l) + length (filter (fun a => negb (g a)) l))%nat).
    { intros l0. induction l0 as [|a l0 IH0]; [reflexivity|]. cbn. destruct (g a); cbn; lia. }
    rewrite (Hsplit l). cbn [length].
    assert (H1 : (length (filter g l) <= n)%nat).
    { apply (Hb y); [now apply NoDup_filter|]. intros a Ha. apply filter_In in Ha as [Ha Hg]. split; [exact Ha|].
      unfold g in Hg. destruct (Z.eq_dec (f a) y); [assumption|discriminate]. }
    assert (H2 : (length (filter (fun a => negb (g a)) l) <= n * length ys)%nat).
    { apply IH.
      - now apply NoDup_filter.
      - intros y' l' Hn' Ha'. apply (Hb y'); [exact Hn'|]. intros a Ha. destruct (Ha' a Ha) as [Hi He].
        apply filter_In in Hi as [Hi _]. auto.
      - intros a Ha. apply filter_In in Ha as [Ha Hg]. destruct (Hcov a Ha) as [E|E]; [|exact E].
        unfold g in Hg. destruct (Z.eq_dec (f a) y); [discriminate|congruence]. }
    lia.
Qed.

Lemma at_most_comp n m (P Q : Z -> Prop) f g : at_most_to_one n P f -> at_most_to_one m Q g ->
  (forall a, P a -> Q (f a)) -> at_most_to_one (n * m) P (fun a => g (f a)).
Proof.
  intros Hf Hg HPQ y l Hl Ha.
  pose proof (nodup_image_bound n f l Hl) as Hb.
  assert (X : (length l <= n * length (nodup Z.eq_dec (map f l)))%nat).
  { apply Hb. intros y' l' Hn' Ha'. apply (Hf y'); [exact Hn'|]. intros a Hin. destruct (Ha' a Hin) as [Hi He].
    split; [apply (Ha a Hi)|exact He]. }
  assert (Y : (length (nodup Z.eq_dec (map f l)) <= m)%nat).
  { apply (Hg y); [apply NoDup_nodup|]. intros z Hz. apply nodup_In, in_map_iff in Hz as (a & <- & Hi).
    destruct (Ha a Hi). auto. }
  nia.
Qed.
Lemma at_most_inj (P : Z -> Prop) f : (forall a b, P a -> P b -> f a = f b -> a = b) -> at_most_to_one 1 P f.
Proof.
  intros H y l Hl Ha. destruct l as [|a [|b l]]; cbn; try lia. exfalso.
  assert (E : a = b).
  { destruct (Ha a) as [Pa Ea]; [now left|]. destruct (Ha b) as [Pb Eb]; [now right; left|]. apply H; congruence. }
  subst b. inversion Hl as [|? ? Hni]; subst. apply Hni. now left.
Qed.
Lemma at_most_two (P : Z -> Prop) f : (forall a b, f a = f b -> a = b \/ a = Z.lnot b) -> at_most_to_one 2 P f.
Proof.
  intros H y l Hl Ha. destruct l as [|a [|b [|d l]]]; cbn; try lia. exfalso.
  destruct (Ha a) as [_ Ea]; [now left|]. destruct (Ha b) as [_ Eb]; [now right; left|].
  destruct (Ha d) as [_ Ed]; [now right; right; left|].
  inversion Hl as [|? ? Ha' Hl']; subst. inversion Hl' as [|? ? Hb' _]; subst.
  assert (Hab : a <> b) by (intros ->; apply Ha'; now left).
  assert (Had : a <> d) by (intros ->; apply Ha'; now right; left).
  assert (Hbd : b <> d) by (intros ->; apply Hb'; now left).
  destruct (H b a Eb) as [X|X]; [congruence|]. destruct (H d a Ed) as [Y|Y]; congruence.
Qed.

Lemma HashInt32_at_most_8 h l :
  NoDup l -> (forall a, In a l -> int32 a /\ HashInt32 Wrapv a = Ok h) -> (length l <= 8)%nat.
Proof.
  intros Hl Ha.
  assert (Q : at_most_to_one (2 * (1 * (2 * (1 * 2)))) int32 (fun a => sxs 15 (st4 (sxs 4 (st2 (st1 a)))))).
  { apply (at_most_comp 2 _ int32 int32 st1 (fun a => sxs 15 (st4 (sxs 4 (st2 a))))).
    - apply at_most_two. intros a b. apply st1_eq.
    - apply (at_most_comp 1 _ int32 int32 st2 (fun a => sxs 15 (st4 (sxs 4 a)))).
      + apply at_most_inj. apply st2_inj.
      + apply (at_most_comp 2 _ int32 int32 (sxs 4) (fun a => sxs 15 (st4 a))).
        * apply at_most_two. intros a b. apply sxs_eq. lia.
        * apply (at_most_comp 1 _ int32 int32 st4 (sxs 15)).
          -- apply at_most_inj. apply st4_inj.
          -- apply at_most_two. intros a b. apply sxs_eq. lia.
          -- intros a _. apply st4_range.
        * intros a Hi. unfold int32 in *. pose proof (sxs_range 4 31 a ltac:(lia) ltac:(lia) Hi). lia.
      + intros a _. apply st2_range.
    - intros a Hi. unfold int32. pose proof (st1_range a Hi). lia. }
  apply (Q h l Hl). intros a Hin. destruct (Ha a Hin) as [Hi E]. split; [exact Hi|].
  rewrite HashInt32_stages in E. injection E as E. rewrite <- E. symmetry. apply zwrap_id.
  assert (R : 0 <= sxs 15 (st4 (sxs 4 (st2 (st1 a)))) < 2 ^ 31) by (apply sxs_range; [lia|lia|apply st4_range]).
  change (2 ^ 31) with 2147483648 in R. change (2 ^ 32) with 4294967296. lia.
Qed.

(** The 64-bit mix is a permutation: unsigned shifts are injective. *)
Lemma xorshift64_inj k a b : 0 < k -> int64 a -> int64 b -> xorshift64 a k = xorshift64 b k -> a = b.
Proof.
  intros Hk Ha Hb H. unfold xorshift64 in H.
  assert (Ra : 0 <= zwrap 64 a < 2 ^ 64) by (apply zwrap_range; lia).
  assert (Rb : 0 <= zwrap 64 b < 2 ^ 64) by (apply zwrap_range; lia).
  assert (R : forall x, 0 <= x < 2 ^ 64 -> 0 <= Z.lxor x (Z.shiftr x k) < 2 ^ 64).
  { intros x Hx. apply lxor_range; [lia|exact Hx|]. apply shiftr_range; [lia|exact Hx]. }
  assert (E : zwrap 64 a = zwrap 64 b).
  { apply (sxs_inj_nonneg k); [lia|lia|lia|].
    apply (f_equal (fun z => z mod 2 ^ 64)) in H. rewrite !swrap_congr in H by lia.
    rewrite !Z.mod_small in H by (apply R; assumption). exact H. }
  unfold zwrap in E.
  assert (X : swrap 64 a = swrap 64 b).
  { unfold swrap. rewrite <- (Zplus_mod_idemp_l a), <- (Zplus_mod_idemp_l b), E. reflexivity. }
  rewrite !swrap_id in X by (try lia; assumption). exact X.
Qed.
Lemma xorshift64_range k a : int64 (xorshift64 a k).
Proof. apply (swrap_range 64). lia. Qed.
Lemma wrap_odd_inj m c a b : Z.odd m = true -> int64 a -> int64 b ->
  (m * a + c) mod 2 ^ 64 = (m * b + c) mod 2 ^ 64 -> a = b.
Proof.
  intros Hm Ha Hb H. apply (odd_mul_inj 64 m); [lia|exact Hm| |].
  - unfold int64 in *. change (2 ^ 63) with 9223372036854775808 in *. change (2 ^ 64) with 18446744073709551616. lia.
  - replace (m * (a - b)) with ((m * a + c) - (m * b + c)) by lia. rewrite Zminus_mod, H, Z.sub_diag. reflexivity.
Qed.
Lemma HashInt64_mix_injective a b h : int64 a -> int64 b ->
  HashInt64_mix Wrapv a = Ok h -> HashInt64_mix Wrapv b = Ok h -> a = b.
Proof.
  intros Ha Hb. unfold HashInt64_mix. cbn [sshl sadd smul sarith bind]. intros E1 E2. rewrite <- E2 in E1. clear E2 h.
  injection E1 as E. unfold sadd, smul, sarith in E.
  assert (RS : forall x, int64 (swrap 64 x)) by (intros; apply (swrap_range 64); lia).
  apply xorshift64_inj in E; [|lia|apply RS|apply RS].
  apply (f_equal (fun z => z mod 2 ^ 64)) in E. rewrite !swrap_congr in E by lia.
  assert (S6 : forall x, (x + swrap 64 (x * 2 ^ 6)) mod 2 ^ 64 = (65 * x + 0) mod 2 ^ 64).
  { intros x. rewrite <- Zplus_mod_idemp_r, swrap_congr by lia. rewrite Zplus_mod_idemp_r. f_equal.
    change (2 ^ 6) with 64. lia. }
  rewrite !S6 in E. apply wrap_odd_inj in E; [|reflexivity|apply xorshift64_range|apply xorshift64_range].
  apply xorshift64_inj in E; [|lia|apply RS|apply RS].
  apply (f_equal (fun z => z mod 2 ^ 64)) in E. rewrite !swrap_congr in E by lia.
  assert (S21 : forall x, (x * 21) mod 2 ^ 64 = (21 * x + 0) mod 2 ^ 64) by (intros; f_equal; lia).
  rewrite !S21 in E. apply wrap_odd_inj in E; [|reflexivity|apply xorshift64_range|apply xorshift64_range].
  apply xorshift64_inj in E; [|lia|apply RS|apply RS].
  apply (f_equal (fun z => z mod 2 ^ 64)) in E. rewrite !swrap_congr in E by lia.
  assert (S18 : forall x, (Z.lnot x + swrap 64 (x * 2 ^ 18)) mod 2 ^ 64 = (262143 * x + -1) mod 2 ^ 64).
  { intros x. rewrite <- Zplus_mod_idemp_r, swrap_congr by lia. rewrite Zplus_mod_idemp_r. f_equal.
    change (2 ^ 18) with 262144. unfold Z.lnot. lia. }
  rewrite !S18 in E. apply wrap_odd_inj in E; auto.
Qed.

(** ** Where HashInt32 is defined *)
Lemma sxs_small k a : 0 < k -> sxs k a < 4 -> - 2 ^ 31 <= a < 2 ^ 31 -> 2 <= k -> -4 <= a <= 3.
Proof.
  intros Hk H Ha Hk2.
  assert (P : forall x, 0 <= x -> sxs k x < 4 -> x <= 3).
  { intros x Hx Hs. destruct (Z_le_gt_dec x 3) as [L|G]; [exact L|exfalso].
    (* the top bit of x survives *)
    assert (Hl : 2 <= Z.log2 x) by (apply (Z.log2_le_mono 4 x); lia).
    assert (B : Z.testbit (sxs k x) (Z.log2 x) = true).
    { unfold sxs. rewrite Z.lxor_spec, Z.shiftr_spec by lia. rewrite (Z.bit_log2 x) by lia.
      rewrite (Z.bits_above_log2 x (Z.log2 x + k)) by lia. reflexivity. }
    assert (Hn : 0 <= sxs k x).
    { unfold sxs. apply Z.lxor_nonneg. rewrite Z.shiftr_nonneg. tauto. }
    assert (L : Z.log2 (sxs k x) <= 1).
    { destruct (Z.eq_dec (sxs k x) 0) as [->|Hz]; [now vm_compute|].
      pose proof (proj1 (Z.log2_lt_pow2 (sxs k x) 2 ltac:(lia)) ltac:(change (2 ^ 2) with 4; lia)). lia. }
    rewrite Z.bits_above_log2 in B by lia. discriminate. }
  destruct (Z_le_gt_dec 0 a) as [Hp|Hn].
  - specialize (P a Hp H). lia.
  - rewrite <- sxs_lnot in H by lia.
    assert (0 <= Z.lnot a) by (unfold Z.lnot; lia). specialize (P _ H0 H). unfold Z.lnot in P. lia.
Qed.

Lemma HashInt32_needs m a h : m <> Wrapv -> int32 a -> HashInt32 m a = Ok h ->
  -4 <= st2 (st1 a) <= 3 /\ (m = Cxx17 -> st1 a = 0 \/ st1 a = 477218588).
Proof.
  intros Hm Ha. unfold HashInt32. cbv zeta. fold (st1 a). pose proof (st1_range a Ha) as R1.
  destruct (sshl m 32 (st1 a) 3) as [t| |] eqn:E1; cbn [bind]; try discriminate.
  pose proof (sshl_ok _ _ _ _ _ E1) as Et.
  destruct (sadd m 32 (st1 a) t) as [y| |] eqn:E2; cbn [bind]; try discriminate.
  pose proof (sarith_ok _ 32 _ _ ltac:(lia) E2) as Ey.
  assert (Ey' : y = st2 (st1 a)) by (unfold st2; rewrite Ey, Et; reflexivity).
  assert (Ry : - 2 ^ 31 <= y < 2 ^ 31) by (rewrite Ey'; apply st2_range).
  unfold smul. destruct (sarith m 32 (Z.lxor y (Z.shiftr y 4) * 668265261)) as [z| |] eqn:E3; cbn [bind]; try discriminate.
  intros _. fold (sxs 4 y) in E3.
  pose proof (sxs_range 4 31 y ltac:(lia) ltac:(lia) Ry) as Rs.
  assert (Hs : sxs 4 y < 4).
  { unfold sarith in E3. destruct m; try congruence; destruct (in_signed 32 _) eqn:E; try discriminate;
      unfold in_signed in E; change (2 ^ (32 - 1)) with 2147483648 in E; lia. }
  assert (Hy : -4 <= y <= 3) by (apply (sxs_small 4); lia).
  split; [rewrite <- Ey'; exact Hy|].
  intros ->. unfold sshl in E1. destruct (Z.ltb_spec (st1 a) 0); [discriminate|].
  destruct (Z.leb_spec (2 ^ 32) (st1 a * 2 ^ 3)); [discriminate|]. cbn [orb] in E1.
  change (2 ^ 3) with 8 in *. change (2 ^ 32) with 4294967296 in *.
  unfold sadd, sarith in E2. destruct (in_signed 32 (st1 a + t)) eqn:E; [|discriminate].
  injection E2 as E2. unfold swrap in Et. change (2 ^ (32 - 1)) with 2147483648 in Et. change (2 ^ 32) with 4294967296 in Et.
  pose proof (Z.div_mod (st1 a * 8 + 2147483648) 4294967296 ltac:(lia)) as D.
  pose proof (Z.mod_pos_bound (st1 a * 8 + 2147483648) 4294967296 ltac:(lia)) as B.
  set (q := (st1 a * 8 + 2147483648) / 4294967296) in *. set (r := (st1 a * 8 + 2147483648) mod 4294967296) in *.
  assert (q = 0 \/ q = 1) by lia. lia.
Qed.

Lemma HashInt32_cxx17_defined_iff a : int32 a ->
  (exists h, HashInt32 Cxx17 a = Ok h) <-> In a [61; -62; 477223760; -477223761].
Proof.
  intros Ha. split.
  - intros [h Hh]. destruct (HashInt32_needs Cxx17 a h ltac:(discriminate) Ha Hh) as [_ H0].
    destruct (H0 eq_refl) as [H1|H1]; [change (st1 a = st1 61) in H1|change (st1 a = st1 477223760) in H1];
      apply st1_eq in H1; cbn in H1 |- *; lia.
  - cbn [In]. intros [<-|[<-|[<-|[<-|[]]]]]; eexists; reflexivity.
Qed.
Lemma HashInt32_cxx20_rarely_defined l : NoDup l ->
  (forall a, In a l -> int32 a /\ exists h, HashInt32 Cxx20 a = Ok h) -> (length l <= 16)%nat.
Proof.
  intros Hl Ha.
  pose proof (nodup_image_bound 2 (fun a => st2 (st1 a)) l Hl) as Hb.
  assert (X : (length l <= 2 * length (nodup Z.eq_dec (map (fun a => st2 (st1 a)) l)))%nat).
  { apply Hb. intros y l' Hn' Ha'.
    pose proof (at_most_comp 2 1 int32 int32 st1 st2 (at_most_two _ _ (fun a b => proj1 (st1_eq a b)))
      (at_most_inj _ _ st2_inj)) as Q.
    apply (Q ltac:(intros a Hi; unfold int32; pose proof (st1_range a Hi); lia) y l' Hn').
    intros a Hin. destruct (Ha' a Hin) as [Hi He]. split; [apply (Ha a Hi)|exact He]. }
  assert (Y : (length (nodup Z.eq_dec (map (fun a => st2 (st1 a)) l)) <= length [-4;-3;-2;-1;0;1;2;3]%Z)%nat).
  { apply NoDup_incl_length; [apply NoDup_nodup|]. intros z Hz. apply nodup_In, in_map_iff in Hz as (a & <- & Hi).
    destruct (Ha a Hi) as [Hr [h Hh]].
    destruct (HashInt32_needs Cxx20 a h ltac:(discriminate) Hr Hh) as [B _].
    set (y := st2 (st1 a)) in *. cbn. lia. }
  cbn [length] in Y. lia.
Qed.
Lemma HashInt32_collides a : int32 a ->
  exists b h, int32 b /\ b <> a /\ HashInt32 Wrapv a = Ok h /\ HashInt32 Wrapv b = Ok h /\ 0 <= h < 2 ^ 31.
Proof.
  intros Ha. destruct (HashInt32_wrapv_total a) as (h & Hh & _).
  exists (Z.lnot a), h. split; [apply (lnot_range 31 a Ha)|]. split; [unfold Z.lnot; lia|].
  split; [exact Hh|]. split; [now rewrite HashInt32_complement|]. exact (HashInt32_31bits a h Ha Hh).
Qed.

(** ** One at a time *)
Lemma mul_shift h k : 0 <= k -> zwrap 32 (h + zwrap 32 (Z.shiftl h k)) = h * (1 + 2 ^ k) mod 2 ^ 32.
Proof. intros H. unfold zwrap. rewrite Zplus_mod_idemp_r, Z.shiftl_mul_pow2 by exact H. f_equal. ring. Qed.
Lemma add_char_oaat h c : add_char h c = oaat_step h c.
Proof.
  unfold add_char, oaat_step. cbv zeta. rewrite Z.shiftr_div_pow2 by lia. change (2 ^ 6) with 64.
  enough (zwrap 32 (zwrap 32 (h + c) + zwrap 32 (Z.shiftl (zwrap 32 (h + c)) 10)) = (h + c) * 1025 mod 2 ^ 32) as -> by reflexivity.
  rewrite mul_shift by lia. unfold zwrap. rewrite Zmult_mod_idemp_l. reflexivity.
Qed.
Lemma result_oaat h : result h = oaat_end h.
Proof.
  unfold result, oaat_end. cbv zeta. rewrite Z.shiftr_div_pow2 by lia. change (2 ^ 11) with 2048.
  rewrite !mul_shift by lia. reflexivity.
Qed.
Lemma HashCharSequence_oaat s : HashCharSequence s = one_at_a_time s.
Proof.
  unfold HashCharSequence, one_at_a_time, hasher0. rewrite result_oaat. f_equal. generalize 0.
  induction s as [|c s IH]; intros h; [reflexivity|]. cbn [add_chars fold_left]. rewrite <- add_char_oaat. apply IH.
Qed.

(** ** HashCombine *)
Lemma HashCombine_eq a b : uint32 a -> uint32 b ->
  HashCombine a b = Z.lxor a ((b + b / 4 + (64 * a + 0x9e3779b9)) mod 2 ^ 32).
Proof.
  intros Ha Hb. unfold HashCombine. f_equal. unfold zwrap. rewrite Z.shiftr_div_pow2, Z.shiftl_mul_pow2 by lia.
  change (2 ^ 2) with 4. change (2 ^ 6) with 64.
  rewrite <- Zplus_mod, Zplus_mod_idemp_l. f_equal. ring.
Qed.
Lemma HashCombine_range a b : uint32 a -> uint32 b -> 0 <= HashCombine a b < 2 ^ 32.
Proof. intros Ha Hb. rewrite HashCombine_eq by assumption. apply lxor_range; [lia|exact Ha|]. apply Z.mod_pos_bound. reflexivity. Qed.
Lemma HashCombine_same a b c : uint32 a -> uint32 b -> uint32 c ->
  HashCombine a b = HashCombine a c <-> (b + b / 4) mod 2 ^ 32 = (c + c / 4) mod 2 ^ 32.
Proof.
  intros Ha Hb Hc. rewrite !HashCombine_eq by assumption. split.
  - intros H. rewrite !(Z.lxor_comm a) in H. apply lxor_const_inj in H.
    replace (b + b / 4) with (b + b / 4 + (64 * a + 0x9e3779b9) - (64 * a + 0x9e3779b9)) by ring.
    rewrite <- Zminus_mod_idemp_l, H, Zminus_mod_idemp_l. f_equal. ring.
  - intros H. f_equal. rewrite <- Zplus_mod_idemp_l, H, Zplus_mod_idemp_l. reflexivity.
Qed.
Lemma stretch_bound b : uint32 b -> 0 <= b + b / 4 < 2 * 2 ^ 32.
Proof. unfold uint32. intros H. pose proof (Z.mod_pos_bound b 4 eq_refl). pose proof (Z.div_mod b 4 ltac:(lia)). change (2 ^ 32) with 4294967296 in *. lia. Qed.
Lemma stretch_inj b c : b + b / 4 = c + c / 4 -> b = c.
Proof.
  intros H. pose proof (Z.mod_pos_bound b 4 eq_refl). pose proof (Z.div_mod b 4 ltac:(lia)).
  pose proof (Z.mod_pos_bound c 4 eq_refl). pose proof (Z.div_mod c 4 ltac:(lia)). lia.
Qed.
Lemma HashCombine_collision a b c : uint32 a -> uint32 b -> uint32 c -> b < c ->
  HashCombine a b = HashCombine a c <-> c + c / 4 = b + b / 4 + 2 ^ 32.
Proof.
  intros Ha Hb Hc L. rewrite HashCombine_same by assumption. pose proof (stretch_bound b Hb). pose proof (stretch_bound c Hc).
  assert (M : b / 4 <= c / 4) by (apply Z.div_le_mono; lia). split.
  - intros H1. assert (E : (c + c / 4 - (b + b / 4)) mod 2 ^ 32 = 0) by (rewrite Zminus_mod, H1, Z.sub_diag; reflexivity).
    apply Z.mod_divide in E; [|discriminate]. destruct E as [q Hq]. assert (b + b / 4 < c + c / 4) by lia.
    change (2 ^ 32) with 4294967296 in *. lia.
  - intros ->. symmetry. replace (b + b / 4 + 2 ^ 32) with (b + b / 4 + 1 * 2 ^ 32) by ring. now rewrite Z.mod_add by discriminate.
Qed.

Lemma HashInt64_cxx17_undefined key : int64 key -> key < 0 \/ 2 ^ 46 <= key -> HashInt64 Cxx17 key = Fault BadShift.
Proof.
  intros _ H. unfold HashInt64, HashInt64_mix, sshl at 1.
  assert ((key <? 0) || (2 ^ 64 <=? key * 2 ^ 18) = true) as ->; [|reflexivity].
  apply Bool.orb_true_iff. rewrite Z.ltb_lt, Z.leb_le. destruct H; [now left|right]. change (2 ^ 64) with (2 ^ 46 * 2 ^ 18). apply Z.mul_le_mono_nonneg_r; lia.
Qed.
