(** Property C102: objects are stored at addresses suitable for their type. *)
From Verif Require Import Base LayoutModel LayoutSpec.
Local Open Scope N_scope.

Lemma pow_le_div a b : power_of_two a -> power_of_two b -> a <= b -> (a | b).
Proof.
  intros [i ->] [j ->] H. exists (2 ^ (j - i)). rewrite <- N.pow_add_r. f_equal. 
  assert (i <= j). { destruct (N.le_gt_cases i j) as [|G]; [auto|]. apply (N.pow_lt_mono_r 2) in G; lia. } lia.
Qed.
Lemma pow_pos a : power_of_two a -> 0 < a.
Proof. intros [k ->]. apply N.neq_0_lt_0. now apply N.pow_nonzero. Qed.
Lemma pow_max a b : power_of_two a -> power_of_two b -> power_of_two (N.max a b).
Proof. intros A B. destruct (N.max_spec a b) as [[_ ->]|[_ ->]]; auto. Qed.
Lemma pow_1 : power_of_two 1. Proof. now exists 0. Qed.
Lemma pow_4 : power_of_two 4. Proof. now exists 2. Qed.
Lemma round_div x a : 0 < a -> (a | round_up x a).
Proof. intros H. exists ((x + a - 1) / a). reflexivity. Qed.
Lemma round_ge x a : 0 < a -> x <= round_up x a.
Proof. intros H. unfold round_up. pose proof (N.div_mod (x + a - 1) a ltac:(lia)). pose proof (N.mod_lt (x + a - 1) a ltac:(lia)). nia. Qed.
Lemma round_lt x a : 0 < a -> round_up x a < x + a.
Proof. intros H. unfold round_up. pose proof (N.div_mod (x + a - 1) a ltac:(lia)). nia. Qed.
Lemma round_least x a m : 0 < a -> (a | m) -> x <= m -> round_up x a <= m.
Proof.
  intros H [k ->] L. destruct (round_div x a H) as [j E]. pose proof (round_lt x a H). rewrite E in *. 
  destruct (N.le_gt_cases j k); nia.
Qed.
Lemma round_exact x a : 0 < a -> (a | x) -> round_up x a = x.
Proof. intros H D. pose proof (round_ge x a H). pose proof (round_least x a x H D ltac:(lia)). lia. Qed.
Lemma round_0 a : 0 < a -> round_up 0 a = 0.
Proof. intros H. apply round_exact; auto. apply N.divide_0_r. Qed.
Lemma round_small x a : 0 < x -> x <= a -> round_up x a = a.
Proof.
  intros H L. pose proof (round_least x a a ltac:(lia) (N.divide_refl _) L). pose proof (round_ge x a ltac:(lia)).
  assert (D : a <= round_up x a) by (apply N.divide_pos_le; [lia|apply round_div; lia]). lia.
Qed.
Lemma round_1 x : round_up x 1 = x.
Proof. apply round_exact; [lia|apply N.divide_1_l]. Qed.
(** Two fields. *)
Lemma offset_2 f g : 0 < align f -> offset [f; g] 1 = round_up (size f) (align g).
Proof. intros H. unfold offset. cbn [place fst nth]. rewrite round_0, N.add_0_l by auto. reflexivity. Qed.
Lemma struct_2 f g : 0 < align f -> 0 < align g -> struct [f; g] = CType (round_up (round_up (size f) (align g) + size g) (N.max (align f) (align g))) (N.max (align f) (align g)).
Proof.
  intros H G. unfold struct, max_align. cbn [place snd fold_right]. rewrite round_0, N.add_0_l by auto.
  rewrite (N.max_l (align g) 1) by lia. reflexivity.
Qed.

(** StorageBuffer (and so Maybe): right for every type that needs no more alignment than uint64_t. *)
Theorem C102_storage_buffer_partial : forall u64 t base, is_type t -> power_of_two u64 -> align t <= u64 ->
  (align (storage_buffer u64 t) | base) ->
  well_placed t (buffer_address base) base (size (storage_buffer u64 t)).
Proof.
  intros u64 t base (Pt & S0 & D) Pu L B. pose proof (pow_pos _ Pu). unfold storage_buffer, union, max_align, max_size in *. cbn [fold_right align size chars] in *.
  rewrite (N.max_l u64 1), (N.max_r 1 u64) in * by lia. unfold well_placed, buffer_address. split; [|split; [lia|]].
  - eapply N.divide_trans; [|exact B]. now apply pow_le_div.
  - pose proof (round_ge (N.max (size t) (N.max 8 0)) u64 ltac:(lia)). lia.
Qed.
Print Assumptions C102_storage_buffer_partial.
Theorem C102_maybe_partial : forall u64 t base, is_type t -> power_of_two u64 -> align t <= u64 ->
  (align (struct (maybe_fields u64 t)) | base) ->
  well_placed t (maybe_value u64 t base) base (size (struct (maybe_fields u64 t))) /\ base + 1 <= maybe_value u64 t base.
Proof.
  intros u64 t base T Pu L B. pose proof (pow_pos _ Pu). unfold maybe_value, maybe_fields, buffer_address in *.
  assert (As : align (storage_buffer u64 t) = u64). { unfold storage_buffer, union, max_align. cbn [fold_right align chars]. lia. }
  rewrite struct_2, offset_2 in * by (cbn [align]; lia). rewrite As in *. cbn [size align] in *.
  pose proof (round_div 1 u64 ltac:(lia)) as Dv. pose proof (round_ge 1 u64 ltac:(lia)).
  pose proof (round_ge (round_up 1 u64 + size (storage_buffer u64 t)) (N.max 1 u64) ltac:(lia)).
  rewrite (N.max_r 1 u64) in * by lia.
  destruct (C102_storage_buffer_partial u64 t (base + round_up 1 u64) T Pu L) as (W1 & W2 & W3). { rewrite As. now apply N.divide_add_r. }
  unfold buffer_address in *. split; [split; [exact W1|split; lia]|lia].
Qed.
Print Assumptions C102_maybe_partial.
(** ... and wrong for every other type: some address is fine for the StorageBuffer, but not for the value in it. *)
Theorem C102_storage_buffer_refuted : forall u64 t, is_type t -> power_of_two u64 -> u64 < align t ->
  exists base, 0 < base /\ (align (storage_buffer u64 t) | base) /\ ~ (align t | buffer_address base).
Proof.
  intros u64 t (Pt & S0 & D) Pu L. pose proof (pow_pos _ Pu). exists u64. split; [lia|]. split.
  - unfold storage_buffer, union, max_align. cbn [fold_right align chars]. rewrite (N.max_l u64 1), (N.max_r 1 u64) by lia. apply N.divide_refl.
  - unfold buffer_address. intros X. apply N.divide_pos_le in X; lia.
Qed.
Print Assumptions C102_storage_buffer_refuted.
Theorem C102_maybe_refuted : forall u64 t, is_type t -> power_of_two u64 -> u64 < align t ->
  exists base, 0 < base /\ (align (struct (maybe_fields u64 t)) | base) /\ ~ (align t | maybe_value u64 t base).
Proof.
  intros u64 t (Pt & S0 & D) Pu L. pose proof (pow_pos _ Pu).
  assert (As : align (storage_buffer u64 t) = u64). { unfold storage_buffer, union, max_align. cbn [fold_right align chars]. lia. }
  unfold maybe_value, maybe_fields, buffer_address. rewrite struct_2, offset_2 by (cbn [align]; lia). cbn [align size]. rewrite As, N.max_r by lia.
  assert (E : round_up 1 u64 = u64) by (apply round_small; lia).
  rewrite E. exists (align t). split; [lia|]. split; [apply pow_le_div; auto; lia|]. intros X.
  apply N.divide_add_cancel_r in X; [|apply N.divide_refl]. apply N.divide_pos_le in X; lia.
Qed.
Print Assumptions C102_maybe_refuted.
(** Function: whatever the callable, if it is stored inline it is well placed, and so is its holder.  [p] is at least 4. *)
Theorem C102_function_inline : forall p dalign t base, is_type t -> power_of_two p -> 4 <= p -> power_of_two dalign -> (align (struct (function_fields p dalign)) | base) ->
  goes_inline p dalign t = true ->
  well_placed (struct (holder_fields p t)) (fn_holder p dalign base) base (size (struct (function_fields p dalign))) /\
  well_placed t (fn_callable p dalign t base) (fn_holder p dalign base) (size (fn_buffer p dalign)) /\
  fn_holder p dalign base + p <= fn_callable p dalign t base.
Proof.
  intros p dalign t base (Pt & S0 & D) Pp L4 Pd B G. pose proof (pow_pos _ Pt). pose proof (pow_pos _ Pd). pose proof (pow_pos _ Pp).
  assert (Ab : align (fn_buffer p dalign) = dalign). { unfold fn_buffer, union, max_align. cbn [fold_right align chars]. lia. }
  assert (Sb : size (fn_buffer p dalign) = round_up (3 * p) dalign). { unfold fn_buffer, union, max_align, max_size. cbn [fold_right align size chars]. f_equal; lia. }
  unfold goes_inline in G. apply N.leb_le in G. rewrite Sb in *. unfold holder_fields, function_fields, fn_callable, fn_holder in *. unfold holder_fields, function_fields in *.
  rewrite !struct_2, ?offset_2 in * by (cbn [align]; lia). rewrite Ab, Sb in *. cbn [size align] in *.
  (* the callable needs no more alignment than pointers and doubles *)
  assert (La : align t <= N.max p dalign).
  { destruct (N.le_gt_cases (align t) (N.max p dalign)) as [|Gt]; [auto|exfalso].
    pose proof (pow_le_div _ _ (pow_max _ _ Pp Pd) Pt ltac:(lia)) as [k Ek]. assert (2 <= k) by nia.
    rewrite (N.max_r p (align t)) in G by lia.
    pose proof (round_ge p (align t) ltac:(lia)) as R1. destruct (round_div p (align t) ltac:(lia)) as [j Ej]. assert (1 <= j) by nia.
    destruct (round_div (round_up p (align t) + size t) (align t) ltac:(lia)) as [m Em]. pose proof (round_ge (round_up p (align t) + size t) (align t) ltac:(lia)).
    assert (2 <= m) by nia. 
    assert (round_up (3 * p) dalign < 4 * N.max p dalign).
    { destruct (N.le_gt_cases dalign p) as [C|C].
      - pose proof (pow_le_div _ _ Pd Pp C) as [q Eq]. rewrite (round_exact (3 * p)); [lia|lia|]. exists (3 * q). lia.
      - pose proof (pow_le_div _ _ Pp Pd ltac:(lia)) as [q Eq]. pose proof (round_lt (3 * p) dalign ltac:(lia)). assert (2 <= q) by nia. nia. }
    rewrite Em in G. nia. }
  (* the buffer *)
  assert (Db : (N.max p dalign | round_up p dalign)).
  { destruct (N.le_gt_cases dalign p) as [C|C].
    - rewrite N.max_l by lia. rewrite round_exact; [apply N.divide_refl|lia|now apply pow_le_div].
    - rewrite N.max_r by lia. apply round_div. lia. }
  assert (Dt : (N.max p (align t) | base + round_up p dalign)).
  { eapply N.divide_trans; [|apply N.divide_add_r; [exact B|exact Db]]. apply pow_le_div; [now apply pow_max|now apply pow_max|lia]. }
  pose proof (round_ge (round_up p dalign + round_up (3 * p) dalign) (N.max p dalign) ltac:(lia)).
  pose proof (round_ge (round_up p (align t) + size t) (N.max p (align t)) ltac:(lia)). pose proof (round_ge p (align t) ltac:(lia)).
  split; [split; [exact Dt|split; cbn [size]; lia]|]. split; [split; [|split; lia]|lia]. apply N.divide_add_r; [|apply round_div; lia].
  eapply N.divide_trans; [|exact Dt]. apply pow_le_div; [auto|now apply pow_max|lia].
Qed.
Print Assumptions C102_function_inline.
(** Tables and arrays: in the block, apart from each other; aligned if malloc aligns for the type. *)
Theorem C102_hash_entries_partial : forall t m table capacity, is_type t -> power_of_two m -> 4 <= m -> align t <= m -> (m | table) ->
  let entry := struct (entry_fields t) in
  (forall i, i < capacity ->
     well_placed entry (entry_at t table i) table (capacity * size entry) /\
     well_placed t (payload_at t table i) (entry_at t table i) (size entry) /\ entry_at t table i + 4 <= payload_at t table i) /\
  (forall i j, i <> j -> apart (entry_at t table i) (size entry) (entry_at t table j) (size entry)).
Proof.
  intros t m table capacity (Pt & S0 & D) Pm L4 La B entry. pose proof (pow_pos _ Pt). subst entry. unfold payload_at, entry_at, entry_fields.
  rewrite struct_2, offset_2 by (cbn [align]; lia). cbn [size align]. set (a := N.max 4 (align t)). set (n := round_up (round_up 4 (align t) + size t) a).
  assert (Pa : power_of_two a) by (apply pow_max; [apply pow_4|auto]). pose proof (pow_pos _ Pa).
  assert (Dn : (a | n)) by (apply round_div; lia). pose proof (round_ge (round_up 4 (align t) + size t) a ltac:(lia)) as Rn. fold n in Rn.
  assert (Dm : (a | table)) by (eapply N.divide_trans; [|exact B]; apply pow_le_div; auto; unfold a; lia).
  pose proof (round_ge 4 (align t) ltac:(lia)). split.
  - intros i Hi. split; [|split; [|lia]].
    + split; cbn [align size]; [apply N.divide_add_r; [exact Dm|now apply N.divide_mul_r]|]. split; [lia|]. 
      assert (i * n + n <= capacity * n) by nia. lia.
    + split; [|split; lia]. apply N.divide_add_r; [|apply round_div; lia]. apply (N.divide_trans _ a); [apply pow_le_div; auto; unfold a; lia|].
      apply N.divide_add_r; [exact Dm|now apply N.divide_mul_r].
  - intros i j Hij. unfold apart. destruct (N.lt_total i j) as [C|[C|C]]; [left; nia|contradiction|right; nia].
Qed.
Print Assumptions C102_hash_entries_partial.
Theorem C102_fixed_array_partial : forall t m data count, is_type t -> power_of_two m -> align t <= m -> (m | data) ->
  (forall i, i < count -> well_placed t (element_at t data i) data (size t * count)) /\
  (forall i j, i <> j -> apart (element_at t data i) (size t) (element_at t data j) (size t)).
Proof.
  intros t m data count (Pt & S0 & D) Pm La B. unfold element_at. split.
  - intros i Hi. split; [|split; nia]. apply N.divide_add_r; [|now apply N.divide_mul_r]. eapply N.divide_trans; [|exact B]. now apply pow_le_div.
  - intros i j Hij. unfold apart. destruct (N.lt_total i j) as [C|[C|C]]; [left; nia|contradiction|right; nia].
Qed.
Print Assumptions C102_fixed_array_partial.
(** malloc only guarantees the alignment [m] of max_align_t: for every type that needs more, a block it may return is wrong. *)
Theorem C102_over_aligned_refuted : forall t m, is_type t -> power_of_two m -> 4 <= m -> m < align t ->
  exists block, 0 < block /\ (m | block) /\ ~ (align t | payload_at t block 0) /\ ~ (align t | element_at t block 0).
Proof.
  intros t m (Pt & S0 & D) Pm L4 Lt. pose proof (pow_pos _ Pm). pose proof (pow_pos _ Pt).
  assert (E : round_up 4 (align t) = align t) by (apply round_small; lia).
  exists m. split; [lia|]. split; [apply N.divide_refl|]. unfold payload_at, entry_at, element_at, entry_fields. rewrite offset_2 by (cbn [align]; lia). cbn [size align]. rewrite E, N.mul_0_l, !N.add_0_r. split.
  - rewrite N.add_comm. intros X. apply N.divide_add_cancel_r in X; [|apply N.divide_refl]. apply N.divide_pos_le in X; lia.
  - intros X. apply N.divide_pos_le in X; lia.
Qed.
Print Assumptions C102_over_aligned_refuted.

(** A 16-byte vector type on x86-64 (alignof(uint64_t) = 8, malloc aligns to 16): Maybe misplaces it at some addresses, hash tables and arrays do not;
    a callable that captures two doubles is stored inline, one that captures a 16-byte vector is not. *)
Example C102_nonvacuous :
  is_type (CType 16 16) /\ is_type (CType 16 8) /\ power_of_two 8 /\ power_of_two 16 /\
  goes_inline 8 8 (CType 16 8) = true /\ goes_inline 8 8 (CType 16 16) = false /\
  fn_callable 8 8 (CType 16 8) 160 = 176 /\ maybe_value 8 (CType 16 16) 160 = 168 /\ maybe_value 8 (CType 16 8) 160 = 168 /\
  size (struct (entry_fields (CType 16 16))) = 32 /\ payload_at (CType 16 16) 160 2 = 240.
Proof.
  repeat split; try (vm_compute; reflexivity); try (now exists 1); try (now exists 2); try (now exists 3); try (now exists 4).
Qed.
