(** Properties C14-C17: hash functions.  Statements only. *)
From Verif Require Import Base HashFnModel HashFnSpec HashFnProofs.
Local Open Scope Z_scope.

(** ** C14 *)
Theorem C14_stream_chunk_independent :
  forall chunks : list (list Z),
  result (fold_left add_chars chunks hasher0) = HashCharSequence (concat chunks) /\
  0 <= HashCharSequence (concat chunks) < 2 ^ 32.
Proof.
  exact (fun chunks => conj (f_equal result (add_chars_chunks hasher0 chunks)) (result_range _)).
Qed.
Print Assumptions C14_stream_chunk_independent.
Example C14_nonvacuous :
  result (fold_left add_chars [[97; -28]; []; [98]] hasher0) = HashCharSequence [97; -28; 98] /\
  HashCharSequence [97; -28; 98] <> HashCharSequence [97; 98; -28].
Proof. split; [reflexivity|]. vm_compute. discriminate. Qed.
(** The value is Jenkins's one-at-a-time hash, for every sequence of chars (signed or not) and any chunking. *)
Theorem C14_one_at_a_time : forall s : list Z, HashCharSequence s = one_at_a_time s.
Proof. exact HashCharSequence_oaat. Qed.
Print Assumptions C14_one_at_a_time.
(** The published check values, for "a" and for "The quick brown fox jumps over the lazy dog". *)
Example C14_published : HashCharSequence [97] = 0xca2e9442 /\
  HashCharSequence [84;104;101;32;113;117;105;99;107;32;98;114;111;119;110;32;102;111;120;32;106;117;109;112;115;32;111;118;101;114;32;116;104;101;32;108;97;122;121;32;100;111;103] = 0x519e91f5.
Proof. split; reflexivity. Qed.
(** result() finalises in place: asking twice gives two different answers. *)
Theorem C14_result_is_not_idempotent :
  exists s, result (result (add_chars hasher0 s)) <> result (add_chars hasher0 s).
Proof. exists [97; 98]. vm_compute. discriminate. Qed.
Print Assumptions C14_result_is_not_idempotent.

(** ** C15 *)
Theorem C15_fast_hash_is_polynomial :
  forall s : list Z, FastHashCharSequence s = poly s mod 2 ^ 32.
Proof. exact fast_is_poly. Qed.
Print Assumptions C15_fast_hash_is_polynomial.
Example C15_nonvacuous : FastHashCharSequence [97; -1; 98] = (97 * 65599 ^ 2 + -1 * 65599 + 98) mod 2 ^ 32.
Proof. reflexivity. Qed.

(** ** C16 *)
(** Full statement: [forall a, int32 a -> exists h, HashInt32 m a = Ok h] for the ISO semantics (and likewise
    HashInt64).  The opposite is true of HashInt32: it is defined for exactly four inputs under C++17 and for at
    most 16 under C++20. *)
Theorem C16_HashInt32_defined_refuted :
  (forall a, int32 a -> (exists h, HashInt32 Cxx17 a = Ok h) <-> In a [61; -62; 477223760; -477223761]) /\
  (forall l, NoDup l -> (forall a, In a l -> int32 a /\ exists h, HashInt32 Cxx20 a = Ok h) -> (length l <= 16)%nat).
Proof. exact (conj HashInt32_cxx17_defined_iff HashInt32_cxx20_rarely_defined). Qed.
Print Assumptions C16_HashInt32_defined_refuted.
Theorem C16_HashInt64_defined_refuted :
  (forall key, int64 key -> key < 0 \/ 2 ^ 46 <= key -> HashInt64 Cxx17 key = Fault BadShift) /\
  (forall p, 2 ^ 46 <= p < 2 ^ 64 -> HashPointer Cxx17 8 p = Fault BadShift) /\
  HashInt64 Cxx17 0 = Fault BadShift /\ HashPointer Cxx17 8 0 = Fault BadShift /\
  HashInt64 Cxx20 (2 ^ 57 + 12345) = Fault SignedOverflow.
Proof.
  split; [exact HashInt64_cxx17_undefined|]. split; [|vm_compute; auto].
  intros p H. unfold HashPointer. cbn [Z.eqb Pos.eqb]. destruct (Z.lt_ge_cases p (2 ^ 63)) as [L|L].
  - rewrite swrap_id by lia. apply HashInt64_cxx17_undefined; [unfold int64; lia|lia].
  - replace (swrap 64 p) with (p - 2 ^ 64).
    + apply HashInt64_cxx17_undefined; [unfold int64|]; change (2 ^ 64) with (2 * 2 ^ 63) in *; lia.
    + unfold swrap. change (64 - 1) with 63. rewrite <- (Z.mod_unique (p + 2 ^ 63) (2 ^ 64) 1 (p + 2 ^ 63 - 2 ^ 64)); [|left|];
        change (2 ^ 64) with (2 * 2 ^ 63) in *; lia.
Qed.
Print Assumptions C16_HashInt64_defined_refuted.

(** What holds: compiled with wrapping signed arithmetic both functions are total and 32-bit, and wherever the
    ISO semantics define a value it is that one. *)
Theorem C16_integer_hashes_with_wrapping_partial :
  (forall a, exists h, HashInt32 Wrapv a = Ok h /\ 0 <= h < 2 ^ 32) /\
  (forall a, exists h, HashInt64 Wrapv a = Ok h /\ 0 <= h < 2 ^ 32) /\
  (forall m a h, HashInt32 m a = Ok h -> HashInt32 Wrapv a = Ok h) /\
  (forall m a h, HashInt64 m a = Ok h -> HashInt64 Wrapv a = Ok h).
Proof.
  exact (conj HashInt32_wrapv_total (conj HashInt64_wrapv_total (conj HashInt32_defined HashInt64_defined))).
Qed.
Print Assumptions C16_integer_hashes_with_wrapping_partial.
Example C16_nonvacuous : HashInt32 Cxx17 61 = Ok 0 /\ HashInt64 Cxx17 5 = Ok 1788267159.
Proof. vm_compute. auto. Qed.

(** ** C17 *)
(** Full statement: [forall a b h, int32 a -> int32 b -> HashInt32 m a = Ok h -> HashInt32 m b = Ok h -> a = b].
    Even with wrapping arithmetic it is false for EVERY input, because the right shifts are arithmetic: every
    integer collides with its complement, and the top bit of the hash is never set. *)
Theorem C17_HashInt32_injective_refuted :
  forall a, int32 a ->
  exists b h, int32 b /\ b <> a /\ HashInt32 Wrapv a = Ok h /\ HashInt32 Wrapv b = Ok h /\ 0 <= h < 2 ^ 31.
Proof. exact HashInt32_collides. Qed.
Print Assumptions C17_HashInt32_injective_refuted.
(** What holds: no hash value has more than 8 preimages, and the 64-bit mix (before truncation to 32 bits) is
    injective. *)
Theorem C17_hash_collisions_bounded_partial :
  (forall h l, NoDup l -> (forall a, In a l -> int32 a /\ HashInt32 Wrapv a = Ok h) -> (length l <= 8)%nat) /\
  (forall a b h, int64 a -> int64 b -> HashInt64_mix Wrapv a = Ok h -> HashInt64_mix Wrapv b = Ok h -> a = b).
Proof. exact (conj HashInt32_at_most_8 HashInt64_mix_injective). Qed.
Print Assumptions C17_hash_collisions_bounded_partial.
Example C17_nonvacuous : HashInt32 Wrapv 7 = HashInt32 Wrapv (-8) /\ HashInt32 Wrapv 7 <> HashInt32 Wrapv 8.
Proof. split; [reflexivity|]. vm_compute. discriminate. Qed.

(** ** C112 *)
(** Full statement: [forall a b c, uint32 a -> uint32 b -> uint32 c -> HashCombine a b = HashCombine a c -> b = c].
    False whatever the first hash is, because it is [second >> 2], not [first >> 2], that is added. *)
Theorem C112_combine_keeps_second_refuted : forall a, uint32 a ->
  uint32 0 /\ uint32 3435973837 /\ HashCombine a 0 = HashCombine a 3435973837.
Proof.
  intros a Ha. assert (H0 : uint32 0) by (unfold uint32; lia). assert (H1 : uint32 3435973837) by (unfold uint32; lia).
  split; [exact H0|]. split; [exact H1|]. apply HashCombine_collision; auto. reflexivity.
Qed.
Print Assumptions C112_combine_keeps_second_refuted.
(** What holds, for all 32-bit hashes: the result is a 32-bit hash; two different second hashes collide in exactly one case,
    which needs the larger to be at least 3435973837 (four fifths of the range); so no three collide, and below that bound the
    second hash can be recovered. *)
Theorem C112_combine_collisions_partial : forall a b c, uint32 a -> uint32 b -> uint32 c ->
  uint32 (HashCombine a b) /\
  HashCombine a b = Z.lxor a ((b + b / 4 + 64 * a + 0x9e3779b9) mod 2 ^ 32) /\
  (b < c -> HashCombine a b = HashCombine a c <-> c + c / 4 = b + b / 4 + 2 ^ 32) /\
  (HashCombine a b = HashCombine a c -> b < 3435973837 -> c < 3435973837 -> b = c) /\
  (forall d, uint32 d -> HashCombine a b = HashCombine a c -> HashCombine a b = HashCombine a d -> b = c \/ b = d \/ c = d).
Proof.
  intros a b c Ha Hb Hc. split; [now apply HashCombine_range|].
  split. { rewrite HashCombine_eq by assumption. now rewrite Z.add_assoc. }
  split; [now apply HashCombine_collision|].
  assert (S : forall x y, uint32 x -> uint32 y -> x < y -> HashCombine a x = HashCombine a y -> 3435973837 <= y).
  { intros x y Hx Hy L E. apply HashCombine_collision in E; auto. pose proof (Z.div_mod y 4 ltac:(lia)). pose proof (Z.mod_pos_bound y 4 eq_refl).
    pose proof (Z.div_pos x 4). unfold uint32 in *. change (2 ^ 32) with 4294967296 in *. lia. }
  split.
  - intros E Lb Lc. destruct (Z.lt_trichotomy b c) as [L|[L|L]]; [|exact L|].
    + specialize (S b c Hb Hc L E). lia.
    + specialize (S c b Hc Hb L (eq_sym E)). lia.
  - intros d Hd E1 E2.
    assert (T : forall x y z, uint32 x -> uint32 y -> uint32 z -> x < y -> y < z -> HashCombine a x = HashCombine a y -> HashCombine a x = HashCombine a z -> False).
    { intros x y z Hx Hy Hz L1 L2 F1 F2. apply HashCombine_collision in F1; auto. apply HashCombine_collision in F2; auto; [|lia].
      assert (y = z) by (apply stretch_inj; lia). lia. }
    destruct (Z.eq_dec b c); [auto|]. destruct (Z.eq_dec b d); [auto|]. destruct (Z.eq_dec c d); [auto|]. exfalso.
    destruct (Z.lt_gt_cases b c) as [[L1|L1] _]; [assumption| |]; destruct (Z.lt_gt_cases b d) as [[L2|L2] _]; [assumption| | |assumption| |];
      destruct (Z.lt_gt_cases c d) as [[L3|L3] _]; try assumption;
      first [ eapply (T b c d); (eassumption || congruence || lia) | eapply (T b d c); (eassumption || congruence || lia)
            | eapply (T c b d); (eassumption || congruence || lia) | eapply (T c d b); (eassumption || congruence || lia)
            | eapply (T d b c); (eassumption || congruence || lia) | eapply (T d c b); (eassumption || congruence || lia) ].
Qed.
Print Assumptions C112_combine_collisions_partial.
Example C112_nonvacuous : HashCombine 7 0 = HashCombine 7 3435973837 /\ HashCombine 7 1 <> HashCombine 1 7.
Proof. split; [reflexivity|]. vm_compute. discriminate. Qed.
