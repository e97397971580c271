(** Property C85 (amtl/am-time.h). *)
From Verif Require Import Base TimeModel.
Local Open Scope Z_scope.

(** The time a timespec denotes, in nanoseconds. *)
Definition nanoseconds (ts : timespec) : Z := tv_sec ts * 1000000000 + tv_nsec ts.
Definition is_int64 (z : Z) : Prop := - 2 ^ 63 <= z < 2 ^ 63.
Definition normalised (ts : timespec) : Prop := is_int64 (tv_sec ts) /\ 0 <= tv_nsec ts < 1000000000.

Lemma s64_ok z : is_int64 z -> s64 z = Ok z.
Proof. intros [A B]. unfold s64, int64. apply Z.leb_le in A. apply Z.ltb_lt in B. now rewrite A, B. Qed.
Lemma s64_fault z : ~ is_int64 z -> s64 z = Fault SignedOverflow.
Proof.
  intros H. unfold s64, int64. destruct (Z.leb_spec (- 2 ^ 63) z); destruct (Z.ltb_spec z (2 ^ 63)); auto. exfalso. apply H. split; auto.
Qed.

(** Exact whenever the time and the seconds alone are representable as nanoseconds, normalised or not. *)
Theorem C85_duration_partial : forall ts, is_int64 (nanoseconds ts) -> is_int64 (tv_nsec ts) -> is_int64 (tv_sec ts * 1000000000) ->
  TimespecToDuration ts = Ok (nanoseconds ts).
Proof.
  intros ts H1 H2 H3. unfold TimespecToDuration, cast_finer. rewrite s64_ok by auto. cbn [bind]. rewrite Z.mul_1_r, s64_ok by auto. cbn [bind]. now apply s64_ok.
Qed.
Print Assumptions C85_duration_partial.
(** For normalised timespecs this excludes exactly the last 0.854775808 s before the earliest representable time ... *)
Theorem C85_duration_normalised_partial : forall ts, normalised ts -> is_int64 (nanoseconds ts) -> tv_sec ts <> -9223372037 ->
  TimespecToDuration ts = Ok (nanoseconds ts).
Proof.
  intros ts [A B] H N. apply C85_duration_partial; auto; unfold is_int64, nanoseconds in *; change (2 ^ 63) with 9223372036854775808 in *; lia.
Qed.
Print Assumptions C85_duration_normalised_partial.
(** ... which is representable, but overflows on the way. *)
Theorem C85_duration_refuted : forall ns, 145224192 <= ns < 1000000000 ->
  let ts := Timespec (-9223372037) ns in
  normalised ts /\ is_int64 (nanoseconds ts) /\ TimespecToDuration ts = Fault SignedOverflow.
Proof.
  intros ns H ts. unfold normalised, is_int64, nanoseconds, ts. cbn [tv_sec tv_nsec]. change (2 ^ 63) with 9223372036854775808.
  split; [lia|]. split; [lia|]. reflexivity.
Qed.
Print Assumptions C85_duration_refuted.
(** Times that are not representable are reported by nothing: undefined behaviour. *)
Theorem C85_duration_domain : forall ts, ~ is_int64 (nanoseconds ts) -> TimespecToDuration ts = Fault SignedOverflow.
Proof.
  intros ts H. unfold TimespecToDuration, cast_finer. destruct (int64 (tv_sec ts * 1000000000)) eqn:E1; [|unfold s64 at 1; now rewrite E1].
  unfold s64 at 1. rewrite E1. cbn [bind]. destruct (int64 (tv_nsec ts * 1)) eqn:E2; [|unfold s64 at 1; now rewrite E2].
  unfold s64 at 1. rewrite E2. cbn [bind]. rewrite Z.mul_1_r. now apply s64_fault.
Qed.
Print Assumptions C85_duration_domain.

(** Conversion to a clock's time_point: the latest multiple of the clock's period not beyond the time, seen from the
    epoch (truncation towards the epoch); exact if the period divides the time, in particular for nanosecond clocks. *)
Definition truncated (k d r : Z) : Prop := (k | r) /\ Z.abs (d - r) < k /\ Z.abs r <= Z.abs d /\ 0 <= d * r.
Theorem C85_time_point : forall k ts d, 0 < k -> TimespecToDuration ts = Ok d ->
  exists r, TimespecToTimePoint k ts = Ok r /\ truncated k d r.
Proof.
  intros k ts d Hk E. unfold TimespecToTimePoint. rewrite E. cbn [bind]. unfold cast_coarser. cbn [bind]. unfold cast_finer.
  assert (Hd : is_int64 d).
  { unfold TimespecToDuration in E. destruct (cast_finer _ _) as [a| |]; cbn [bind] in E; try discriminate.
    destruct (cast_finer _ _) as [b| |]; cbn [bind] in E; try discriminate. unfold s64, int64 in E.
    destruct (Z.leb_spec (- 2 ^ 63) (a + b)); cbn [andb] in E; try discriminate. destruct (Z.ltb_spec (a + b) (2 ^ 63)); try discriminate.
    injection E as <-. now split. }
  set (q := Z.quot d k). pose proof (Z.quot_rem' d k) as D. fold q in D.
  assert (T : truncated k d (q * k)).
  { split; [exists q; ring|]. pose proof (Z.rem_bound_abs d k ltac:(lia)) as B. rewrite (Z.abs_eq k) in B by lia.
    pose proof (Z.rem_sign_mul d k ltac:(lia)) as Sg.
    assert (Q : 0 <= d * q).
    { destruct (Z.le_gt_cases 0 d) as [Hd'|Hd'].
      - apply Z.mul_nonneg_nonneg; [exact Hd'|]. apply Z.quot_pos; lia.
      - pose proof (Z.quot_pos (- d) k ltac:(lia) Hk) as Hq. rewrite Z.quot_opp_l in Hq by lia. fold q in Hq. apply Z.mul_nonpos_nonpos; lia. }
    split; [replace (d - q * k) with (Z.rem d k) by lia; exact B|].
    split; [|nia]. destruct (Z.le_gt_cases 0 d).
    - assert (0 <= Z.rem d k) by (apply Z.rem_nonneg; lia). assert (0 <= q) by (apply Z.quot_pos; lia). nia.
    - assert (Z.rem d k <= 0) by (apply Z.rem_nonpos; lia). assert (q <= 0) by nia. nia. }
  exists (q * k). split; [|exact T]. apply s64_ok. destruct T as (_ & _ & T & Sn). unfold is_int64 in *.
  destruct (Z.le_gt_cases 0 d); [lia|]. assert (q * k <= 0) by nia. lia.
Qed.
Print Assumptions C85_time_point.
Theorem C85_time_point_nanoseconds : forall ts d, TimespecToDuration ts = Ok d -> TimespecToTimePoint 1 ts = Ok d.
Proof.
  intros ts d E. destruct (C85_time_point 1 ts d ltac:(lia) E) as (r & E' & _ & H & _). rewrite E'. f_equal. lia.
Qed.
Print Assumptions C85_time_point_nanoseconds.
Example C85_cases :
  TimespecToDuration (Timespec 3 250) = Ok 3000000250 /\ TimespecToTimePoint 1000 (Timespec 1 1999) = Ok 1000001000
  /\ TimespecToTimePoint 100 (Timespec (-1) 1) = Ok (-999999900).
Proof. vm_compute. auto. Qed.

(** EpochValueToTimePoint: the clock's count is the value, if the representation can hold it; otherwise it is
    congruent to it modulo 2^bits. *)
Theorem C85_epoch_value : forall bits t, 0 < bits ->
  let r := EpochValueToTimePoint bits t in
  - 2 ^ (bits - 1) <= r < 2 ^ (bits - 1) /\ r mod 2 ^ bits = t mod 2 ^ bits
  /\ (- 2 ^ (bits - 1) <= t < 2 ^ (bits - 1) -> r = t).
Proof.
  intros bits t Hb r. unfold r, EpochValueToTimePoint. assert (E : 2 ^ bits = 2 * 2 ^ (bits - 1)).
  { rewrite <- Z.pow_succ_r by lia. f_equal. lia. }
  assert (P : 0 < 2 ^ (bits - 1)) by (apply Z.pow_pos_nonneg; lia). pose proof (Z.mod_pos_bound t (2 ^ bits) ltac:(lia)) as M.
  set (m := t mod 2 ^ bits) in *.
  assert (C : (if m <? 2 ^ (bits - 1) then m else m - 2 ^ bits) mod 2 ^ bits = m).
  { destruct (Z.ltb_spec m (2 ^ (bits - 1))); [apply Z.mod_small; lia|].
    replace (m - 2 ^ bits) with (m + (-1) * 2 ^ bits) by ring. rewrite Z.mod_add by lia. apply Z.mod_small; lia. }
  split; [destruct (Z.ltb_spec m (2 ^ (bits - 1))); lia|]. split; [exact C|]. intros H.
  assert (D : m = t \/ m = t + 2 ^ bits).
  { destruct (Z.le_gt_cases 0 t); [left; apply Z.mod_small; lia|right]. unfold m. rewrite <- (Z.mod_small (t + 2 ^ bits) (2 ^ bits)) by lia.
    replace (t + 2 ^ bits) with (t + 1 * 2 ^ bits) by ring. now rewrite Z.mod_add by lia. }
  destruct (Z.ltb_spec m (2 ^ (bits - 1))); destruct D; lia.
Qed.
Print Assumptions C85_epoch_value.
