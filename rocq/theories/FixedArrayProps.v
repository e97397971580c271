(** Property theorems C58-C60: am-fixedarray.h. *)
From Verif Require Import Base FixedArrayModel FixedArraySpec FixedArrayProofs.

(** * C58 value semantics *)
(** Every program whose requested element counts fit size_t, which never assigns an array to itself, and whose
    allocations succeed, runs without a fault and observes exactly what fixed-length lists would give. *)
Theorem C58_fixedarray_values : forall V dflt veq w sz debug fallible alloc_ok (p : list (op V)) m rs,
  (0 < sz)%N -> (forall n, alloc_ok n = true) ->
  Forall no_self p -> Forall (fits w sz) p -> meanings dflt veq no_vars p = Some (m, rs) ->
  exists s, run V dflt veq w sz debug fallible alloc_ok empty_state p = Ok (s, rs).
Proof.
  intros * Hs Ha Hf Hg Hm.
  destruct (run_ok V dflt veq w sz debug fallible alloc_ok Hs Ha p _ _ _ _ _
              (inv_init V dflt veq w sz) Hf Hg Hm) as (s & l & H & _). eauto.
Qed.
Print Assumptions C58_fixedarray_values.

(** With the default (infallible) policy, whatever the allocator answers: the program either aborts on an
    allocation failure or behaves as above; nothing else can happen. *)
Theorem C58_fixedarray_values_or_abort : forall V dflt veq w sz debug alloc_ok (p : list (op V)) m rs,
  (0 < sz)%N ->
  Forall no_self p -> Forall (fits w sz) p -> meanings dflt veq no_vars p = Some (m, rs) ->
  run V dflt veq w sz debug false alloc_ok empty_state p = Fault Abort
  \/ exists s, run V dflt veq w sz debug false alloc_ok empty_state p = Ok (s, rs).
Proof.
  intros * Hs Hf Hg Hm.
  destruct (run_abort V dflt veq w sz debug alloc_ok p empty_state) as [->|]; auto.
  right. exact (C58_fixedarray_values V dflt veq w sz debug false (fun _ => true) p m rs
    Hs (fun _ => eq_refl) Hf Hg Hm).
Qed.
Print Assumptions C58_fixedarray_values_or_abort.

Definition sample : list (op nat) :=
  [NewSize 0 3; SetAt 0 1 7; CopyCtor 1 0; SetAt 0 1 8; GetAt 1 1; GetAt 0 1; IsEq 0 1; FromVector 2 [0; 8; 0];
   IsEq 0 2; NewDefault 3; AssignCopy 3 1; Back 3; MoveCtor 4 0; Size 0; Size 4; AssignCopy 4 3; GetAt 4 1].
Example C58_nonvacuous :
  Forall no_self sample /\ Forall (fits 64 4) sample
  /\ exists m, meanings 0 Nat.eqb no_vars sample
     = Some (m, [ONone; ONone; ONone; ONone; OVal 7; OVal 8; OBool false; ONone; OBool true; ONone; ONone;
                 OVal 0; ONone; ONat 0; ONat 3; ONone; OVal 7]).
Proof.
  split; [repeat constructor; cbn; lia|]. split; [repeat constructor|]. eexists. reflexivity.
Qed.

(** at(i) beyond the end: assertion failure in debug builds, an out-of-bounds access otherwise. *)
Theorem C58_fixedarray_at_checked : forall V dflt veq w sz debug fallible alloc_ok (p : list (op V)) m rs v l i,
  (0 < sz)%N -> (forall n, alloc_ok n = true) ->
  Forall no_self p -> Forall (fits w sz) p -> meanings dflt veq no_vars p = Some (m, rs) ->
  m v = Some (l, true) -> length l <= i ->
  run V dflt veq w sz debug fallible alloc_ok empty_state (p ++ [GetAt v i])
  = Fault (if debug then AssertFail else OutOfBounds).
Proof.
  intros * Hs Ha Hf Hg Hm Hv Hi.
  destruct (run_ok V dflt veq w sz debug fallible alloc_ok Hs Ha p _ _ _ _ _
              (inv_init V dflt veq w sz) Hf Hg Hm) as (s & lo & H & Hinv & _).
  rewrite run_app, H. cbn [bind run step].
  rewrite (at_beyond V dflt veq w sz debug alloc_ok Hs Ha s m _ v l i Hinv Hv Hi). reflexivity.
Qed.
Print Assumptions C58_fixedarray_at_checked.

(** Likewise for writing through operator [], and back() of an empty array is caught in debug builds. *)
Theorem C58_fixedarray_write_checked : forall V dflt veq w sz debug fallible alloc_ok (p : list (op V)) m rs v l,
  (0 < sz)%N -> (forall n, alloc_ok n = true) ->
  Forall no_self p -> Forall (fits w sz) p -> meanings dflt veq no_vars p = Some (m, rs) ->
  (forall i x, m v = Some (l, true) -> length l <= i ->
     run V dflt veq w sz debug fallible alloc_ok empty_state (p ++ [SetAt v i x]) = Fault (if debug then AssertFail else OutOfBounds)) /\
  (forall b, m v = Some ([], b) -> debug = true ->
     run V dflt veq w sz debug fallible alloc_ok empty_state (p ++ [Back v]) = Fault AssertFail).
Proof.
  intros * Hs Ha Hf Hg Hm.
  destruct (run_ok V dflt veq w sz debug fallible alloc_ok Hs Ha p _ _ _ _ _
              (inv_init V dflt veq w sz) Hf Hg Hm) as (s & lo & H & Hinv & _).
  split.
  - intros i x Hv Hi. rewrite run_app, H. cbn [bind run].
    rewrite (set_beyond V dflt veq w sz debug fallible alloc_ok Hs Ha s m _ v l i x Hinv Hv Hi). reflexivity.
  - intros b Hv ->. rewrite run_app, H. cbn [bind run].
    erewrite back_empty by eauto. reflexivity.
Qed.
Print Assumptions C58_fixedarray_write_checked.

(** * C59 blocks and elements are released exactly once *)
(** Full statement (false): move-assignment to an array with storage never frees it. *)
Theorem C59_fixedarray_leak_refuted : forall V dflt veq debug fallible,
  exists s, run V dflt veq 64 4 debug fallible (fun _ => true) empty_state
      [NewSize 0 2; NewSize 1 3; AssignMove 0 1; Destroy 0; Destroy 1]
    = Ok (s, [ONone; ONone; ONone; ONone; ONone]) /\ length (live s) = 1.
Proof. intros. eexists; split; reflexivity. Qed.
Print Assumptions C59_fixedarray_leak_refuted.

(** Self copy-assignment of any non-empty array reads destroyed elements, in every reachable state. *)
Theorem C59_fixedarray_self_copy_refuted :
  forall V dflt veq w sz debug fallible alloc_ok (p : list (op V)) m rs v x l b,
  (0 < sz)%N -> (forall n, alloc_ok n = true) ->
  Forall no_self p -> Forall (fits w sz) p -> meanings dflt veq no_vars p = Some (m, rs) ->
  m v = Some (x :: l, b) ->
  run V dflt veq w sz debug fallible alloc_ok empty_state (p ++ [AssignCopy v v]) = Fault UseAfterFree.
Proof.
  intros * Hs Ha Hf Hg Hm Hv.
  destruct (run_ok V dflt veq w sz debug fallible alloc_ok Hs Ha p _ _ _ _ _
              (inv_init V dflt veq w sz) Hf Hg Hm) as (s & lo & H & Hinv & _).
  rewrite run_app, H. cbn [bind run].
  rewrite (self_copy V dflt veq w sz debug fallible alloc_ok Hs Ha s m _ v x l b Hinv Hv). reflexivity.
Qed.
Print Assumptions C59_fixedarray_self_copy_refuted.

(** Self move-assignment empties the array and abandons its block. *)
Theorem C59_fixedarray_self_move_refuted : forall V dflt veq debug fallible,
  exists s, run V dflt veq 64 4 debug fallible (fun _ => true) empty_state
      [NewSize 0 2; AssignMove 0 0; Size 0; Destroy 0]
    = Ok (s, [ONone; ONone; ONat 0; ONone]) /\ length (live s) = 1.
Proof. intros. eexists; split; reflexivity. Qed.
Print Assumptions C59_fixedarray_self_move_refuted.

(** Exact accounting: in every such program nothing is freed twice, constructed over, destroyed twice or freed
    while it holds constructed elements (each would be a fault), and once all variables are gone the blocks
    still allocated are exactly those overwritten by a move-assignment. *)
Theorem C59_fixedarray_leaks_exactly_partial :
  forall V dflt veq w sz debug fallible alloc_ok (p : list (op V)) m rs,
  (0 < sz)%N -> (forall n, alloc_ok n = true) ->
  Forall no_self p -> Forall (fits w sz) p -> meanings dflt veq no_vars p = Some (m, rs) ->
  (forall v, m v = None) ->
  exists s, run V dflt veq w sz debug fallible alloc_ok empty_state p = Ok (s, rs)
    /\ length (live s) = abandoned dflt veq no_vars p.
Proof.
  intros * Hs Ha Hf Hg Hm Hend.
  destruct (run_ok V dflt veq w sz debug fallible alloc_ok Hs Ha p _ _ _ _ _
              (inv_init V dflt veq w sz) Hf Hg Hm) as (s & l & H & Hi & Hl).
  rewrite app_nil_r in Hi. exists s. split; [exact H|].
  rewrite (inv_final V dflt veq w sz _ _ _ Hi Hend). exact Hl.
Qed.
Print Assumptions C59_fixedarray_leaks_exactly_partial.

(** In particular, programs that move-assign only over arrays without storage release every block. *)
Theorem C59_fixedarray_releases_partial :
  forall V dflt veq w sz debug fallible alloc_ok (p : list (op V)) m rs,
  (0 < sz)%N -> (forall n, alloc_ok n = true) ->
  Forall no_self p -> Forall (fits w sz) p -> meanings dflt veq no_vars p = Some (m, rs) ->
  (forall v, m v = None) -> abandoned dflt veq no_vars p = 0 ->
  exists s, run V dflt veq w sz debug fallible alloc_ok empty_state p = Ok (s, rs) /\ live s = [].
Proof.
  intros * Hs Ha Hf Hg Hm Hend Hz.
  destruct (C59_fixedarray_leaks_exactly_partial V dflt veq w sz debug fallible alloc_ok p m rs
    Hs Ha Hf Hg Hm Hend) as (s & H & Hl).
  exists s. split; [exact H|]. apply length_zero_iff_nil. congruence.
Qed.
Print Assumptions C59_fixedarray_releases_partial.

Definition clean : list (op nat) :=
  [NewSize 0 3; CopyCtor 1 0; FromVector 2 [5; 6]; AssignCopy 2 1; NewDefault 3; AssignMove 3 0; MoveCtor 4 1;
   AssignCopy 1 4; Destroy 0; Destroy 1; Destroy 2; Destroy 3; Destroy 4].
Example C59_nonvacuous :
  Forall no_self clean /\ Forall (fits 64 4) clean
  /\ (exists m rs, meanings 0 Nat.eqb no_vars clean = Some (m, rs) /\ forall v, m v = None)
  /\ abandoned 0 Nat.eqb no_vars clean = 0.
Proof.
  split; [repeat constructor; cbn; lia|]. split; [repeat constructor|]. split; [|reflexivity].
  eexists _, _. split; [reflexivity|]. intros v. do 5 (destruct v as [|v]; [reflexivity|]). reflexivity.
Qed.

(** * C60 allocation failure and size overflow *)
(** Full statement (false).  With a policy that may return null, a failed allocation leaves size() = n with no
    data, and the destructor then dereferences null - for every n > 0. *)
Theorem C60_fixedarray_alloc_failure_refuted : forall V dflt veq w sz debug alloc_ok n,
  alloc_ok 0 = false -> 0 < n ->
  (exists s, run V dflt veq w sz debug true alloc_ok empty_state [NewSize 0 n; Size 0] = Ok (s, [ONone; ONat n]))
  /\ run V dflt veq w sz debug true alloc_ok empty_state [NewSize 0 n; Destroy 0] = Fault NullDeref.
Proof.
  intros * Ha Hn. destruct n as [|n]; [lia|]. split.
  - cbn [run step fresh_var empty_state vars bind build]. unfold build, allocate, am_malloc.
    cbn [nalloc empty_state]. rewrite Ha. cbn [bind]. eexists. reflexivity.
  - cbn [run step fresh_var empty_state vars bind]. unfold build, allocate, am_malloc.
    cbn [nalloc empty_state]. rewrite Ha. reflexivity.
Qed.
Print Assumptions C60_fixedarray_alloc_failure_refuted.

(** sizeof(T) * n is not checked: whenever it exceeds size_t, the constructor writes outside the block it got. *)
Theorem C60_fixedarray_size_overflow_refuted : forall V dflt veq w sz debug fallible alloc_ok n,
  alloc_ok 0 = true -> (0 < sz)%N -> (2 ^ w <= sz * N.of_nat n)%N ->
  run V dflt veq w sz debug fallible alloc_ok empty_state [NewSize 0 n] = Fault OutOfBounds.
Proof. intros. cbn [run]. rewrite new_overflow; auto. Qed.
Print Assumptions C60_fixedarray_size_overflow_refuted.

Example C60_overflow_nonvacuous : (2 ^ 8 <= 4 * N.of_nat 64)%N.
Proof. vm_compute. discriminate. Qed.

(** What holds: an array of size 0 survives a failed allocation; and with the default policy a failure aborts
    before anything is touched (C58_fixedarray_values_or_abort above, for all programs). *)
Theorem C60_fixedarray_alloc_failure_partial : forall V dflt veq w sz debug alloc_ok,
  alloc_ok 0 = false ->
  (exists s, run V dflt veq w sz debug true alloc_ok empty_state [NewSize 0 0; Destroy 0] = Ok (s, [ONone; ONone])
     /\ live s = [])
  /\ forall n, run V dflt veq w sz debug false alloc_ok empty_state [NewSize 0 n] = Fault Abort.
Proof.
  intros * Ha. split; [eexists; split|intros n];
    cbn [run step fresh_var empty_state vars bind]; unfold build, allocate, am_malloc;
    cbn [nalloc empty_state]; rewrite ?Ha; reflexivity.
Qed.
Print Assumptions C60_fixedarray_alloc_failure_partial.
