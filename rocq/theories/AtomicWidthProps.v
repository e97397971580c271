(** Property C135 (amtl/am-refcounting-threadsafe.h: the width of refcount_). *)
From Verif Require Import Base AtomicRefModel AtomicRefSpec AtomicRefProofs AtomicRefStep AtomicRefExec AtomicWidthModel AtomicWidthSpec AtomicWidthProofs.
Local Open Scope N_scope.

(** C135: as long as at no moment 2^width references to one object exist, the count does not wrap: any number of
    threads, cells and steps, any interleaving; nothing faults, and what happens is what the model without a bound
    says, whose books balance. *)
Theorem C135_count_does_not_wrap : forall vt debug width n m es, legalW vt debug width (init n m) es ->
  throughout vt debug width (init n m) es (fun s => forall a, (handles s a < 2 ^ width)%nat) ->
  exists s tr, runW vt debug width (init n m) es = Ok (s, tr) /\ run vt debug (init n m) es = Ok (s, tr) /\ books s.
Proof.
  intros vt debug width n m es L T. destruct (run_same vt debug width es _ (inv0 vt n m) L T) as (s & tr & E & I & EW).
  exists s, tr. split; [exact EW|]. split; [exact E|now apply (inv_books vt)].
Qed.
Print Assumptions C135_count_does_not_wrap.

(** It is enough that memory has room for fewer than 2^width pointers: every reference is one. *)
Theorem C135_memory_bounds_references : forall vt debug width n m es, legalW vt debug width (init n m) es ->
  throughout vt debug width (init n m) es (fun s => (places s < 2 ^ width)%nat) ->
  exists s tr, runW vt debug width (init n m) es = Ok (s, tr) /\ run vt debug (init n m) es = Ok (s, tr) /\ books s.
Proof.
  intros vt debug width n m es L T. apply C135_count_does_not_wrap; [exact L|]. intros b a s tr E R x.
  pose proof (handles_places s x). specialize (T b a s tr E R). cbn beta in T. lia.
Qed.
Print Assumptions C135_memory_bounds_references.

(** The bound matters: a client that holds 2^width + 1 references and releases one deletes the object under the other
    2^width.  (AddRef has no check; a leaking client reaches this with a 32-bit size_t.) *)
Theorem C135_more_references_delete_early : forall debug width, (0 < width)%nat ->
  exists es s, legalW Plain debug width (init 1 0) es /\ runW Plain debug width (init 1 0) es = Ok (s, []) /\
    hp s 8 = None /\ deleted s = [0%nat] /\ handles s 8 = (2 ^ width)%nat.
Proof.
  intros debug width Hw.
  exists ([EStart 0 (ANew 8); ECont 0] ++ concat (repeat [EStart 0 (AAddRef 8); ECont 0] (2 ^ width)) ++
    [EStart 0 (ARelease 8); ECont 0; ECont 0; ECont 0]).
  set (rest := concat _ ++ _).
  assert (P1 : (1 < 2 ^ width)%nat).
  { assert (X : (2 ^ 1 <= 2 ^ width)%nat) by (apply Nat.pow_le_mono_r; lia). cbn in X. lia. }
  set (s1 := State (hset (hset (fun _ => None) 8 (Some (Tobj 0 0 false))) 8 (Some (Tobj 0 (1 mod 2 ^ width)%nat false))) [] [Thread Idle [8]] 1 []).
  assert (S1 : shape s1 (Some (Tobj 0 (length [8] mod 2 ^ width)%nat false)) Idle [8] []).
  { repeat split. intros b. cbn [s1 hp]. unfold hset. rewrite N.eqb_sym. destruct (b =? 8); reflexivity. }
  destruct (adds debug width Hw (2 ^ width) s1 [8] S1 (or_introl eq_refl)) as (s2 & L & R & Hh & Hc & Ht & Hd).
  { rewrite <- repeat_cons. reflexivity. }
  exists s2. split; [|split; [|split; [|split]]].
  - constructor.
    { exists (Thread Idle []). repeat split; try reflexivity; cbn; discriminate. }
    intros s0 o0 E0. injection E0 as <- <-. constructor.
    { exists (Thread (NewP 8) []). split; [reflexivity|discriminate]. }
    intros s0 o0 E0. injection E0 as <- <-. exact L.
  - cbn [app]. transitivity (do (s, o2) <- runW Plain debug width s1 rest; Ok (s, [] ++ ([] ++ o2))); [|unfold rest; rewrite R; reflexivity].
    cbn [runW]. change (stepW Plain debug width (init 1 0) (EStart 0 (ANew 8))) with
      (Ok (State (hset (fun _ => None) 8 (Some (Tobj 0 0 false))) [] [Thread (NewP 8) []] 1 [], @nil obs)). cbn [bind].
    match goal with |- context [stepW _ _ _ ?x (ECont 0)] => change (stepW Plain debug width x (ECont 0)) with (Ok (s1, @nil obs)) end.
    cbn [bind]. destruct (runW Plain debug width s1 rest) as [[? ?]| |]; reflexivity.
  - exact (Hh 8).
  - exact Hd.
  - unfold handles. rewrite Hc, Ht. unfold sum. cbn [map fold_right held tpc pc_refs]. rewrite count_occ_repeat_eq by reflexivity. lia.
Qed.
Print Assumptions C135_more_references_delete_early.

(** The hypotheses are met: one bit suffices for one reference at a time. *)
Definition one_ref : list event := [EStart 0 (ANew 8); ECont 0; EStart 0 (ARelease 8); ECont 0; ECont 0; ECont 0].
Example one_ref_legal : legalW Plain true 1 (init 1 0) one_ref.
Proof.
  unfold one_ref.
  repeat (constructor; [cbn; eexists; repeat split; try reflexivity; try (intros X; discriminate X); cbn; auto; lia|];
    intros s0 o0 E0; vm_compute in E0; injection E0 as <- <-).
  constructor.
Qed.
Example one_ref_small : throughout Plain true 1 (init 1 0) one_ref (fun s => forall a, (handles s a < 2 ^ 1)%nat).
Proof.
  intros b a s tr E R x. unfold one_ref in E.
  do 7 (destruct b as [|? b]; [cbn in R; injection R as <- <-; unfold handles, sum; cbn [map fold_right held tpc pc_refs cells threads init repeat count_occ upd];
    try lia; unfold refto; destruct (N.eq_dec 8 x); repeat (match goal with |- context [if ?q then _ else _] => destruct q end); cbn; lia|]; cbn [app] in E; try discriminate E; injection E as <- E).
Qed.
(** A hypothesis that is met: two threads share an object, the last release deletes it, one bit more than enough. *)
Example width_two : exists s tr, runW Plain true 2 (init 2 0)
    [EStart 0 (ANew 8); ECont 0; EStart 0 (AAddRef 8); ECont 0; EStart 0 (AGive 8 1); EStart 0 (ARelease 8); EStart 1 (ARelease 8);
     ECont 1; ECont 0; ECont 0; ECont 0] = Ok (s, tr) /\ deleted s = [0%nat] /\ hp s 8 = None.
Proof. eexists _, _. vm_compute. repeat split. Qed.
(** With a one-bit count three references are too many: the second release, which leaves one reference, finds 0 - and
    the first found 1. *)
Example width_one : exists s tr, runW Plain true 1 (init 1 0)
    [EStart 0 (ANew 8); ECont 0; EStart 0 (AAddRef 8); ECont 0; EStart 0 (AAddRef 8); ECont 0; EStart 0 (ARelease 8); ECont 0; ECont 0; ECont 0]
    = Ok (s, tr) /\ deleted s = [0%nat] /\ handles s 8 = 2%nat.
Proof. eexists _, _. vm_compute. repeat split. Qed.
