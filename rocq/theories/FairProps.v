(** Properties C100 and C101: progress of AtomicRef (amtl/am-refcounting-threadsafe.h). *)
From Verif Require Import Base AtomicRefModel AtomicRefSpec AtomicRefProofs AtomicRefStep AtomicRefExec AtomicRefProps FairSpec FairProofs.
Local Open Scope nat_scope.

(** C100: from every reachable state, whatever the fair scheduler, all operations in progress complete. *)
Theorem C100_fair_completion : forall vt debug s sched, reachable vt debug s -> fair (length (threads s)) sched ->
  exists n s', turns vt debug s sched n = Ok s' /\ quiescent s'.
Proof. intros vt debug s sched R F. apply (completes vt debug (work s)); auto. now apply (reachable_inv vt debug). Qed.
Print Assumptions C100_fair_completion.
(** Only lock() waits: a thread that is in an operation, but not in lock(), has completed it after seven turns of its own,
    whatever the scheduler and the other threads do. *)
Fixpoint turns_of (t : nat) (sched : nat -> nat) (n : nat) : nat := match n with O => 0 | S m => turns_of t sched m + (if sched m =? t then 1 else 0) end.
Theorem C100_no_other_waiting : forall vt debug s t th sched n, reachable vt debug s -> nth_error (threads s) t = Some th ->
  (forall c o, tpc th <> LkLoad c o) -> (forall c o v, tpc th <> LkCas c o v) -> 7 <= turns_of t sched n ->
  exists s' th', turns vt debug s sched n = Ok s' /\ nth_error (threads s') t = Some th' /\ tpc th' = Idle.
Proof.
  intros vt debug s t th sched n R H N1 N2 Hn. pose proof (reachable_inv vt debug s R) as I. clear R.
  assert (W : waits (tpc th) = false). { destruct (tpc th); try reflexivity; [now destruct (N1 c o)|now destruct (N2 c o old)]. }
  assert (Hr : rank (tpc th) <= 7) by (destruct (tpc th); cbn in *; try discriminate; lia). clear N1 N2.
  assert (G : exists s' th', turns vt debug s sched n = Ok s' /\ inv vt s' /\ nth_error (threads s') t = Some th' /\ waits (tpc th') = false /\ rank (tpc th') <= 7 - turns_of t sched n).
  { clear Hn. induction n as [|n (s1 & [p l] & E1 & I1 & H1 & W1 & R1)]; [exists s, th; cbn; repeat (split; [solve [auto]|]); lia|].
    destruct (turn_ok vt debug s1 (sched n) I1) as (s2 & E2 & I2 & _). cbn [turns turns_of]. rewrite E1. cbn [bind]. exists s2. cbn [tpc] in *.
    pose proof E2 as E. unfold turn in E. destruct (nth_error (threads s1) (sched n)) as [[q m]|] eqn:Hq.
    2: { injection E as <-. exists (Thread p l). repeat (split; [solve [auto]|]). cbn [tpc]. destruct (Nat.eqb_spec (sched n) t); [congruence|lia]. }
    cbn [tpc] in E. assert (D : q = Idle \/ q <> Idle) by (destruct q; [left; reflexivity|right; discriminate..]). destruct D as [->|Hne].
    { injection E as <-. exists (Thread p l). repeat (split; [solve [auto]|]). cbn [tpc]. destruct (Nat.eqb_spec (sched n) t) as [Et|]; [|lia].
      rewrite Et, H1 in Hq. injection Hq as -> ->. cbn. lia. }
    replace (match q with Idle => _ | _ => _ end) with (do (s', _) <- step vt debug s1 (ECont (sched n)); Ok s') in E by (destruct q; congruence).
    cbn [step] in E. rewrite (slot_get_ok _ _ _ Hq) in E. cbn [bind tpc held] in E. destruct (cont vt debug s1 (sched n) q m) as [[s2' o]| |] eqn:Ec; cbn [bind] in E; try discriminate.
    injection E as ->. destruct (cont_shape vt debug s1 (sched n) q m s2 o Hq Ec) as (p' & l' & Et & C).
    destruct (Nat.eqb_spec (sched n) t) as [Es|Es].
    - rewrite Es, H1 in Hq. injection Hq as -> ->. exists (Thread p' l').
      assert (C' : rank p' < rank q). { destruct C as [C|(_ & _ & [(c & op & w & -> & _)|(c & op & old & w & -> & _)])]; [exact C|discriminate..]. }
      split; [exact E2|]. split; [exact I2|]. split; [rewrite Et, Es; apply nth_error_upd_eq, nth_error_Some; congruence|]. cbn [tpc]. split; [|lia].
      destruct q, p'; cbn in C', W1 |- *; try reflexivity; try discriminate; lia.
    - exists (Thread p l). split; [exact E2|]. split; [exact I2|]. split; [rewrite Et, nth_error_upd_ne; auto|]. cbn [tpc]. split; [exact W1|lia]. }
  destruct G as (s' & th' & E & _ & H' & _ & R'). exists s', th'. split; [exact E|]. split; [exact H'|]. assert (Z : rank (tpc th') = 0) by lia. destruct (tpc th'); cbn in Z |- *; try reflexivity; discriminate.
Qed.
Print Assumptions C100_no_other_waiting.
(** Round robin is fair; a state with one operation inside the lock and two waiting for it. *)
Definition crowd : list event := setup ++ [EStart 1 (AGet 0); ECont 1; EStart 0 (ASet 0 24); ECont 0; ECont 0; ECont 0; EStart 2 (AGet 0); ECont 2; ECont 1].
Definition crowded : state := match run Plain true (init 3 1) crowd with Ok (s, _) => s | _ => init 0 0 end.
Example C100_nonvacuous : reachable Plain true crowded /\ ~ quiescent crowded /\ fair (length (threads crowded)) (fun k => k mod 3) /\
  exists s', turns Plain true crowded (fun k => k mod 3) 60 = Ok s' /\ quiescent s' /\ handles s' 24 = 4.
Proof.
  split; [eexists 3, 1, crowd, _; split; [apply legalb_ok; vm_compute; reflexivity|vm_compute; reflexivity]|].
  split; [intros Q; specialize (Q 0 _ eq_refl); vm_compute in Q; discriminate|].
  split.
  - change (length (threads crowded)) with 3. intros t i Ht. exists (i * 3 + t). split; [lia|]. rewrite Nat.add_comm, Nat.mod_add by lia. now apply Nat.mod_small.
  - eexists. split; [vm_compute; reflexivity|]. split; [|vm_compute; reflexivity]. intros [|[|[|t]]] th H; cbn in H; try (injection H as <-; reflexivity). destruct t; discriminate.
Qed.

(** C101 fails: while thread [t] is suspended inside an operation on an AtomicRef (after lock() and before unlock()), no
    operation of any other thread on it completes, whatever everybody else does, for ever - apart from assignments that
    have already stored their value. *)
Theorem C101_suspended_thread_blocks_refuted : forall vt debug s c t u tht thu es s' tr, reachable vt debug s ->
  nth_error (threads s) t = Some tht -> in_section (tpc tht) c -> u <> t -> nth_error (threads s) u = Some thu -> ~ past_section (tpc thu) c ->
  legal vt debug s es -> ~ In (ECont t) es -> run vt debug s es = Ok (s', tr) -> forall o r, ~ In (Res u c o r) tr.
Proof.
  intros vt debug s c t u tht thu es s' tr R Ht St Hut Hu Pu L Nt E. 
  exact (blocked vt debug c t u Hut es s s' tr (reachable_inv vt debug s R) L Nt E tht thu Ht St Hu Pu).
Qed.
Print Assumptions C101_suspended_thread_blocks_refuted.
Fixpoint times {A} (n : nat) (l : list A) : list A := match n with O => [] | S m => l ++ times m l end.
(** Even under a fair scheduler one operation may wait for ever, if another thread keeps coming back: [n] rounds for any [n], in each
    of which the other thread completes a get() and the waiting one gets two turns. *)
Definition come_back : list event := [EStart 1 (AGet 0); ECont 1; ECont 1; ECont 0; ECont 0; ECont 1; ECont 1; ECont 1].
Definition starve0 : list event := [EStart 0 (ACtor 0 0); EStart 0 (AGet 0)].
Definition starving : state := match run Plain true (init 2 1) starve0 with Ok (s, _) => s | _ => init 0 0 end.
Theorem C101_starvation_refuted : reachable Plain true starving /\ nth_error (threads starving) 0 = Some (Thread (LkLoad 0 OGet) []) /\
  forall n, legal Plain true starving (times n come_back) /\
    run Plain true starving (times n come_back) = Ok (starving, times n [Inv 1 0 OGet; Res 1 0 OGet 0%N]).
Proof.
  split; [eexists 2, 1, starve0, _; split; [apply legalb_ok; vm_compute; reflexivity|vm_compute; reflexivity]|]. split; [reflexivity|].
  assert (App : forall es1 es2 s s1 tr1, legal Plain true s es1 -> run Plain true s es1 = Ok (s1, tr1) -> legal Plain true s1 es2 -> legal Plain true s (es1 ++ es2)).
  { clear. induction es1 as [|e es1 IH]; intros es2 s s1 tr1 L R L2; cbn [run app] in *; [injection R as <- <-; exact L2|]. inversion L as [|? ? ? A Rest]; subst. constructor; [exact A|].
    intros s' o E. rewrite E in R. cbn [bind] in R. destruct (run Plain true s' es1) as [[s2 o2]| |] eqn:R2; cbn [bind] in R; try discriminate. injection R as <- <-. eapply IH; eauto. }
  assert (RApp : forall es1 es2 s s1 tr1, run Plain true s es1 = Ok (s1, tr1) -> run Plain true s (es1 ++ es2) = do (s2, tr2) <- run Plain true s1 es2; Ok (s2, tr1 ++ tr2)).
  { clear. induction es1 as [|e es1 IH]; intros es2 s s1 tr1 R; cbn [run app] in *; [injection R as <- <-; destruct (run Plain true s es2) as [[? ?]| |]; reflexivity|].
    destruct (step Plain true s e) as [[s' o]| |]; cbn [bind] in *; try discriminate. destruct (run Plain true s' es1) as [[s2 o2]| |] eqn:R2; cbn [bind] in R; try discriminate.
    injection R as <- <-. rewrite (IH _ _ _ _ R2). destruct (run Plain true s2 es2) as [[? ?]| |]; cbn [bind]; [now rewrite app_assoc|reflexivity..]. }
  assert (One : run Plain true starving come_back = Ok (starving, [Inv 1 0 OGet; Res 1 0 OGet 0%N])) by (vm_compute; reflexivity).
  assert (LOne : legal Plain true starving come_back) by (apply legalb_ok; vm_compute; reflexivity).
  induction n as [|n [IH1 IH2]]; [split; [constructor|reflexivity]|]. cbn [times]. split.
  - eapply App; eauto.
  - rewrite (RApp _ _ _ _ _ One), IH2. reflexivity.
Qed.
Print Assumptions C101_starvation_refuted.
(** The thread that assigns (0) is inside the lock in [crowded]; 1 and 2 are waiting and try, in vain. *)
Definition in_vain : list event := [ECont 1; ECont 2; ECont 2; ECont 1; ECont 2].
Example C101_nonvacuous : exists th0 th1 s', nth_error (threads crowded) 0 = Some th0 /\ in_section (tpc th0) 0 /\
  nth_error (threads crowded) 1 = Some th1 /\ ~ past_section (tpc th1) 0 /\ legal Plain true crowded in_vain /\ run Plain true crowded in_vain = Ok (s', []).
Proof.
  eexists _, _, _. split; [vm_compute; reflexivity|]. split; [reflexivity|]. split; [vm_compute; reflexivity|]. split; [cbn; auto|].
  split; [apply legalb_ok; vm_compute; reflexivity|vm_compute; reflexivity].
Qed.
