(** C117: Mutex as a lock, in debug and release builds. *)
From Verif Require Import Base SyncModel SyncSpec SyncProofs MutexSpec MutexProofs.

(** C117.  Any number of threads with properly bracketed programs, any schedule, both builds: no call is undefined and no
    ownership assertion fails, ... *)
Theorem C117_never_undefined : forall debug progs sched,
  (forall t, bracketed false (progs t) = true) -> exists s, mrun debug (minit progs) sched = Ok s.
Proof. intros debug progs sched H. destruct (grun debug progs sched _ (ginit debug progs H)) as (s & E & _). eauto. Qed.
(** ... two threads are never inside a region at the same time, ... *)
Theorem C117_mutual_exclusion : forall debug progs sched s t u,
  (forall t, bracketed false (progs t) = true) -> mrun debug (minit progs) sched = Ok s ->
  inside (progs t) s t -> inside (progs u) s u -> t = u.
Proof.
  intros debug progs sched s t u H R Ht Hu. destruct (grun debug progs sched _ (ginit debug progs H)) as (s' & E & Hi).
  rewrite R in E. injection E as <-.
  assert (A := inside_holds debug progs s t Hi Ht). assert (B := inside_holds debug progs s u Hi Hu). congruence.
Qed.
(** ... and with finitely many threads, from every moment of every schedule all of them can finish: no deadlock. *)
Theorem C117_no_deadlock : forall debug progs sched s n,
  (forall t, bracketed false (progs t) = true) -> (forall t, n <= t -> progs t = []) ->
  mrun debug (minit progs) sched = Ok s ->
  exists sched' s', mrun debug s sched' = Ok s' /\ finished s'.
Proof.
  intros debug progs sched s n H Hn R. destruct (grun debug progs sched _ (ginit debug progs H)) as (s' & E & Hi).
  rewrite R in E. injection E as <-. apply (finish debug progs n (total s n) s Hi); auto.
  intros t Ht. destruct (Hi t) as (dn & Hd & _). rewrite (Hn t Ht) in Hd. symmetry in Hd. apply app_eq_nil in Hd. tauto.
Qed.

Print Assumptions C117_never_undefined.
Print Assumptions C117_mutual_exclusion.
Print Assumptions C117_no_deadlock.

(** Two threads that enter the region twice each; thread 1 is inside while thread 0 waits. *)
Definition ex_progs (t : tid) : list mop :=
  if t <? 2 then [Lock; AssertOwns; Unlock; Lock; Unlock] else [].
Example ex_bracketed : forall t, bracketed false (ex_progs t) = true.
Proof. intros t. unfold ex_progs. destruct (t <? 2); reflexivity. Qed.
Example ex_inside : exists s, mrun true (minit ex_progs) [1; 0; 1; 0; 0] = Ok s /\ inside (ex_progs 1) s 1 /\ ~ inside (ex_progs 0) s 0.
Proof.
  eexists. split; [vm_compute; reflexivity|]. split.
  - exists [Lock]. split; reflexivity.
  - intros (dn & Hd & Hc). cbn in Hd. assert (dn = []).
    { destruct dn as [|x dn]; auto. apply (f_equal (@length mop)) in Hd. cbn in Hd. rewrite app_length in Hd. cbn in Hd. lia. }
    subst dn. discriminate.
Qed.
