(** Property theorems C70, C71 (ThreadLocal) and C72 (Mutex). *)
From Verif Require Import Base SyncModel SyncSpec SyncProofs.

(** C70: once storage is allocated (and pthread_setspecific succeeds), under every schedule no call faults, and what
    a thread's calls have returned so far plus what its remaining calls would return if it ran alone is what its
    whole program would return if it ran alone: other threads are invisible to it.  A thread that is scheduled often
    enough finishes, having got exactly that. *)
Theorem C70_tls_isolates : forall (V : Type) (zero : V) create_ok set_ok (s0 : tls V) sched,
  (forall n, set_ok n = true) -> ready s0 -> (forall t, pcs s0 t = Idle) ->
  let current s t := match slots s t with Some x => x | None => zero end in
  exists s, trun zero create_ok set_ok s0 sched = Ok s
    /\ (forall t, exists rest,
          results s t ++ rest = results s0 t ++ own_view (current s0 t) (progs s0 t))
    /\ (forall t, 2 * length (progs s0 t) <= count_occ Nat.eq_dec sched t ->
          progs s t = [] /\ results s t = results s0 t ++ own_view (current s0 t) (progs s0 t)).
Proof.
  intros V zero co so s0 sched Hs Hr Hp current.
  destruct (ready_run V zero co so s0 sched Hs s0 Hr) as (s & E & _ & Hok & Hw).
  { intros u. split; [reflexivity|]. now rewrite Hp. }
  exists s. split; [exact E|]. split.
  - intros t. destruct (Hok t) as [H _]. exists (own_view (value V zero s t) (progs s t)). exact H.
  - intros t Ht. destruct (Hok t) as [H Hpc]. specialize (Hw t). unfold work in Hw. rewrite Hp in Hw.
    set (k := count_occ Nat.eq_dec sched t) in *. change (count_occ Nat.eq_dec sched t) with k in Ht. clearbody k. clear E Hs Hr Hok.
    assert (Ep : progs s t = []).
    { destruct (pcs s t) as [|x|x|x| |]; try tauto.
      - destruct (progs s t); auto. exfalso; cbn in Hw; lia.
      - destruct Hpc as [r Hx]. rewrite Hx in Hw. exfalso; cbn in Hw; lia.
      - destruct Hpc as [r Hx]. rewrite Hx in Hw. exfalso; cbn in Hw; lia. }
    split; [exact Ep|]. rewrite Ep in H. cbn [own_view] in H. rewrite app_nil_r in H. exact H.
Qed.
Print Assumptions C70_tls_isolates.

(** The result of pthread_setspecific is ignored: if it fails, set() is silently lost. *)
Theorem C70_tls_failed_store_is_silent_refuted : exists (s : tls nat),
  trun 0 (fun _ => true) (fun _ => false) (tinit (fun t => if t =? 0 then [Set_ 5; Get] else [])) [0;0;0;0;0;0] = Ok s
  /\ results s 0 = [RUnit; RVal 0].
Proof. eexists. split; vm_compute; reflexivity. Qed.
Print Assumptions C70_tls_failed_store_is_silent_refuted.

(** Non-vacuity: a thread that allocates alone reaches a ready state; two threads then interleave. *)
Definition tls_demo : tid -> list (top nat) := fun t =>
  match t with 0 => [Set_ 7; Get] | 1 => [Get; Set_ 9; Get] | _ => [] end.
Example C70_ready_reachable : forall set_ok,
  exists s, trun 0 (fun _ => true) set_ok (tinit (fun t => if t =? 9 then [Alloc] else tls_demo t)) [9; 9] = Ok s
    /\ ready s /\ pcs s 0 = Idle /\ pcs s 9 = Idle /\ results s 9 = [RBool true].
Proof. intros. eexists. split; [vm_compute; reflexivity|]. split; [split; [reflexivity|discriminate]|]. repeat split; reflexivity. Qed.
Example C70_two_threads : exists s,
  trun 0 (fun _ => true) (fun _ => true) (tinit (fun t => if t =? 9 then [Alloc] else tls_demo t))
    [9; 9; 0; 1; 1; 1; 0; 1; 0; 0; 1; 1] = Ok s
  /\ results s 0 = [RUnit; RVal 7] /\ results s 1 = [RVal 0; RUnit; RVal 9].
Proof. eexists. split; [vm_compute; reflexivity|]. split; reflexivity. Qed.

(** C71 fails: allocated_ is set before the key exists, so another thread's set() or get() uses an indeterminate
    key, even when pthread_key_create would succeed. *)
Theorem C71_first_use_race_refuted :
  trun 0 (fun _ => true) (fun _ => true) (tinit (fun t => match t with 0 => [Set_ 7] | 1 => [Set_ 9] | _ => [] end))
    [0; 0; 1; 1] = Fault Uninit
  /\ trun 0 (fun _ => true) (fun _ => true) (tinit (fun t => match t with 0 => [Set_ 7] | 1 => [Get] | _ => [] end))
    [0; 0; 1; 1] = Fault Uninit.
Proof. split; reflexivity. Qed.
Print Assumptions C71_first_use_race_refuted.

(** ... and a failed allocation is reported to one caller only: the next allocate() answers true, the next set() or
    get() uses the uncreated key, and so does the destructor. *)
Theorem C71_failed_allocation_refuted :
  (exists s : tls nat,
     trun 0 (fun _ => false) (fun _ => true) (tinit (fun t => if t =? 0 then [Alloc; Alloc] else [])) [0; 0; 0] = Ok s
     /\ results s 0 = [RBool false; RBool true] /\ tdestroy s = Fault Uninit)
  /\ trun 0 (fun _ => false) (fun _ => true) (tinit (fun t => if t =? 0 then [Alloc; Set_ 1] else [])) [0; 0; 0; 0]
     = Fault Uninit
  /\ trun 0 (fun _ => false) (fun _ => true) (tinit (fun t => if t =? 0 then [Alloc; Get] else [])) [0; 0; 0; 0]
     = Fault Uninit.
Proof. split; [eexists; split; [vm_compute; reflexivity|]; split; reflexivity|]. split; reflexivity. Qed.
Print Assumptions C71_failed_allocation_refuted.
(** The first-use race exists for any programs of any threads in which some thread's first call is set() or allocate() and another's is set() or get(): there is a schedule
    that makes the latter use the key before it exists, whether or not it can be created. *)
Theorem C71_every_first_use_race_refuted : forall (V : Type) (zero : V) create_ok set_ok (progs : tid -> list (top V)) a b,
  a <> b -> (exists x r, progs a = Set_ x :: r) \/ (exists r, progs a = Alloc :: r) ->
  (exists y r, progs b = Set_ y :: r) \/ (exists r, progs b = Get :: r) ->
  exists sched, trun zero create_ok set_ok (tinit progs) sched = Fault Uninit.
Proof.
  intros V zero co so p a b Hab Ha Hb.
  assert (Eab : (a =? b) = false) by now apply Nat.eqb_neq. assert (Eba : (b =? a) = false) by (apply Nat.eqb_neq; auto).
  destruct Ha as [(x & r & Ha)|(r & Ha)], Hb as [(y & r' & Hb)|(r' & Hb)];
   [exists [a; a; b; b]|exists [a; a; b; b]|exists [a; b; b]|exists [a; b; b]];
    repeat (cbn; unfold tstep, goto, at_, alloc_flag; cbn; rewrite ?Ha, ?Hb, ?Eab, ?Eba, ?Nat.eqb_refl; cbn); reflexivity.
Qed.
Print Assumptions C71_every_first_use_race_refuted.
Lemma after_failed_allocation : forall (V : Type) (zero : V) co so (s : tls V) b o r',
  allocated s = true -> key s = None -> pcs s b = Idle -> SyncModel.progs s b = o :: r' ->
  match o with
  | Alloc => exists s', trun zero co so s [b] = Ok s' /\ results s' b = results s b ++ [RBool true]
  | _ => trun zero co so s [b; b] = Fault Uninit
  end.
Proof.
  intros V zero co so [al k sl cr se pc pr re] b o r' Ha Hk Hp Hr. cbn in *. subst al k.
  destruct o; cbn; unfold tstep; cbn; rewrite Hp, Hr; cbn; unfold at_; rewrite ?Nat.eqb_refl; cbn;
    try (rewrite Nat.eqb_refl; reflexivity); try reflexivity.
  eexists. split; [reflexivity|]. cbn. unfold at_. now rewrite Nat.eqb_refl.
Qed.
(** Whenever the creation of the key fails in allocate(), the next call of anybody uses a key that does not exist, or is told that all is well; and so does the destructor. *)
Theorem C71_every_failed_allocation_refuted : forall (V : Type) (zero : V) create_ok set_ok (progs : tid -> list (top V)) a r,
  create_ok 0 = false -> progs a = Alloc :: r ->
  exists s, trun zero create_ok set_ok (tinit progs) [a; a] = Ok s /\ results s a = [RBool false] /\ tdestroy s = Fault Uninit /\
    forall b o r', SyncModel.progs s b = o :: r' ->
      match o with
      | Alloc => exists s', trun zero create_ok set_ok s [b] = Ok s' /\ results s' b = results s b ++ [RBool true]
      | _ => trun zero create_ok set_ok s [b; b] = Fault Uninit
      end.
Proof.
  intros V zero co so p a r Hc Ha. eexists. split.
  - cbn. unfold tstep, goto, at_, alloc_flag. cbn. rewrite Ha. cbn. rewrite Nat.eqb_refl. cbn. unfold key_create. cbn. rewrite Hc. reflexivity.
  - split; [cbn; unfold at_; rewrite Nat.eqb_refl; reflexivity|]. split; [reflexivity|]. intros b o r' Hb.
    eapply after_failed_allocation; eauto. cbn. unfold at_. destruct (b =? a); reflexivity.
Qed.
Print Assumptions C71_every_failed_allocation_refuted.

(** What does hold: in every interleaving of every program, at most one key is created (no key leaks and the key
    never changes once threads use it). *)
Theorem C71_one_key_partial : forall (V : Type) (zero : V) create_ok set_ok progs sched s,
  trun zero create_ok set_ok (tinit progs) sched = Ok s -> creates s <= 1.
Proof.
  intros V zero co so p sched s H. exact (c_le V s (cinv_run V zero co so sched _ s (cinv_init V p) H)).
Qed.
Print Assumptions C71_one_key_partial.

(** One thread alone (no race): its first set() either creates the key and stores, or aborts; get() before any set()
    is the zero value; nothing else can go wrong when creation and stores succeed. *)
Theorem C71_single_thread_partial : forall (V : Type) (zero : V) create_ok set_ok (x : V) rest,
  let s0 := tinit (fun t => if t =? 0 then Set_ x :: rest else []) in
  (create_ok 0 = false -> trun zero create_ok set_ok s0 [0; 0; 0] = Fault Abort)
  /\ (create_ok 0 = true -> (forall n, set_ok n = true) -> forall n, exists s,
        trun zero create_ok set_ok s0 (repeat 0 (4 + n)) = Ok s
        /\ (2 * length rest <= n -> results s 0 = own_view zero (Set_ x :: rest))
        /\ tdestroy s = Ok tt).
Proof.
  intros V zero co so x rest s0. split.
  - intros Hc. subst s0. cbn. unfold key_create. cbn. rewrite Hc. reflexivity.
  - intros Hc Hs n.
    assert (E4 : exists s1, trun zero co so s0 [0; 0; 0; 0] = Ok s1 /\ ready s1 /\ (forall t, pcs s1 t = Idle)
                  /\ progs s1 0 = rest /\ results s1 0 = [RUnit] /\ slots s1 0 = Some x).
    { subst s0. cbn. unfold key_create. cbn. rewrite Hc. cbn. rewrite Hs. eexists. split; [reflexivity|].
      split; [split; [reflexivity|discriminate]|]. split; [|split; [reflexivity|split; reflexivity]].
      intros t. cbn. unfold at_. destruct (t =? 0) eqn:E; reflexivity. }
    destruct E4 as (s1 & E4 & Hr & Hp & Hg & Hres & Hsl).
    destruct (ready_run V zero co so s1 (repeat 0 n) Hs s1 Hr) as (s & E & Hr' & Hok & Hw).
    { intros u. split; [reflexivity|]. now rewrite Hp. }
    exists s. split; [|split].
    + rewrite repeat_app. cbn [repeat app trun]. cbn [trun] in E4.
      destruct (tstep zero co so s0 0) as [a| |]; try discriminate. cbn [bind] in *.
      destruct (tstep zero co so a 0) as [b| |]; try discriminate. cbn [bind] in *.
      destruct (tstep zero co so b 0) as [c| |]; try discriminate. cbn [bind] in *.
      destruct (tstep zero co so c 0) as [d| |]; try discriminate. cbn [bind] in *.
      injection E4 as ->. exact E.
    + intros Hn. destruct (Hok 0) as [H Hpc]. specialize (Hw 0). unfold work in Hw. rewrite Hp, Hg in Hw.
      assert (Hc0 : count_occ Nat.eq_dec (repeat 0 n) 0 = n) by (clear; induction n; cbn; auto).
      rewrite Hc0 in Hw.
      assert (Ep : progs s 0 = []).
      { destruct (pcs s 0) as [|y|y|y| |]; try tauto.
        - destruct (progs s 0); auto. exfalso; cbn in Hw; lia.
        - destruct Hpc as [r Hx]. rewrite Hx in Hw. exfalso; cbn in Hw; lia.
        - destruct Hpc as [r Hx]. rewrite Hx in Hw. exfalso; cbn in Hw; lia. }
      rewrite Ep in H. cbn [own_view] in H. rewrite app_nil_r in H. rewrite H, Hres, Hg. unfold value. rewrite Hsl.
      reflexivity.
    + unfold tdestroy. destruct Hr' as [-> Hk]. destruct (key s); [reflexivity|tauto].
Qed.
Print Assumptions C71_single_thread_partial.

(** If the thread that claims the allocation is not interrupted before the key exists, then from a freshly
    constructed variable, whatever the programs (get() before any set(), explicit allocate(), first set() in several
    threads at once) and whatever else the schedule does: nothing fails, every thread sees its own calls only, and
    the destructor is well defined once no allocation is in progress. *)
Theorem C71_uninterrupted_allocation_partial : forall (V : Type) (zero : V) create_ok set_ok (progs0 : tid -> list (top V)) sched,
  create_ok 0 = true -> (forall n, set_ok n = true) ->
  undisturbed zero create_ok set_ok (tinit progs0) sched ->
  exists s, trun zero create_ok set_ok (tinit progs0) sched = Ok s
    /\ (forall t, exists rest, results s t ++ rest = own_view zero (progs0 t))
    /\ (forall t, 4 * length (progs0 t) <= count_occ Nat.eq_dec sched t ->
          progs s t = [] /\ results s t = own_view zero (progs0 t))
    /\ ((forall u, ~ allocating s u) -> tdestroy s = Ok tt).
Proof.
  intros V zero co so p sched Hc Hs Hd.
  destruct (urun V zero co so Hc Hs (tinit p) sched (tinit p) (uinv0 V zero p) Hd) as (s & E & Hi & Hw).
  exists s. split; [exact E|]. split; [|split].
  - intros t. exact (uprefix V zero _ s t Hi).
  - intros t Ht. assert (uwork V s t = 0); [|eapply (udone V zero co so Hc Hs (tinit p)); eauto]. specialize (Hw t). unfold uwork at 2 in Hw. cbn [tinit pcs progs] in Hw.
    rewrite Nat.sub_0_r in Hw. apply Nat.le_0_r. etransitivity; [exact Hw|]. apply Nat.sub_0_le in Ht. now rewrite Ht.
  - intros Hn. unfold tdestroy. destruct (allocated s) eqn:Ea; [|reflexivity]. destruct (key s) eqn:Ek; [reflexivity|exfalso].
    destruct (u_mid V zero _ s Hi Ea Ek) as [u Hu]. apply (Hn u). unfold allocating. destruct (pcs s u); cbn in Hu; try discriminate; exact Logic.I.
Qed.
Print Assumptions C71_uninterrupted_allocation_partial.
(** get() on a fresh variable, a first set() that loses the race to allocate, the winner, an explicit allocate(). *)
Definition tls_fresh : tid -> list (top nat) := fun t =>
  match t with 0 => [Get; Set_ 7; Get] | 1 => [Set_ 9; Get; Alloc] | _ => [] end.
Definition tls_sched := [0; 0; 1; 0; 0; 1; 1; 0; 0; 1; 0; 1; 0; 1; 0; 0; 0; 0; 1; 1; 1; 1; 1; 1; 1].
Example C71_uninterrupted_case : exists s,
  undisturbed 0 (fun _ => true) (fun _ => true) (tinit tls_fresh) tls_sched
  /\ trun 0 (fun _ => true) (fun _ => true) (tinit tls_fresh) tls_sched = Ok s
  /\ results s 0 = [RVal 0; RUnit; RVal 7] /\ results s 1 = [RUnit; RVal 9; RBool true] /\ creates s = 1.
Proof.
  eexists. split; [|split; [vm_compute; reflexivity|split; [reflexivity|split; reflexivity]]].
  unfold tls_sched. repeat (split; [intros [|[|u]] Hu; vm_compute in Hu; try tauto|intros s' E; vm_compute in E; injection E as <-]). exact Logic.I.
Qed.

(** C72 fails: try_lock() is inherited and does not record the owner, so the assertion fails in a thread that holds
    the lock ... *)
Theorem C72_trylock_refuted :
  (exists s, mrun true (minit (fun t => if t =? 0 then [TryLock; AssertOwns] else [])) [0] = Ok s /\ held s = Some 0)
  /\ mrun true (minit (fun t => if t =? 0 then [TryLock; AssertOwns] else [])) [0; 0] = Fault AssertFail.
Proof. split; [eexists; split; reflexivity|reflexivity]. Qed.
Print Assumptions C72_trylock_refuted.

(** ... and waiting on a condition variable releases the lock through std::mutex without clearing the owner, so the
    assertion passes in a thread that does not hold the lock, even while another thread does. *)
Theorem C72_stale_owner_refuted : exists s s',
  mrun true (minit (fun t => match t with 0 => [Lock; BaseUnlock; AssertOwns] | 1 => [BaseLock] | _ => [] end))
    [0; 0; 0; 1] = Ok s
  /\ held s = Some 1 /\ mstep true s 0 = Ok s'.
Proof. eexists. eexists. split; [vm_compute; reflexivity|]. split; reflexivity. Qed.
Print Assumptions C72_stale_owner_refuted.

(** For threads that only use Mutex::lock()/unlock() in a well-bracketed way (assertions anywhere), whatever the
    schedule: from every reachable state, the next step of a thread fails only if it is an ownership assertion by a
    thread that does not hold the lock, and such an assertion does fail. *)
Theorem C72_assert_exact_partial : forall progs sched s t,
  (forall u, disciplined false (progs u) = true) ->
  mrun true (minit progs) sched = Ok s ->
  (exists s', mstep true s t = Ok s'
     /\ (mpcs s t = MIdle -> hd_error (mprogs s t) = Some AssertOwns -> held s = Some t))
  \/ (mpcs s t = MIdle /\ hd_error (mprogs s t) = Some AssertOwns /\ held s <> Some t
      /\ mstep true s t = Fault AssertFail).
Proof.
  intros p sched s t Hd H. pose proof (mrun_ok sched _ s (minit_ok p Hd) H) as Hi.
  destruct (mstep_ok s t Hi) as [(s' & E & _)|(Hp & r & Eg & Hh & E)].
  - left. exists s'. split; auto. intros Hp Hg. pose proof (Hi t) as Ht. unfold mthread in Ht. rewrite Hp in Ht.
    destruct Ht as [_ Ho]. unfold mstep in E. rewrite Hp in E. destruct (mprogs s t) as [|o r]; [discriminate|].
    cbn in Hg. injection Hg as ->. unfold assert_ in E. cbn [andb] in E. rewrite Ho in E.
    destruct (is (held s) t) eqn:Eh; [now apply is_some|]. cbn in E. discriminate.
  - right. split; auto. rewrite Eg. split; auto. split; auto.
    intros Hx. rewrite Hx, is_self in Hh. discriminate.
Qed.
Print Assumptions C72_assert_exact_partial.

(** Mutual exclusion with Mutex is that of the std::mutex underneath (one holder by construction); in release
    builds the assertion is a no-op. *)
Theorem C72_release_noop : forall s t r,
  mpcs s t = MIdle -> mprogs s t = AssertOwns :: r ->
  mstep false s t = Ok (mnext s (held s) (owner s) t MIdle).
Proof. intros s t r Hp Hg. unfold mstep. rewrite Hp, Hg. reflexivity. Qed.
Print Assumptions C72_release_noop.

Example C72_demo : exists s,
  mrun true (minit (fun t => match t with 0 | 1 => [Lock; AssertOwns; Unlock] | _ => [] end))
    [0; 1; 0; 0; 1; 0; 0; 1; 1; 1; 1; 1] = Ok s
  /\ held s = None /\ mprogs s 0 = [] /\ mprogs s 1 = []
  /\ disciplined false [Lock; AssertOwns; Unlock] = true.
Proof. eexists. split; [vm_compute; reflexivity|]. repeat split; reflexivity. Qed.
