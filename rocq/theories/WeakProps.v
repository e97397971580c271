(** C92, C93: thread-safe reference counting and AtomicRef under the C++11 memory model. *)
From Verif Require Import Base AtomicRefModel AtomicRefSpec AtomicRefProofs AtomicRefStep AtomicRefProps WeakModel WeakSpec WeakInv WeakFrame WeakStep WeakStep2 WeakStep3 WeakExec.
Local Open Scope N_scope.

Lemma handles_at_rest debug s a : reachable Plain debug s -> quiescent s ->
  handles s a = (sum (map (fun th => count_occ N.eq_dec (held th) a) (threads s)) + sum (map (stored a) (cells s)))%nat.
Proof.
  intros R Q. pose proof (reachable_inv Plain debug s R) as I. unfold handles. f_equal.
  - f_equal. apply map_ext_in. intros th Hin. apply In_nth_error in Hin as [t Ht]. rewrite (Q t th Ht). cbn. lia.
  - f_equal. apply map_ext_in. intros x Hin. apply In_nth_error in Hin as [c Hc]. destruct x as [| |w]; cbn; [reflexivity..|]. f_equal. apply untagged_even.
    pose proof (i_lock Plain s I c _ Hc) as Lk. cbn [cexcl] in Lk. rewrite sum_all0 in Lk.
    + rewrite odd_even in Lk. destruct (N.even w); [reflexivity|discriminate].
    + intros th Hth. apply In_nth_error in Hth as [t Ht]. rewrite (Q t th Ht). reflexivity.
Qed.

(** What every good execution guarantees. *)
Definition sound (w : wstate) : Prop :=
  accounted w /\
  (at_rest w -> forall a, (wheap w a <> None <-> (0 < wrefs w a)%nat) /\
     forall ob, wheap w a = Some ob -> exists m h, counts w (wser ob) = m :: h /\ mval m = N.of_nat (wrefs w a)).
Lemma wrefs_erase w s a : rel w s -> (forall c e us h, nth_error (wcells w) c = Some (WLive e us h) -> h <> []) ->
  wrefs w a = (sum (map (fun th => count_occ N.eq_dec (held th) a) (threads s)) + sum (map (stored a) (cells s)))%nat.
Proof.
  intros R NE. unfold wrefs. rewrite (r_th w s R), (r_ce w s R), !map_map. f_equal. f_equal. apply map_ext_in. intros x Hin.
  apply In_nth_error in Hin as [c Hc]. destruct x as [| |e us h]; cbn; auto. destruct h as [|m h]; [|reflexivity]. exfalso. eapply NE; eauto.
Qed.
Lemma rel_sound debug reuse ops n m w s es tr : legal Plain debug (init n m) es -> run Plain debug (init n m) es = Ok (s, tr) -> rel w s -> winv reuse ops w -> sound w.
Proof.
  intros L E R V. assert (Rs : reachable Plain debug s) by (exists n, m, es, tr; auto). pose proof (reachable_inv Plain debug s Rs) as I.
  destruct (inv_books Plain s I) as (B1 & B2 & B3 & B4 & B5 & B6). split.
  - split; [|split; [|split]].
    + intros k. rewrite <- (r_fr w s R), <- (r_de w s R), B4. split; (intros [X|(a & ob & X & Y)]; [now left|right]).
      * destruct (heap_obj_inv w s a ob R X) as (ob' & X' & ->). exists a, ob'. auto.
      * exists a, (erase_ob w ob). split; [now apply heap_obj|exact Y].
    + intros a ob X. rewrite <- (r_de w s R). apply (B5 a (erase_ob w ob)). now apply heap_obj.
    + intros a b oa ob Xa Xb Y. apply (B3 a b (erase_ob w oa) (erase_ob w ob)); [now apply heap_obj|now apply heap_obj|exact Y].
    + now rewrite <- (r_de w s R).
  - intros Q a. assert (Qs : quiescent s).
    { intros t th H. destruct (erase_thread_inv w s t th R H) as (th' & H' & ->). cbn. now rewrite (Q t th' H'). }
    assert (Ew : wrefs w a = handles s a).
    { rewrite (handles_at_rest debug s a Rs Qs). apply wrefs_erase; [exact R|]. intros c e us h H. apply (c_ne _ _ _ _ _ (w_c _ _ w V c e us h H)). }
    rewrite Ew. split.
    + destruct (C39_threadsafe_refcount debug n m es L) as (s' & tr' & E' & _ & X). rewrite E in E'. injection E' as <- <-. rewrite <- (X Qs a).
      pose proof (heap_none w s a R). tauto.
    + intros ob H. destruct (counts w (wser ob)) as [|mm h] eqn:Ec; [destruct (o_ne _ _ _ (w_o _ _ w V a ob H) Ec)|]. exists mm, h. split; [reflexivity|].
      specialize (B1 a _ (heap_obj w s a ob R H)). cbn [erase_ob cnt] in B1. rewrite Ec in B1. cbn [hv] in B1. lia.
Qed.

(** C92: reference counts alone are safe: no use after free, no double deletion, no data race between construction, use
    and deletion of an object, whatever messages the atomics return; at rest an object is alive iff something refers to
    it, and its count is the number of references. *)
Theorem C92_threadsafe_weak_memory : forall debug cas_acquire reuse n m xs, wlegal debug cas_acquire reuse false (winit n m) xs ->
  exists w tr, wrun debug cas_acquire (winit n m) xs = Ok (w, tr) /\ accounted w /\
    (at_rest w -> forall a, (wheap w a <> None <-> (0 < wrefs w a)%nat) /\
       forall ob, wheap w a = Some ob -> exists m h, counts w (wser ob) = m :: h /\ mval m = N.of_nat (wrefs w a)).
Proof.
  intros debug ca re n m xs L.
  destruct (wrun_good debug ca re false (or_intror (or_intror eq_refl)) xs _ _ (inv0 Plain n m) (rel0 n m) (winv0 re false n m) L) as (w & o & E & V & es & s & Ls & Es & R & I & _).
  exists w, o. split; [exact E|]. exact (rel_sound _ _ _ _ _ _ _ _ _ Ls Es R V).
Qed.
Print Assumptions C92_threadsafe_weak_memory.

(** The next step of a thread is always possible: the latest message may be read, and stores may come last. *)
Theorem C92_steps_possible : forall debug cas_acquire reuse ops n m xs w tr t th, cas_acquire = true \/ reuse = false \/ ops = false ->
  wlegal debug cas_acquire reuse ops (winit n m) xs -> wrun debug cas_acquire (winit n m) xs = Ok (w, tr) ->
  nth_error (wths w) t = Some th -> wpc th <> Idle -> wallowed reuse ops w (WCont t 0).
Proof.
  intros debug ca re ops n m xs w tr t th H L E Ht Hp.
  destruct (wrun_good debug ca re ops H xs _ _ (inv0 Plain n m) (rel0 n m) (winv0 re ops n m) L) as (w1 & o1 & E1 & V & _). rewrite E in E1. injection E1 as <- <-.
  exists th. split; [exact Ht|]. split; [exact Hp|].
  assert (Rd : forall k (h : history), h <> [] -> read_ok k h 0).
  { intros k [|x h] X; [congruence|]. split; cbn; [lia|]. intros j mm Hj. lia. }
  assert (O : forall a ob, wheap w a = Some ob -> counts w (wser ob) <> []) by (intros a ob X; apply (o_ne _ _ _ (w_o _ _ w V a ob X))).
  assert (C : forall c e us h, nth_error (wcells w) c = Some (WLive e us h) -> h <> []) by (intros c e us h X; apply (c_ne _ _ _ _ _ (w_c _ _ w V c e us h X))).
  destruct (wpc th); cbn [choice_ok]; auto.
  all: try (intros ob X; split; [apply Rd; eauto|exact Logic.I]).
  all: try (intros ob X; apply Rd; now eauto).
  all: try (intros e us h X; apply Rd; now eauto).
  - intros e us h X. split; [apply Rd; eauto|]. intros; exact Logic.I.
  - intros e us h X. split; [lia|]. split; [intros; lia|exact Logic.I].
Qed.
Print Assumptions C92_steps_possible.

(** Two threads share an object; both use it and drop their reference; the thread that does so last deletes it.  The
    address is reused by thread 1. *)
Definition shared : list wevent :=
  [WStart 0 (WDo (ANew 16)) 0; WCont 0 0; WStart 0 (WDo (AAddRef 16)) 0; WCont 0 0; WStart 0 (WDo (AGive 16 1)) 0;
   WStart 0 (WTouch 16) 0; WStart 1 (WTouch 16) 0; WStart 0 (WDo (ARelease 16)) 0; WStart 1 (WDo (ARelease 16)) 0;
   WCont 1 0; WCont 0 0; WCont 0 0; WCont 0 0; WStart 1 (WDo (ANew 16)) 0; WCont 1 0].
Example shared_legal : forall debug, wlegal debug false true false (winit 2 0) shared.
Proof. intros debug. apply wlegalb_ok. destruct debug; vm_compute; reflexivity. Qed.
Example shared_result : exists w, wrun true false (winit 2 0) shared = Ok (w, []) /\ wdeleted w = [0%nat] /\ at_rest w /\ wrefs w 16 = 1%nat.
Proof.
  eexists. split; [vm_compute; reflexivity|]. split; [reflexivity|]. split; [|vm_compute; reflexivity].
  intros [|[|[|t]]] th H; cbn in H; try discriminate; injection H as <-; reflexivity.
Qed.

(** C93: AtomicRef.  The compare-exchange in lock() does not acquire.  If an object is deleted and a new one is created
    at the same address and stored between the load and the compare-exchange, the reader is not ordered after the
    construction of the object on which it calls AddRef: a data race. *)
Definition aba : list wevent :=
  [WStart 0 (WDo (ACtor 0 0)) 0; WStart 0 (WSync 1) 0;
   WStart 0 (WDo (ANew 16)) 0; WCont 0 0;
   WStart 0 (WDo (ASet 0 16)) 0; WCont 0 0; WCont 0 0; WCont 0 0; WCont 0 0; WCont 0 0; WCont 0 0;
   WStart 0 (WDo (ARelease 16)) 0; WCont 0 0;
   WStart 1 (WDo (AGet 0)) 0; WCont 1 0;                                                   (* loads 16 *)
   WStart 0 (WDo (ASet 0 0)) 0; WCont 0 0; WCont 0 0; WCont 0 0; WCont 0 0; WCont 0 0;      (* stores null *)
   WCont 0 0; WCont 0 0; WCont 0 0;                                                        (* releases and deletes the object *)
   WStart 0 (WDo (ANew 16)) 0; WCont 0 0;                                                  (* another one, same address *)
   WStart 0 (WDo (ASet 0 16)) 0; WCont 0 0; WCont 0 0; WCont 0 0; WCont 0 0; WCont 0 0; WCont 0 0;
   WCont 1 0].                                                                             (* the compare-exchange succeeds *)
Theorem C93_atomicref_race_refuted : forall debug, exists xs,
  wlegal debug false true true (winit 2 1) xs /\ wrun debug false (winit 2 1) xs = Fault DataRace.
Proof.
  intros debug. exists (aba ++ [WCont 1 0]). split; [apply wlegalb_ok; destruct debug; vm_compute; reflexivity|destruct debug; vm_compute; reflexivity].
Qed.
Print Assumptions C93_atomicref_race_refuted.

(** It takes the reuse of an address (or, the code being corrected, nothing: an acquiring compare-exchange has no such
    executions): in executions without it nothing faults, and objects are accounted for as in C92. *)
Theorem C93_atomicref_safe_partial : forall debug cas_acquire reuse n m xs, reuse = false \/ cas_acquire = true ->
  wlegal debug cas_acquire reuse true (winit n m) xs ->
  exists w tr, wrun debug cas_acquire (winit n m) xs = Ok (w, tr) /\ accounted w /\
    (at_rest w -> forall a, (wheap w a <> None <-> (0 < wrefs w a)%nat) /\
       forall ob, wheap w a = Some ob -> exists m h, counts w (wser ob) = m :: h /\ mval m = N.of_nat (wrefs w a)).
Proof.
  intros debug ca re n m xs H L. assert (Hyp : ca = true \/ re = false \/ true = false) by tauto.
  destruct (wrun_good debug ca re true Hyp xs _ _ (inv0 Plain n m) (rel0 n m) (winv0 re true n m) L) as (w & o & E & V & es & s & Ls & Es & R & I & _).
  exists w, o. split; [exact E|]. exact (rel_sound _ _ _ _ _ _ _ _ _ Ls Es R V).
Qed.
Print Assumptions C93_atomicref_safe_partial.

(** A weakly consistent execution looks to its clients like a sequentially consistent one. *)
Theorem C93_looks_sequentially_consistent_partial : forall debug cas_acquire reuse n m xs w tr, reuse = false \/ cas_acquire = true ->
  wlegal debug cas_acquire reuse true (winit n m) xs -> wrun debug cas_acquire (winit n m) xs = Ok (w, tr) ->
  exists es s, legal Plain debug (init n m) es /\ run Plain debug (init n m) es = Ok (s, tr) /\
    deleted s = wdeleted w /\ map held (threads s) = map wheld (wths w) /\ (forall a, hp s a = None <-> wheap w a = None).
Proof.
  intros debug ca re n m xs w tr H L E. assert (Hyp : ca = true \/ re = false \/ true = false) by tauto.
  destruct (wrun_good debug ca re true Hyp xs _ _ (inv0 Plain n m) (rel0 n m) (winv0 re true n m) L) as (w1 & o1 & E1 & V & es & s & Ls & Es & R & I & _).
  rewrite E in E1. injection E1 as <- <-. exists es, s. split; [exact Ls|]. split; [exact Es|]. split; [apply (r_de w s R)|]. split.
  - rewrite (r_th w s R), map_map. reflexivity.
  - intros a. symmetry. now apply heap_none.
Qed.
Print Assumptions C93_looks_sequentially_consistent_partial.

(** In particular an AtomicRef is linearizable, from any moment at which nobody is using it. *)
Theorem C93_linearizable_partial : forall debug cas_acquire reuse n m xs w tr c e us x h ys w' tr', reuse = false \/ cas_acquire = true ->
  wlegal debug cas_acquire reuse true (winit n m) xs -> wrun debug cas_acquire (winit n m) xs = Ok (w, tr) ->
  nth_error (wcells w) c = Some (WLive e us (x :: h)) -> unused w c ->
  wlegal debug cas_acquire reuse true w ys -> (forall t i, ~ In (WStart t (WDo (ADtor c)) i) ys) -> wrun debug cas_acquire w ys = Ok (w', tr') ->
  exists e' us' x' h', nth_error (wcells w') c = Some (WLive e' us' (x' :: h')) /\ linearizable c (mval x) (untagged (mval x')) tr'.
Proof.
  intros debug ca re n m xs w tr c e us x h ys w' tr' H L E Hc Hu L2 Hd E2. assert (Hyp : ca = true \/ re = false \/ true = false) by tauto.
  destruct (wrun_good debug ca re true Hyp xs _ _ (inv0 Plain n m) (rel0 n m) (winv0 re true n m) L) as (w1 & o1 & E1 & V & es & s & Ls & Es & R & I & _).
  rewrite E in E1. injection E1 as <- <-.
  destruct (wrun_good debug ca re true Hyp ys _ _ I R V L2) as (w2 & o2 & E3 & V2 & es2 & s2 & Ls2 & Es2 & R2 & I2 & D). rewrite E2 in E3. injection E3 as <- <-.
  destruct (C42_linearizable Plain debug s c (mval x) es2 s2 tr') as (v & Hv & Li).
  - exists n, m, es, tr. auto.
  - exact (erase_cells w s c _ R Hc).
  - intros t th Ht B. destruct (erase_thread_inv w s t th R Ht) as (th' & Ht' & ->). apply (Hu t th' Ht'). cbn in B. destruct (wpc th'); cbn [erase busy uses] in *; exact B.
  - exact Ls2.
  - intros t Hin. destruct (D c (ex_intro _ t Hin)) as (u & i & X). exact (Hd u i X).
  - exact Es2.
  - destruct (erase_cells_inv w' s2 c _ R2 Hv) as ([| |e' us' h'] & Hy & Ey); try discriminate. cbn in Ey. injection Ey as ->.
    destruct h' as [|x' h']; [destruct (c_ne _ _ _ _ _ (w_c _ _ w' V2 c _ _ _ Hy) eq_refl)|]. exists e', us', x', h'. split; [exact Hy|exact Li].
Qed.
Print Assumptions C93_linearizable_partial.

(** Without reuse of the address: the reader loads an old message, spins, and gets the current object. *)
Definition stale : list wevent :=
  [WStart 0 (WDo (ACtor 0 0)) 0; WStart 0 (WSync 1) 0; WStart 0 (WDo (ANew 16)) 0; WCont 0 0].
Definition stale2 : list wevent :=
  [WStart 0 (WDo (ASet 0 16)) 0; WCont 0 0; WCont 0 0; WCont 0 0; WCont 0 0; WCont 0 0; WCont 0 0;
   WStart 1 (WDo (AGet 0)) 0; WCont 1 2; WCont 1 0; WCont 1 0; WCont 1 0; WCont 1 0; WCont 1 0; WCont 1 0; WCont 1 0;
   WStart 1 (WTouch 16) 0; WStart 0 (WDo (ARelease 16)) 0; WCont 0 0; WStart 1 (WDo (ARelease 16)) 0; WCont 1 0].
Example stale_legal : forall debug, wlegal debug false false true (winit 2 1) (stale ++ stale2).
Proof. intros debug. apply wlegalb_ok. destruct debug; vm_compute; reflexivity. Qed.
Example stale_result : exists w, wrun true false (winit 2 1) (stale ++ stale2) = Ok (w, [Inv 0 0 (OSet 16); Res 0 0 (OSet 16) 0; Inv 1 0 OGet; Res 1 0 OGet 16]) /\
  at_rest w /\ wrefs w 16 = 1%nat.
Proof.
  eexists. split; [vm_compute; reflexivity|]. split; [|vm_compute; reflexivity].
  intros [|[|[|t]]] th H; cbn in H; try discriminate; injection H as <-; reflexivity.
Qed.
(** With an acquiring compare-exchange the execution of the refutation is legal and harmless. *)
Example aba_corrected : exists w tr, wlegal true true true true (winit 2 1) (aba ++ [WCont 1 0]) /\ wrun true true (winit 2 1) (aba ++ [WCont 1 0]) = Ok (w, tr).
Proof. eexists _, _. split; [apply wlegalb_ok; vm_compute; reflexivity|vm_compute; reflexivity]. Qed.
