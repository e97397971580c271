(** Properties C39-C42 (amtl/am-refcounting-threadsafe.h). *)
From Verif Require Import Base AtomicRefModel AtomicRefSpec AtomicRefProofs AtomicRefStep AtomicRefLin AtomicRefExec.
Local Open Scope N_scope.

(** C39: any number of threads and AtomicRefs, any interleaving, any length: no fault (no use after free, no double
    delete, no failed assertion), and the books balance; when all threads are idle an object is alive exactly if it
    is referenced. *)
Theorem C39_threadsafe_refcount : forall debug n m es, legal Plain debug (init n m) es ->
  exists s tr, run Plain debug (init n m) es = Ok (s, tr) /\ books s /\
    (quiescent s -> forall a, hp s a <> None <-> (0 < handles s a)%nat).
Proof.
  intros debug n m es L. destruct (run_ok Plain debug es _ (inv0 Plain n m) L) as (s & tr & E & I). exists s, tr.
  split; [exact E|]. split; [now apply (inv_books Plain)|]. intros Q a. pose proof (addr_case Plain s a I) as Z.
  assert (O : owners s a = 0%nat).
  { unfold owners. apply sum_all0. intros th Hin. apply In_nth_error in Hin as [t Ht]. rewrite (Q t th Ht). reflexivity. }
  destruct (hp s a) as [ob|]; cbn in Z.
  - split; [|congruence]. intros _. destruct Z as (Z & _ & _ & _ & _ & _ & P). destruct (cnt ob) eqn:Ec; [|lia]. specialize (P eq_refl eq_refl). lia.
  - split; [congruence|lia].
Qed.
Print Assumptions C39_threadsafe_refcount.
(** The release that starts deletion is the release of the last reference; any other release leaves the object alive. *)
Theorem C39_last_release_deletes : forall debug s t a k l, reachable Plain debug s ->
  nth_error (threads s) t = Some (Thread (RelSub a k) l) ->
  exists s' o p, step Plain debug s (ECont t) = Ok (s', o) /\ nth_error (threads s') t = Some (Thread p l) /\
    (handles s a = 1%nat -> p = RelAssert a k) /\ (handles s a <> 1%nat -> p = Idle /\ (0 < handles s' a)%nat /\ hp s' a <> None).
Proof.
  intros debug s t a k l R H. pose proof (reachable_inv Plain debug s R) as I. 
  destruct (step_ok Plain debug s (ECont t) I) as (s' & o & E & I'). { exists (Thread (RelSub a k) l). split; [exact H|discriminate]. }
  pose proof (i_thr Plain s I t _ H) as T. cbn in T.
  pose proof (handles_thr s t _ a H) as Lh. unfold tref in Lh. cbn [tpc held pc_refs] in Lh. rewrite refto_self in Lh by auto.
  destruct (refs_live Plain s a I) as (ob & Hob & Cb); [lia|].
  pose proof E as E0. cbn [step] in E. rewrite (slot_get_ok _ _ _ H) in E. cbn [bind tpc held cont] in E. rewrite Hob in E.
  assert (Hlt : (t < length (threads s))%nat) by (apply nth_error_Some; congruence).
  destruct (Nat.eqb_spec (cnt ob) 1) as [Ec|Ec]; rewrite (setpc_ok _ _ (Thread (RelSub a k) l)) in E by exact H; cbn [bind] in E; injection E as <- <-.
  - exists (State (hset (hp s) a (Some (Tobj (ser ob) (pred (cnt ob)) (dying ob)))) (cells s) (upd (threads s) t (Thread (RelAssert a k) l)) (fresh s) (deleted s)), [], (RelAssert a k).
    split; [exact E0|]. cbn [threads]. rewrite nth_error_upd_eq by auto. split; [reflexivity|]. split; [auto|]. intros X. exfalso. lia.
  - eexists _, _, Idle. split; [exact E0|]. cbn [threads]. rewrite nth_error_upd_eq by auto. split; [reflexivity|]. split; [intros X; exfalso; lia|]. intros _. split; [reflexivity|].
    pose proof (addr_case Plain _ a I') as Z. cbn [hp sethp] in Z |- *. rewrite hset_eq in *. unfold addr_ok in Z. cbn [cnt] in Z. destruct Z as [Z _]. split; [|discriminate]. lia.
Qed.
Print Assumptions C39_last_release_deletes.
(** Objects are deleted only when there are no references left. *)
Lemma deleted_step vt debug s e s' o : inv vt s -> allowed s e -> step vt debug s e = Ok (s', o) ->
  deleted s' = deleted s \/ exists a ob, vt = Plain /\ hp s a = Some ob /\ hp s' a = None /\ deleted s' = ser ob :: deleted s /\ handles s a = 0%nat.
Proof.
  intros I A E. destruct e as [t a|t]; cbn [step] in E.
  - destruct A as ([p l] & H & Hp & A). cbn in Hp. subst p. rewrite (slot_get_ok _ _ _ H) in E. cbn [bind held] in E. left.
    destruct a; cbn [start] in E;
      repeat (match type of E with
        | bind ?x _ = Ok _ => let Q := fresh "Q" in destruct x eqn:Q; cbn [bind] in E; try discriminate
        | (if ?b then _ else _) = Ok _ => destruct b
        end); injection E as <- <-;
      repeat match goal with
      | Q : setpc _ _ _ _ = Ok _ |- _ => apply setpc_inv in Q; subst
      | Q : setcell _ _ _ = Ok _ |- _ => apply setcell_inv in Q; subst
      end; reflexivity.
  - destruct A as ([p l] & H & Hp). rewrite (slot_get_ok _ _ _ H) in E. cbn [bind held tpc] in *. pose proof (i_thr vt s I t _ H) as T. cbn [tpc held] in T.
    destruct p; cbn [cont] in E; try congruence.
    5: { destruct T as [Na Ev]. right. exists a. pose proof (addr_case vt s a I) as Z.
         pose proof (sum_ge (fun th => owner a (tpc th)) _ _ _ H) as G. cbn [tpc owner] in G. rewrite refto_self in G by auto. fold (owners s a) in G.
         destruct (hp s a) as [ob|]; [|discriminate]. exists ob. cbn in Z.
         rewrite (setpc_ok _ _ (Thread (RelDel a k) l)) in E by exact H. cbn [bind] in E. injection E as <- <-. cbn [hp deleted].
         rewrite hset_eq. repeat split; auto. lia. }
    all: left;
      repeat (match type of E with
        | bind ?x _ = Ok _ => let Q := fresh "Q" in destruct x eqn:Q; cbn [bind] in E; try discriminate
        | (if ?b then _ else _) = Ok _ => destruct b
        | match ?b with _ => _ end = Ok _ => destruct b eqn:?; try discriminate
        end); injection E as <- <-;
      repeat match goal with
      | Q : setpc _ _ _ _ = Ok _ |- _ => apply setpc_inv in Q; subst
      | Q : setcell _ _ _ = Ok _ |- _ => apply setcell_inv in Q; subst
      end; try reflexivity; try (destruct vt; reflexivity).
Qed.
Theorem C39_deleted_only_unreferenced : forall vt debug s e s' o, reachable vt debug s -> allowed s e -> step vt debug s e = Ok (s', o) ->
  deleted s' = deleted s \/
  exists a ob, hp s a = Some ob /\ hp s' a = None /\ deleted s' = ser ob :: deleted s /\ handles s a = 0%nat.
Proof.
  intros vt debug s e s' o R A E. destruct (deleted_step vt debug s e s' o (reachable_inv vt debug s R) A E) as [X|(a & ob & _ & X)]; [auto|right; eauto].
Qed.
Print Assumptions C39_deleted_only_unreferenced.

(** Three threads race: thread 0 shares an object, all three drop their references concurrently; then the address is reused. *)
Definition race : list event :=
  [EStart 0 (ANew 16); ECont 0; EStart 0 (AAddRef 16); ECont 0; EStart 0 (AGive 16 1); EStart 0 (AAddRef 16); ECont 0; EStart 0 (AGive 16 2);
   EStart 0 (ARelease 16); EStart 1 (ARelease 16); EStart 2 (ARelease 16); ECont 1; ECont 0; ECont 2; ECont 2; ECont 2;
   EStart 1 (ANew 16); ECont 1].
Example race_legal debug : legal Plain debug (init 3 0) race.
Proof. apply legalb_ok. destruct debug; vm_compute; reflexivity. Qed.
Example race_result debug : exists s tr, run Plain debug (init 3 0) race = Ok (s, tr) /\ deleted s = [0%nat] /\ fresh s = 2%nat /\
  handles s 16 = 1%nat /\ quiescent s.
Proof.
  destruct debug; (eexists _, _; split; [vm_compute; reflexivity|]; repeat split; intros [|[|[|t]]] th H; cbn in H; try (injection H as <-; reflexivity); destruct t; discriminate).
Qed.

(** C40 fails: VirtualRefcountedThreadsafe::Release compares the old count with 0; in no legal execution is any object
    ever deleted ... *)
Theorem C40_virtual_never_deletes_refuted : forall debug s, reachable Virtual debug s -> deleted s = [].
Proof.
  intros debug s (n & m & es & tr & L & R).
  assert (G : forall es s0 s tr, inv Virtual s0 -> deleted s0 = [] -> legal Virtual debug s0 es -> run Virtual debug s0 es = Ok (s, tr) -> deleted s = []).
  { clear. induction es as [|e es IH]; intros s0 s tr I D L R; cbn [run] in R; [congruence|]. inversion L as [|? ? ? A Rest]; subst.
    destruct (step_ok Virtual debug s0 e I A) as (s1 & o & E & I1). rewrite E in R. cbn [bind] in R.
    destruct (run Virtual debug s1 es) as [[s2 o2]| |] eqn:R2; cbn [bind] in R; try discriminate. injection R as <- <-.
    apply (IH s1 s2 o2 I1); eauto. destruct (deleted_step Virtual debug s0 e s1 o I A E) as [X|(a & ob & X & _)]; [congruence|discriminate]. }
  apply (G es (init n m) s tr); auto. apply inv0.
Qed.
Print Assumptions C40_virtual_never_deletes_refuted.
(** ... so an object whose last reference has been released stays allocated for ever. *)
Definition leak : list event := [EStart 0 (ANew 8); ECont 0; EStart 0 (ARelease 8); ECont 0].
Theorem C40_virtual_leak_refuted : forall debug, exists s,
  reachable Virtual debug s /\ quiescent s /\ handles s 8 = 0%nat /\ hp s 8 <> None.
Proof.
  intros debug. exists (match run Virtual debug (init 1 0) leak with Ok (s, _) => s | _ => init 0 0 end). split.
  - exists 1%nat, 0%nat, leak, []. split; [apply legalb_ok|]; destruct debug; vm_compute; reflexivity.
  - destruct debug; (split; [intros [|t] th H; cbn in H; [injection H as <-; reflexivity|destruct t; discriminate]|]; vm_compute; split; [reflexivity|discriminate]).
Qed.
Print Assumptions C40_virtual_leak_refuted.
(** What holds: the counts are right and nothing faults. *)
Theorem C40_virtual_counts_partial : forall debug n m es, legal Virtual debug (init n m) es ->
  exists s tr, run Virtual debug (init n m) es = Ok (s, tr) /\ books s.
Proof.
  intros debug n m es L. destruct (run_ok Virtual debug es _ (inv0 Virtual n m) L) as (s & tr & E & I). exists s, tr. split; [exact E|now apply (inv_books Virtual)].
Qed.
Print Assumptions C40_virtual_counts_partial.

(** C41: with AtomicRefs read and written concurrently nothing faults ... *)
Theorem C41_atomicref_no_fault : forall vt debug s e, reachable vt debug s -> allowed s e ->
  exists s' o, step vt debug s e = Ok (s', o) /\ books s'.
Proof.
  intros vt debug s e R A. destruct (step_ok vt debug s e (reachable_inv vt debug s R) A) as (s' & o & E & I). exists s', o. split; [exact E|now apply (inv_books vt)].
Qed.
Print Assumptions C41_atomicref_no_fault.
(** ... and a non-null result of get() is a live object, of which the caller now owns one more reference. *)
Theorem C41_get_returns_live : forall vt debug s e s' o t c v, reachable vt debug s -> allowed s e -> step vt debug s e = Ok (s', o) ->
  In (Res t c OGet v) o -> v <> 0 ->
  exists th th' ob, nth_error (threads s) t = Some th /\ nth_error (threads s') t = Some th' /\ held th' = v :: held th /\
    hp s' v = Some ob /\ (0 < cnt ob)%nat /\ cnt ob = handles s' v.
Proof.
  intros vt debug s e s' o t c v R A E Hin Hv. pose proof (reachable_inv vt debug s R) as I.
  destruct (step_ok vt debug s e I A) as (s2 & o2 & E2 & I2). rewrite E2 in E. injection E as -> ->.
  assert (G : exists th th', nth_error (threads s) t = Some th /\ nth_error (threads s') t = Some th' /\ held th' = v :: held th).
  { destruct e as [u a|u]; cbn [step] in E2.
    - destruct A as ([p l] & H & Hp & A). cbn in Hp. subst p. rewrite (slot_get_ok _ _ _ H) in E2. cbn [bind held] in E2. exfalso.
      destruct a; cbn [start] in E2;
        repeat (match type of E2 with
          | bind ?x _ = Ok _ => let Q := fresh "Q" in destruct x eqn:Q; cbn [bind] in E2; try discriminate
          | (if ?b then _ else _) = Ok _ => destruct b
          end); injection E2 as <- <-; cbn in Hin; intuition discriminate.
    - destruct A as ([p l] & H & Hp). rewrite (slot_get_ok _ _ _ H) in E2. cbn [bind held tpc] in *.
      destruct p; cbn [cont] in E2; try congruence;
        repeat (match type of E2 with
          | bind ?x _ = Ok _ => let Q := fresh "Q" in destruct x eqn:Q; cbn [bind] in E2; try discriminate
          | (if ?b then _ else _) = Ok _ => destruct b
          | match ?b with _ => _ end = Ok _ => destruct b eqn:?; try discriminate
          end); injection E2 as <- <-; cbn in Hin; try contradiction;
        try (unfold finish in Hin; destruct k as [[? ?]|]; cbn in Hin; intuition discriminate).
      + destruct Hin as [Hin|[]]. injection Hin as <- <- <-. apply setcell_inv in Q0. subst. apply setpc_inv in Q1. subst.
        exists (Thread (UnStore c0 OGet v0) l), (Thread Idle (v0 :: l)). split; [exact H|]. split; [|reflexivity]. cbn [threads].
        apply N.eqb_neq in Hv. rewrite Hv. apply nth_error_upd_eq. apply nth_error_Some. congruence.
      + destruct (v0 =? 0); cbn in Hin; intuition discriminate. }
  destruct G as (th & th' & H & H' & Hh). assert (Iv : In v (held th')) by (rewrite Hh; left; reflexivity).
  destruct (held_live vt s' t th' v I2 H' Iv) as (ob & Hob & Cb & P). exists th, th', ob. repeat split; auto. lia.
Qed.
Print Assumptions C41_get_returns_live.

(** C42: mutual exclusion; linearizability as a register; counts at rest. *)
Theorem C42_mutual_exclusion : forall vt debug s c t u tht thu, reachable vt debug s ->
  nth_error (threads s) t = Some tht -> nth_error (threads s) u = Some thu -> in_section (tpc tht) c -> in_section (tpc thu) c -> t = u.
Proof.
  intros vt debug s c t u tht thu R Ht Hu St Su. pose proof (reachable_inv vt debug s R) as I. destruct (Nat.eq_dec t u) as [|Hne]; [auto|exfalso].
  pose proof (i_thr vt s I t tht Ht) as T.
  assert (exists x, nth_error (cells s) c = Some x /\ (cexcl x <= 1)%nat) as (x & Hc & Cx).
  { destruct (tpc tht); cbn [in_section thread_ok] in *; try contradiction; subst; unfold locked in T;
      (eexists; split; [apply T|cbn; rewrite tagged_odd; lia]). }
  pose proof (i_lock vt s I c x Hc) as L. pose proof (sum_two (fun th => excl c (tpc th)) _ _ _ _ _ Hne Ht Hu) as S2. cbn beta in S2.
  assert (excl c (tpc tht) = 1%nat) by (destruct (tpc tht); cbn in *; try contradiction; subst; now rewrite Nat.eqb_refl).
  assert (excl c (tpc thu) = 1%nat) by (destruct (tpc thu); cbn in *; try contradiction; subst; now rewrite Nat.eqb_refl).
  cbn beta in *. lia.
Qed.
Print Assumptions C42_mutual_exclusion.
Theorem C42_linearizable : forall vt debug s0 c v0 es s tr, reachable vt debug s0 ->
  nth_error (cells s0) c = Some (CLive v0) -> (forall t th, nth_error (threads s0) t = Some th -> ~ busy (tpc th) c) ->
  legal vt debug s0 es -> (forall t, ~ In (EStart t (ADtor c)) es) -> run vt debug s0 es = Ok (s, tr) ->
  exists w, nth_error (cells s) c = Some (CLive w) /\ linearizable c v0 (untagged w) tr.
Proof.
  intros vt debug s0 c v0 es s tr R Hc Hb L Hnd E. pose proof (reachable_inv vt debug s0 R) as I.
  destruct (run_lin vt debug c es s0 v0 s tr I L Hc Hnd E) as (evs & w & Hw & V & Rg & A). exists w. split; [exact Hw|]. exists evs. split; [exact V|].
  assert (Ev : untagged v0 = v0).
  { apply untagged_even. pose proof (i_lock vt s0 I c _ Hc) as Lk. cbn [cexcl] in Lk. rewrite sum_all0 in Lk.
    - rewrite odd_even in Lk. destruct (N.even v0); [reflexivity|discriminate].
    - intros th Hin. apply In_nth_error in Hin as [t Ht]. apply uses_excl. intros U. apply (Hb t th Ht). destruct (tpc th); cbn [busy uses] in *; try contradiction; auto. }
  rewrite Ev in Rg. split; [exact Rg|]. intros t. exists (phase_at c s t). specialize (A t).
  replace (phase_at c s0 t) with PIdle in A; [exact A|]. unfold phase_at. destruct (nth_error (threads s0) t) as [th|] eqn:Et; [|reflexivity].
  specialize (Hb t th Et). destruct (tpc th); cbn [busy uses phase_of] in *; try reflexivity;
    try (destruct k as [[d q]|]; [|reflexivity]); try (destruct (Nat.eqb_spec d c); [contradiction|reflexivity]); (destruct (Nat.eqb_spec c0 c); [contradiction|reflexivity]).
Qed.
Print Assumptions C42_linearizable.
Definition stored (a : N) (x : cell) : nat := match x with CLive w => refto a w | _ => 0%nat end.
Theorem C42_counts_at_rest : forall vt debug s, reachable vt debug s -> quiescent s ->
  forall a ob, hp s a = Some ob ->
    cnt ob = (sum (map (fun th => count_occ N.eq_dec (held th) a) (threads s)) + sum (map (stored a) (cells s)))%nat.
Proof.
  intros vt debug s R Q a ob H. pose proof (reachable_inv vt debug s R) as I. destruct (live_facts vt s a ob I H) as (_ & _ & _ & ->). unfold handles. f_equal.
  - f_equal. apply map_ext_in. intros th Hin. apply In_nth_error in Hin as [t Ht]. rewrite (Q t th Ht). cbn. lia.
  - f_equal. apply map_ext_in. intros x Hin. apply In_nth_error in Hin as [c Hc]. destruct x as [| |w]; cbn; [reflexivity..|]. f_equal. apply untagged_even.
    pose proof (i_lock vt s I c _ Hc) as Lk. cbn [cexcl] in Lk. rewrite sum_all0 in Lk.
    + rewrite odd_even in Lk. destruct (N.even w); [reflexivity|discriminate].
    + intros th Hth. apply In_nth_error in Hth as [t Ht]. rewrite (Q t th Ht). reflexivity.
Qed.
Print Assumptions C42_counts_at_rest.

(** Thread 1 reads while thread 0 replaces the stored object: the reader spins, gets the new one; the old one is deleted. *)
Definition setup : list event := [EStart 0 (ANew 16); ECont 0; EStart 0 (ACtor 0 16); ECont 0; EStart 0 (ARelease 16); ECont 0; EStart 0 (ANew 24); ECont 0].
Definition duel : list event :=
  [EStart 1 (AGet 0); ECont 1; EStart 0 (ASet 0 24); ECont 0; ECont 0; (* 0 locked *) ECont 1; (* CAS fails *)
   ECont 0; ECont 0; ECont 0; ECont 0; (* stored *) ECont 1; ECont 0; ECont 0; ECont 1; ECont 1; ECont 0; ECont 1; ECont 1; ECont 1].
Definition st0 : state := match run Plain true (init 2 1) setup with Ok (s, _) => s | _ => init 0 0 end.
Example st0_reachable : reachable Plain true st0 /\ nth_error (cells st0) 0 = Some (CLive 16) /\
  (forall t th, nth_error (threads st0) t = Some th -> ~ busy (tpc th) 0).
Proof.
  split; [|split; [vm_compute; reflexivity|intros [|[|t]] th H; vm_compute in H; try (injection H as <-; cbn; tauto); destruct t; discriminate]].
  eexists 2%nat, 1%nat, setup, _. split; [apply legalb_ok; vm_compute; reflexivity|vm_compute; reflexivity].
Qed.
Example duel_legal : legal Plain true st0 duel.
Proof. apply legalb_ok. vm_compute. reflexivity. Qed.
Example duel_result : exists s, run Plain true st0 duel = Ok (s, [Inv 1 0 OGet; Inv 0 0 (OSet 24); Res 0 0 (OSet 24) 0; Res 1 0 OGet 24]) /\
  deleted s = [0%nat] /\ handles s 24 = 3%nat.
Proof. eexists. split; [vm_compute; reflexivity|]. split; reflexivity. Qed.
