From Verif Require Import Base SyncModel SyncSpec.

Lemma at_eq {B} (f : tid -> B) t x : at_ f t x t = x.
Proof. unfold at_. now rewrite Nat.eqb_refl. Qed.
Lemma at_ne {B} (f : tid -> B) t x u : u <> t -> at_ f t x u = f u.
Proof. intros H. unfold at_. now apply Nat.eqb_neq in H as ->. Qed.

Section TLS.
Variable V : Type.
Variable zero : V.
Variable create_ok set_ok : nat -> bool.
Notation tls := (tls V).
Notation tstep := (tstep zero create_ok set_ok).
Notation trun := (trun zero create_ok set_ok).

Definition value (s : tls) (t : tid) : V := match slots s t with Some x => x | None => zero end.

(** Thread t, given where it started. *)
Definition thread_ok (s0 s : tls) (t : tid) : Prop :=
  results s t ++ own_view (value s t) (progs s t) = results s0 t ++ own_view (value s0 t) (progs s0 t)
  /\ match pcs s t with
     | Idle => True
     | SetStore x => exists r, progs s t = Set_ x :: r
     | GetLoad => exists r, progs s t = Get :: r
     | _ => False
     end.
(** Steps t still has to take. *)
Definition work (s : tls) (t : tid) : nat :=
  2 * length (progs s t) - match pcs s t with Idle => 0 | _ => 1 end.

Lemma ready_step s0 s t : (forall n, set_ok n = true) ->
  ready s -> (forall u, thread_ok s0 s u) ->
  exists s', tstep s t = Ok s' /\ ready s' /\ (forall u, thread_ok s0 s' u)
    /\ (forall u, work s' u <= work s u) /\ (work s' t <= work s t - 1).
Proof.
  intros Hs [Ha Hk] Hok. pose proof (Hok t) as [Hr Hp]. unfold SyncModel.tstep.
  assert (others : forall s' : tls, slots s' = slots s -> progs s' = progs s -> results s' = results s ->
            forall u, pcs s' u = pcs s u -> thread_ok s0 s' u).
  { intros s' E1 E2 E3 u E4. destruct (Hok u) as [H1 H2]. unfold thread_ok, value in *.
    rewrite E1, E2, E3, E4. auto. }
  destruct (pcs s t) as [|x|x|x| |] eqn:Ep; try tauto.
  - destruct (progs s t) as [|o r] eqn:Eg.
    { exists s. split; [reflexivity|]. split; [now split|]. split; [exact Hok|]. split; [auto|].
      unfold work. rewrite Eg, Ep. cbn. lia. }
    rewrite Ha. destruct o as [x| |].
    + eexists. split; [reflexivity|]. split; [now split|]. split; [|split].
      * intros u. destruct (Nat.eq_dec u t) as [->|Hu].
        -- split; [unfold value in *; cbn; rewrite Eg; exact Hr|]. cbn. rewrite at_eq. now exists r.
        -- apply others; auto. cbn. now rewrite at_ne.
      * intros u. unfold work. cbn. destruct (Nat.eq_dec u t) as [->|Hu]; [rewrite at_eq, Ep|rewrite at_ne by auto]; lia.
      * unfold work. cbn. rewrite at_eq, Ep, Eg. cbn. lia.
    + eexists. split; [reflexivity|]. split; [now split|]. split; [|split].
      * intros u. destruct (Nat.eq_dec u t) as [->|Hu].
        -- split; [unfold value in *; cbn; rewrite Eg; exact Hr|]. cbn. rewrite at_eq. now exists r.
        -- apply others; auto. cbn. now rewrite at_ne.
      * intros u. unfold work. cbn. destruct (Nat.eq_dec u t) as [->|Hu]; [rewrite at_eq, Ep|rewrite at_ne by auto]; lia.
      * unfold work. cbn. rewrite at_eq, Ep, Eg. cbn. lia.
    + eexists. split; [reflexivity|]. split; [now split|]. split; [|split].
      * intros u. destruct (Nat.eq_dec u t) as [->|Hu].
        -- split; [|cbn; now rewrite at_eq]. unfold value in *. cbn. rewrite !at_eq, Eg. cbn [tl].
           rewrite <- Hr. cbn [own_view]. rewrite <- app_assoc. reflexivity.
        -- destruct (Hok u) as [H1 H2]. unfold thread_ok, value in *. cbn. rewrite !at_ne by auto. auto.
      * intros u. unfold work. cbn. destruct (Nat.eq_dec u t) as [->|Hu].
        -- rewrite !at_eq, Eg, Ep. cbn. lia.
        -- rewrite !at_ne by auto. lia.
      * unfold work. cbn. rewrite !at_eq, Ep, Eg. cbn. lia.
  - destruct Hp as [r Eg]. unfold setspecific. destruct (key s) as [k|] eqn:Ek; [|tauto]. rewrite Hs. cbn [bind].
    eexists. split; [reflexivity|]. split; [split; [exact Ha|cbn; congruence]|]. split; [|split].
    + intros u. destruct (Nat.eq_dec u t) as [->|Hu].
      * split; [|cbn; now rewrite at_eq]. unfold value in *. cbn. rewrite !at_eq, Eg. cbn [tl].
        rewrite <- Hr, Eg. cbn [own_view]. rewrite <- app_assoc. reflexivity.
      * destruct (Hok u) as [H1 H2]. unfold thread_ok, value in *. cbn. rewrite !at_ne by auto. auto.
    + intros u. unfold work. cbn. destruct (Nat.eq_dec u t) as [->|Hu].
      * rewrite !at_eq, Eg, Ep. cbn. lia.
      * rewrite !at_ne by auto. lia.
    + unfold work. cbn. rewrite !at_eq, Ep, Eg. cbn. lia.
  - destruct Hp as [r Eg]. unfold getspecific. destruct (key s) as [k|] eqn:Ek; [|tauto]. cbn [bind].
    eexists. split; [reflexivity|]. split; [split; [exact Ha|cbn; congruence]|]. split; [|split].
    + intros u. destruct (Nat.eq_dec u t) as [->|Hu].
      * split; [|cbn; now rewrite at_eq]. unfold value in *. cbn. rewrite !at_eq, Eg. cbn [tl].
        rewrite <- Hr, Eg. cbn [own_view]. rewrite <- app_assoc. reflexivity.
      * destruct (Hok u) as [H1 H2]. unfold thread_ok, value in *. cbn. rewrite !at_ne by auto. auto.
    + intros u. unfold work. cbn. destruct (Nat.eq_dec u t) as [->|Hu].
      * rewrite !at_eq, Eg, Ep. cbn. lia.
      * rewrite !at_ne by auto. lia.
    + unfold work. cbn. rewrite !at_eq, Ep, Eg. cbn. lia.
Qed.

Lemma ready_run s0 sched : (forall n, set_ok n = true) -> forall s, ready s -> (forall u, thread_ok s0 s u) ->
  exists s', trun s sched = Ok s' /\ ready s' /\ (forall u, thread_ok s0 s' u)
    /\ (forall u, work s' u <= work s u - count_occ Nat.eq_dec sched u).
Proof.
  intros Hs. induction sched as [|t l IH]; intros s Hr Hok; cbn [SyncModel.trun].
  - exists s. split; auto. split; auto. split; auto. intros u. cbn. lia.
  - destruct (ready_step s0 s t Hs Hr Hok) as (s1 & -> & Hr1 & Hok1 & Hw & Hwt). cbn [bind].
    destruct (IH s1 Hr1 Hok1) as (s2 & E & Hr2 & Hok2 & Hw2). exists s2. split; auto. split; auto. split; auto.
    intros u. specialize (Hw2 u). specialize (Hw u). cbn [count_occ].
    destruct (Nat.eq_dec t u) as [<-|]; lia.
Qed.

(** At most one pthread_key_create, in every interleaving from the initial state. *)
Definition creating (pc : tpc V) : bool := match pc with SetCreate _ | AllocCreate => true | _ => false end.
Record cinv (s : tls) : Prop := {
  c_unalloc : allocated s = false -> creates s = 0 /\ forall t, creating (pcs s t) = false;
  c_one : forall t u, creating (pcs s t) = true -> creating (pcs s u) = true -> t = u;
  c_zero : forall t, creating (pcs s t) = true -> creates s = 0;
  c_le : creates s <= 1
}.
Lemma cinv_init p : cinv (tinit p).
Proof. split; cbn; intros; auto; discriminate. Qed.

Lemma cinv_idle (s s' : tls) t :
  cinv s -> allocated s' = allocated s -> creates s' = creates s ->
  (forall u, u <> t -> pcs s' u = pcs s u) -> creating (pcs s' t) = false -> cinv s'.
Proof.
  intros [a b c d] E1 E2 E3 E4.
  assert (Hc : forall u, creating (pcs s' u) = true -> creating (pcs s u) = true).
  { intros u Hu. destruct (Nat.eq_dec u t) as [->|Hn]; [congruence|]. now rewrite <- E3. }
  split; rewrite ?E1, ?E2; auto.
  - intros Ha. destruct (a Ha) as [H1 H2]. split; auto. intros u. specialize (H2 u). specialize (Hc u).
    destruct (creating (pcs s' u)); auto. rewrite Hc in H2; auto.
  - eauto.
Qed.
Lemma cinv_start (s s' : tls) t :
  cinv s -> allocated s = false -> allocated s' = true -> creates s' = creates s ->
  (forall u, u <> t -> pcs s' u = pcs s u) -> cinv s'.
Proof.
  intros [a b c d] Ha E1 E2 E3. destruct (a Ha) as [H1 H2].
  assert (Hc : forall u, creating (pcs s' u) = true -> u = t).
  { intros u Hu. destruct (Nat.eq_dec u t) as [->|Hn]; auto. rewrite E3, H2 in Hu by auto. discriminate. }
  split; rewrite ?E1, ?E2; auto.
  - discriminate.
  - intros u v Hu Hv. rewrite (Hc u Hu), (Hc v Hv). reflexivity.
Qed.
Lemma cinv_finish (s s' : tls) t :
  cinv s -> creating (pcs s t) = true -> allocated s' = allocated s -> creates s' = S (creates s) ->
  (forall u, u <> t -> pcs s' u = pcs s u) -> creating (pcs s' t) = false -> cinv s'.
Proof.
  intros [a b c d] Ht E1 E2 E3 E4.
  assert (Ha : allocated s = true).
  { destruct (allocated s); auto. destruct (a eq_refl) as [_ H]. rewrite H in Ht. discriminate. }
  assert (Hc : forall u, creating (pcs s' u) = false).
  { intros u. destruct (Nat.eq_dec u t) as [->|Hn]; auto. rewrite E3 by auto.
    destruct (creating (pcs s u)) eqn:E; auto. exfalso. apply Hn. auto. }
  rewrite (c t Ht) in E2. split; rewrite ?E1, ?E2; intros; try lia; try congruence; rewrite Hc in *; discriminate.
Qed.

Lemma cinv_step s t s' : cinv s -> tstep s t = Ok s' -> cinv s'.
Proof.
  intros Hi H. unfold SyncModel.tstep in H.
  destruct (pcs s t) as [|x|x|x| |] eqn:Ep.
  - destruct (progs s t) as [|[x| |] r].
    + now injection H as <-.
    + destruct (allocated s) eqn:Ea; injection H as <-; eapply (cinv_idle s _ t); eauto; cbn; rewrite ?at_eq; auto;
        intros; now rewrite at_ne.
    + destruct (allocated s) eqn:Ea; injection H as <-; eapply (cinv_idle s _ t); eauto; cbn; rewrite ?at_eq; auto;
        intros; now rewrite at_ne.
    + destruct (allocated s) eqn:Ea; injection H as <-.
      * eapply (cinv_idle s _ t); eauto; cbn; rewrite ?at_eq; auto; intros; now rewrite at_ne.
      * eapply (cinv_start s _ t); eauto; cbn; intros; now rewrite at_ne.
  - destruct (allocated s) eqn:Ea; injection H as <-.
    + eapply (cinv_idle s _ t); eauto; cbn; rewrite ?at_eq; auto; intros; now rewrite at_ne.
    + eapply (cinv_start s _ t); eauto; cbn; intros; now rewrite at_ne.
  - cbn [key_create] in H. destruct (create_ok (creates s)); [|discriminate]. injection H as <-.
    eapply (cinv_finish s _ t); eauto; cbn; rewrite ?Ep, ?at_eq; auto; intros; now rewrite at_ne.
  - unfold setspecific in H. destruct (key s) as [k|] eqn:Ek; [|discriminate]. cbn [bind] in H. injection H as <-.
    eapply (cinv_idle s _ t); eauto; cbn; rewrite ?at_eq; auto; intros; now rewrite at_ne.
  - unfold getspecific in H. destruct (key s) as [k|] eqn:Ek; [|discriminate]. cbn [bind] in H. injection H as <-.
    eapply (cinv_idle s _ t); eauto; cbn; rewrite ?at_eq; auto; intros; now rewrite at_ne.
  - cbn [key_create] in H. injection H as <-.
    eapply (cinv_finish s _ t); eauto; cbn; rewrite ?Ep, ?at_eq; auto; intros; now rewrite at_ne.
Qed.
Lemma cinv_run sched : forall s s', cinv s -> trun s sched = Ok s' -> cinv s'.
Proof.
  induction sched as [|t l IH]; intros s s' Hi H; cbn [SyncModel.trun] in H.
  - now injection H as <-.
  - destruct (tstep s t) as [s1| |] eqn:E; cbn [bind] in H; try discriminate.
    eapply IH; [|exact H]. eapply cinv_step; eauto.
Qed.

(** ** Undisturbed allocation *)
Hypothesis Hc : create_ok 0 = true.
Hypothesis Hs : forall n, set_ok n = true.
Definition uthread (s0 s : tls) (t : tid) : Prop :=
  results s t ++ own_view (value s t) (progs s t) = results s0 t ++ own_view (value s0 t) (progs s0 t)
  /\ match pcs s t with
     | Idle => True
     | SetCas x => exists r, progs s t = Set_ x :: r
     | SetCreate x => key s = None /\ exists r, progs s t = Set_ x :: r
     | AllocCreate => key s = None /\ exists r, progs s t = Alloc :: r
     | SetStore x => key s <> None /\ exists r, progs s t = Set_ x :: r
     | GetLoad => key s <> None /\ exists r, progs s t = Get :: r
     end.
Definition uwork (s : tls) (t : tid) : nat :=
  4 * length (progs s t) - match pcs s t with Idle => 0 | SetCas _ => 1 | SetCreate _ => 2 | SetStore _ => 3 | GetLoad => 1 | AllocCreate => 1 end.
Record uinv (s0 s : tls) : Prop := MkU {
  u_thr : forall u, uthread s0 s u;
  u_fresh : key s = None -> creates s = 0 /\ forall u, slots s u = None;
  u_un : allocated s = false -> key s = None /\ forall u, creating (pcs s u) = false;
  u_mid : allocated s = true -> key s = None -> exists u, creating (pcs s u) = true
}.
Lemma uthread_same (s0 s s' : tls) u : slots s' u = slots s u -> progs s' u = progs s u -> results s' u = results s u -> key s' = key s ->
  pcs s' u = pcs s u -> uthread s0 s u -> uthread s0 s' u.
Proof. intros E1 E2 E3 E4 E5 [H1 H2]. unfold uthread, value in *. rewrite E1, E2, E3, E4, E5. auto. Qed.
Lemma uthread_key (s0 s s' : tls) u : slots s' u = slots s u -> progs s' u = progs s u -> results s' u = results s u -> key s' <> None ->
  pcs s' u = pcs s u -> creating (pcs s u) = false -> uthread s0 s u -> uthread s0 s' u.
Proof.
  intros E1 E2 E3 E4 E5 E6 [H1 H2]. unfold uthread, value in *. rewrite E1, E2, E3, E5. split; [exact H1|].
  destruct (pcs s u); cbn in E6; try discriminate; intuition auto.
Qed.
Lemma no_mid (s0 s : tls) t : uinv s0 s -> (forall u, creating (pcs s u) = true -> u = t) -> creating (pcs s t) = false -> allocated s = true -> key s <> None.
Proof. intros Hi Hd Ht Ha E. destruct (u_mid s0 s Hi Ha E) as [u Hu]. rewrite (Hd u Hu) in Hu. congruence. Qed.
Lemma ustep s0 s t : uinv s0 s -> (forall u, creating (pcs s u) = true -> u = t) ->
  exists s', tstep s t = Ok s' /\ uinv s0 s' /\ (forall u, uwork s' u <= uwork s u) /\ uwork s' t <= uwork s t - 1.
Proof.
  intros Hi Hd. pose proof (u_thr s0 s Hi) as Hok. pose proof (Hok t) as [Hr Hp]. unfold SyncModel.tstep.
  pose proof (fun H => no_mid s0 s t Hi Hd H) as Nm.
  assert (Hw : forall s' : tls, (forall u, u <> t -> progs s' u = progs s u /\ pcs s' u = pcs s u) -> uwork s' t <= uwork s t - 1 ->
            (forall u, uwork s' u <= uwork s u) /\ uwork s' t <= uwork s t - 1).
  { intros s' H1 H2. split; [|exact H2]. intros u. destruct (Nat.eq_dec u t) as [->|Hu]; [lia|]. destruct (H1 u Hu) as [E1 E2].
    unfold uwork. rewrite E1, E2. lia. }
  destruct (pcs s t) as [|x|x|x| |] eqn:Ep.
  - specialize (Nm eq_refl). destruct (progs s t) as [|o r] eqn:Eg.
    { exists s. split; [reflexivity|]. split; [exact Hi|]. split; [auto|]. unfold uwork. rewrite Eg, Ep. cbn. lia. }
    destruct o as [x| |]; destruct (allocated s) eqn:Ea.
    + eexists. split; [reflexivity|]. split; [|apply Hw; [intros; cbn; now rewrite at_ne|unfold uwork; cbn; rewrite at_eq, Ep, Eg; cbn; lia]].
      split; cbn.
      * intros u. destruct (Nat.eq_dec u t) as [->|Hu].
        -- split; [unfold value in *; cbn; rewrite Eg; exact Hr|]. cbn. rewrite at_eq. eauto.
        -- eapply uthread_same; [..|exact (Hok u)]; cbn; auto. now rewrite at_ne.
      * exact (u_fresh s0 s Hi).
      * congruence.
      * intros _ K. now destruct (Nm eq_refl).
    + eexists. split; [reflexivity|]. split; [|apply Hw; [intros; cbn; now rewrite at_ne|unfold uwork; cbn; rewrite at_eq, Ep, Eg; cbn; lia]].
      destruct (u_un s0 s Hi Ea) as [Kn Cn]. split; cbn.
      * intros u. destruct (Nat.eq_dec u t) as [->|Hu].
        -- split; [unfold value in *; cbn; rewrite Eg; exact Hr|]. cbn. rewrite at_eq. eauto.
        -- eapply uthread_same; [..|exact (Hok u)]; cbn; auto. now rewrite at_ne.
      * exact (u_fresh s0 s Hi).
      * intros _. split; [exact Kn|]. intros u. destruct (Nat.eq_dec u t) as [->|Hu]; [now rewrite at_eq|now rewrite at_ne].
      * congruence.
    + eexists. split; [reflexivity|]. split; [|apply Hw; [intros; cbn; now rewrite at_ne|unfold uwork; cbn; rewrite at_eq, Ep, Eg; cbn; lia]].
      split; cbn.
      * intros u. destruct (Nat.eq_dec u t) as [->|Hu].
        -- split; [unfold value in *; cbn; rewrite Eg; exact Hr|]. cbn. rewrite at_eq. eauto.
        -- eapply uthread_same; [..|exact (Hok u)]; cbn; auto. now rewrite at_ne.
      * exact (u_fresh s0 s Hi).
      * congruence.
      * intros _ K. now destruct (Nm eq_refl).
    + destruct (u_un s0 s Hi Ea) as [Kn Cn]. destruct (u_fresh s0 s Hi Kn) as [C0 S0].
      eexists. split; [reflexivity|]. split; [|apply Hw; [intros; cbn; now rewrite !at_ne|unfold uwork; cbn; rewrite !at_eq, Ep, Eg; cbn; lia]].
      split; cbn.
      * intros u. destruct (Nat.eq_dec u t) as [->|Hu].
        -- split; [|cbn; now rewrite at_eq]. unfold value in *. cbn. rewrite !at_eq, Eg. cbn [tl]. rewrite <- Hr.
           cbn [own_view]. rewrite S0, <- app_assoc. reflexivity.
        -- eapply uthread_same; [..|exact (Hok u)]; cbn; auto; now rewrite at_ne.
      * exact (u_fresh s0 s Hi).
      * intros _. split; [exact Kn|]. intros u. destruct (Nat.eq_dec u t) as [->|Hu]; [now rewrite at_eq|now rewrite at_ne].
      * congruence.
    + eexists. split; [reflexivity|]. split; [|apply Hw; [intros; cbn; now rewrite !at_ne|unfold uwork; cbn; rewrite !at_eq, Ep, Eg; cbn; lia]].
      split; cbn.
      * intros u. destruct (Nat.eq_dec u t) as [->|Hu].
        -- split; [|cbn; now rewrite at_eq]. unfold value in *. cbn. rewrite !at_eq, Eg. cbn [tl]. rewrite <- Hr.
           cbn [own_view]. rewrite <- app_assoc. reflexivity.
        -- eapply uthread_same; [..|exact (Hok u)]; cbn; auto; now rewrite at_ne.
      * exact (u_fresh s0 s Hi).
      * congruence.
      * intros _ K. now destruct (Nm eq_refl).
    + destruct (u_un s0 s Hi Ea) as [Kn Cn].
      eexists. split; [reflexivity|]. split; [|apply Hw; [intros; cbn; now rewrite at_ne|unfold uwork; cbn; rewrite at_eq, Ep, Eg; cbn; lia]].
      split; cbn.
      * intros u. destruct (Nat.eq_dec u t) as [->|Hu].
        -- split; [unfold value in *; cbn; rewrite Eg; exact Hr|]. cbn. rewrite at_eq. eauto.
        -- eapply uthread_same; [..|exact (Hok u)]; cbn; auto. now rewrite at_ne.
      * exact (u_fresh s0 s Hi).
      * congruence.
      * intros _ _. exists t. now rewrite at_eq.
  - specialize (Nm eq_refl). destruct Hp as [r Eg]. destruct (allocated s) eqn:Ea.
    + eexists. split; [reflexivity|]. split; [|apply Hw; [intros; cbn; now rewrite at_ne|unfold uwork; cbn; rewrite at_eq, Ep, Eg; cbn; lia]].
      split; cbn.
      * intros u. destruct (Nat.eq_dec u t) as [->|Hu].
        -- split; [unfold value in *; cbn; exact Hr|]. cbn. rewrite at_eq. eauto.
        -- eapply uthread_same; [..|exact (Hok u)]; cbn; auto. now rewrite at_ne.
      * exact (u_fresh s0 s Hi).
      * congruence.
      * intros _ K. now destruct (Nm eq_refl).
    + destruct (u_un s0 s Hi Ea) as [Kn Cn].
      eexists. split; [reflexivity|]. split; [|apply Hw; [intros; cbn; now rewrite at_ne|unfold uwork; cbn; rewrite at_eq, Ep, Eg; cbn; lia]].
      split; cbn.
      * intros u. destruct (Nat.eq_dec u t) as [->|Hu].
        -- split; [unfold value in *; cbn; exact Hr|]. cbn. rewrite at_eq. eauto.
        -- eapply uthread_same; [..|exact (Hok u)]; cbn; auto. now rewrite at_ne.
      * exact (u_fresh s0 s Hi).
      * congruence.
      * intros _ _. exists t. now rewrite at_eq.
  - destruct Hp as [Kn [r Eg]]. destruct (u_fresh s0 s Hi Kn) as [C0 S0]. unfold key_create. rewrite C0, Hc.
    eexists. split; [reflexivity|]. split; [|apply Hw; [intros; cbn; now rewrite at_ne|unfold uwork; cbn; rewrite at_eq, Ep, Eg; cbn; lia]].
    split; cbn; try congruence.
    * intros u. destruct (Nat.eq_dec u t) as [->|Hu].
      -- split; [unfold value in *; cbn; exact Hr|]. cbn. rewrite at_eq. split; [discriminate|eauto].
      -- eapply uthread_key; [..|exact (Hok u)]; cbn; auto; try discriminate; [now rewrite at_ne|].
         destruct (creating (pcs s u)) eqn:E; auto. now specialize (Hd u E).
    * intros Ea. destruct (u_un s0 s Hi Ea) as [_ Cn]. specialize (Cn t). rewrite Ep in Cn. discriminate.
  - destruct Hp as [Kn [r Eg]]. unfold setspecific. destruct (key s) as [k|] eqn:Ek; [|tauto]. rewrite Hs. cbn [bind].
    eexists. split; [reflexivity|]. split; [|apply Hw; [intros; cbn; now rewrite !at_ne|unfold uwork; cbn; rewrite !at_eq, Ep, Eg; cbn; lia]].
    split; cbn; try congruence.
    * intros u. destruct (Nat.eq_dec u t) as [->|Hu].
      -- split; [|cbn; now rewrite at_eq]. unfold value in *. cbn. rewrite !at_eq, Eg. cbn [tl].
         rewrite <- Hr, Eg. cbn [own_view]. rewrite <- app_assoc. reflexivity.
      -- eapply uthread_same; [..|exact (Hok u)]; cbn; auto; try now rewrite at_ne.
    * intros Ea. destruct (u_un s0 s Hi Ea) as [K _]. congruence.
  - destruct Hp as [Kn [r Eg]]. unfold getspecific. destruct (key s) as [k|] eqn:Ek; [|tauto]. cbn [bind].
    eexists. split; [reflexivity|]. split; [|apply Hw; [intros; cbn; now rewrite !at_ne|unfold uwork; cbn; rewrite !at_eq, Ep, Eg; cbn; lia]].
    split; cbn; try congruence.
    * intros u. destruct (Nat.eq_dec u t) as [->|Hu].
      -- split; [|cbn; now rewrite at_eq]. unfold value in *. cbn. rewrite !at_eq, Eg. cbn [tl].
         rewrite <- Hr, Eg. cbn [own_view]. rewrite <- app_assoc. reflexivity.
      -- eapply uthread_same; [..|exact (Hok u)]; cbn; auto; try now rewrite at_ne.
    * intros Ea. destruct (u_un s0 s Hi Ea) as [K _]. congruence.
  - destruct Hp as [Kn [r Eg]]. destruct (u_fresh s0 s Hi Kn) as [C0 S0]. unfold key_create. rewrite C0, Hc.
    eexists. split; [reflexivity|]. split; [|apply Hw; [intros; cbn; now rewrite !at_ne|unfold uwork; cbn; rewrite !at_eq, Ep, Eg; cbn; lia]].
    split; cbn; try congruence.
    * intros u. destruct (Nat.eq_dec u t) as [->|Hu].
      -- split; [|cbn; now rewrite at_eq]. unfold value in *. cbn. rewrite !at_eq, Eg. cbn [tl].
         rewrite <- Hr, Eg. cbn [own_view]. rewrite <- app_assoc. reflexivity.
      -- eapply uthread_key; [..|exact (Hok u)]; cbn; auto; try discriminate; try now rewrite at_ne.
         destruct (creating (pcs s u)) eqn:E; auto. now specialize (Hd u E).
    * intros Ea. destruct (u_un s0 s Hi Ea) as [_ Cn]. specialize (Cn t). rewrite Ep in Cn. discriminate.
Qed.
Lemma urun s0 sched : forall s, uinv s0 s -> undisturbed zero create_ok set_ok s sched ->
  exists s', trun s sched = Ok s' /\ uinv s0 s' /\ (forall u, uwork s' u <= uwork s u - count_occ Nat.eq_dec sched u).
Proof.
  induction sched as [|t l IH]; intros s Hi Hd; cbn [SyncModel.trun].
  - exists s. split; auto. split; auto. intros u. cbn. lia.
  - destruct Hd as [Hd Hn]. destruct (ustep s0 s t Hi) as (s1 & E1 & Hi1 & Hw & Hwt).
    { intros u Hu. apply Hd. unfold allocating. destruct (pcs s u); cbn in Hu; try discriminate; exact Logic.I. }
    rewrite E1. cbn [bind]. destruct (IH s1 Hi1 (Hn s1 E1)) as (s2 & E & Hi2 & Hw2). exists s2. split; auto. split; auto.
    intros u. specialize (Hw2 u). specialize (Hw u). cbn [count_occ].
    destruct (Nat.eq_dec t u) as [<-|]; lia.
Qed.
Lemma uinv0 p : uinv (tinit p) (tinit p).
Proof. split; cbn; auto; try discriminate. intros u. split; reflexivity. Qed.
Lemma uprefix (s0 s : tls) t : uinv s0 s -> exists rest, results s t ++ rest = results s0 t ++ own_view (value s0 t) (progs s0 t).
Proof. intros Hi. destruct (u_thr s0 s Hi t) as [H _]. eauto. Qed.
Lemma udone (s0 s : tls) t : uinv s0 s -> uwork s t = 0 -> progs s t = [] /\ results s t = results s0 t ++ own_view (value s0 t) (progs s0 t).
Proof.
  intros Hi H0. destruct (u_thr s0 s Hi t) as [H Hp].
  assert (Ep : progs s t = []).
  { unfold uwork in H0. destruct (progs s t) as [|o r] eqn:Eg; [reflexivity|exfalso].
    destruct (pcs s t); cbn in H0; try lia. }
  split; [exact Ep|]. rewrite Ep in H. cbn [own_view] in H. now rewrite app_nil_r in H.
Qed.
End TLS.

(** * Mutex *)
Section Mutex.
(** debug builds *)
Definition mthread (s : mutex) (t : tid) : Prop :=
  match mpcs s t with
  | MIdle => disciplined (is (held s) t) (mprogs s t) = true /\ is (owner s) t = is (held s) t
  | MLockSet => held s = Some t /\ is (owner s) t = false
                /\ exists r, mprogs s t = Lock :: r /\ disciplined true r = true
  | MUnlockRel => held s = Some t /\ owner s = None
                /\ exists r, mprogs s t = Unlock :: r /\ disciplined false r = true
  end.
Definition minv (s : mutex) : Prop := forall t, mthread s t.

Lemma is_some o t : is o t = true <-> o = Some t.
Proof.
  destruct o as [u|]; cbn; [|split; discriminate]. rewrite Nat.eqb_eq. split; congruence.
Qed.
Lemma is_none t : is None t = false.
Proof. reflexivity. Qed.
Lemma is_self t : is (Some t) t = true.
Proof. now apply is_some. Qed.
Lemma is_other t u : t <> u -> is (Some t) u = false.
Proof. intros H. cbn. now apply Nat.eqb_neq. Qed.

Lemma minit_ok p : (forall t, disciplined false (p t) = true) -> minv (minit p).
Proof. intros H t. unfold mthread. cbn. auto. Qed.

Lemma mstep_ok s t : minv s ->
  (exists s', mstep true s t = Ok s' /\ minv s')
  \/ (mpcs s t = MIdle /\ exists r, mprogs s t = AssertOwns :: r /\ is (held s) t = false
      /\ mstep true s t = Fault AssertFail).
Proof.
  intros Hi. pose proof (Hi t) as Ht. unfold mthread in Ht. unfold mstep. cbn [negb].
  destruct (mpcs s t) eqn:Ep.
  - destruct Ht as [Hd Ho]. destruct (mprogs s t) as [|o r] eqn:Eg.
    { left. exists s. auto. }
    destruct o; cbn [disciplined] in Hd; try discriminate.
    + (* Lock *)
      left. apply andb_true_iff in Hd as [Hh Hd]. apply negb_true_iff in Hh. rewrite Hh.
      destruct (held s) as [h|] eqn:Eh; [exists s; auto|].
      eexists. split; [reflexivity|]. intros u. unfold mthread. cbn.
      destruct (Nat.eq_dec u t) as [->|Hu].
      * rewrite at_eq. split; auto. split; [rewrite Ho; reflexivity|]. rewrite Eg. eauto.
      * rewrite at_ne by auto. pose proof (Hi u) as Hx. unfold mthread in Hx. rewrite Eh in Hx.
        destruct (mpcs s u); [|destruct Hx; discriminate|destruct Hx; discriminate].
        apply Nat.eqb_neq in Hu. rewrite Nat.eqb_sym in Hu. cbn in *. rewrite Hu. exact Hx.
    + (* Unlock *)
      left. apply andb_true_iff in Hd as [Hh Hd]. apply is_some in Hh.
      eexists. split; [reflexivity|]. intros u. unfold mthread. cbn.
      destruct (Nat.eq_dec u t) as [->|Hu].
      * rewrite at_eq. split; auto. split; auto. rewrite Eg. eauto.
      * rewrite at_ne by auto. pose proof (Hi u) as Hx. unfold mthread in Hx. rewrite Hh in Hx.
        apply not_eq_sym in Hu. rewrite (is_other _ _ Hu) in Hx. rewrite Hh, (is_other _ _ Hu).
        destruct (mpcs s u); [|destruct Hx; congruence|destruct Hx; congruence]. split; [tauto|reflexivity].
    + (* AssertOwns *)
      unfold assert_. cbn [andb]. rewrite Ho. destruct (is (held s) t) eqn:Eh; cbn [negb bind].
      * left. eexists. split; [reflexivity|]. intros u. unfold mthread. cbn.
        destruct (Nat.eq_dec u t) as [->|Hu].
        -- rewrite !at_eq, Eg, Eh. cbn [tl]. auto.
        -- rewrite !at_ne by auto. exact (Hi u).
      * right. split; auto. exists r. auto.
  - destruct Ht as (Hh & Ho & r & Eg & Hd). left. eexists. split; [reflexivity|].
    intros u. unfold mthread. cbn [mpcs mprogs held owner mnext]. destruct (Nat.eq_dec u t) as [->|Hu].
    + rewrite !at_eq, Eg, Hh, !is_self. cbn [tl]. auto.
    + rewrite !at_ne by auto. pose proof (Hi u) as Hx. unfold mthread in Hx. rewrite Hh in *.
      apply not_eq_sym in Hu. rewrite (is_other _ _ Hu) in *.
      destruct (mpcs s u); [|destruct Hx; congruence|destruct Hx; congruence]. tauto.
  - destruct Ht as (Hh & Ho & r & Eg & Hd). rewrite Hh, is_self. left. eexists. split; [reflexivity|].
    intros u. unfold mthread. cbn [mpcs mprogs held owner mnext]. destruct (Nat.eq_dec u t) as [->|Hu].
    + rewrite !at_eq, Eg, Ho, !is_none. cbn [tl]. auto.
    + rewrite !at_ne by auto. pose proof (Hi u) as Hx. unfold mthread in Hx. rewrite Hh in Hx.
      apply not_eq_sym in Hu. rewrite (is_other _ _ Hu) in Hx. rewrite is_none.
      destruct (mpcs s u); [|destruct Hx; congruence|destruct Hx; congruence]. exact Hx.
Qed.

Lemma mrun_ok sched : forall s s', minv s -> mrun true s sched = Ok s' -> minv s'.
Proof.
  induction sched as [|t l IH]; intros s s' Hi H; cbn [mrun] in H.
  - now injection H as <-.
  - destruct (mstep_ok s t Hi) as [(s1 & E & Hi1)|(_ & r & _ & _ & E)]; rewrite E in H; cbn [bind] in H.
    + eapply IH; eauto.
    + discriminate.
Qed.
End Mutex.
