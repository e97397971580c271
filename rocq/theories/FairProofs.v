(** Progress of AtomicRef under fair schedulers. *)
From Verif Require Import Base AtomicRefModel AtomicRefSpec AtomicRefProofs AtomicRefStep AtomicRefLin FairSpec.
Local Open Scope nat_scope.

(** Steps left, not counting attempts to lock. *)
Definition rank (p : pc) : nat :=
  match p with
  | Idle => 0 | NewP _ | Add _ | CtAdd _ _ => 1
  | RelDel _ _ => 1 | RelAssert _ _ => 2 | RelSub _ _ => 3 | DtA _ => 4
  | UnStore _ _ _ => 4 | UnB _ _ _ _ => 5 | UnA _ _ _ => 6 | CritAdd _ _ _ => 7
  | LkLoad _ _ | LkCas _ _ _ => 8
  end.
Definition waits (p : pc) : bool := match p with LkLoad _ _ | LkCas _ _ _ => true | _ => false end.
Definition work (s : state) : nat := sum (map (fun th => rank (tpc th)) (threads s)).

Section Fair.
Variable vt : variant.
Variable debug : bool.

(** A step does work, or is an attempt to lock that changes nothing but the control point. *)
Lemma cont_shape s t p l s' o : nth_error (threads s) t = Some (Thread p l) -> cont vt debug s t p l = Ok (s', o) ->
  exists p' l', threads s' = upd (threads s) t (Thread p' l') /\
   (rank p' < rank p \/
    cells s' = cells s /\ l' = l /\
    ((exists c op w, p = LkLoad c op /\ nth_error (cells s) c = Some (CLive w) /\ p' = LkCas c op (untagged w)) \/
     (exists c op old w, p = LkCas c op old /\ nth_error (cells s) c = Some (CLive w) /\ w <> old /\ p' = LkLoad c op))).
Proof.
  intros H E. destruct p as [|a|a|a k|a k|a k|c q|c q old|c q v|c q v|c q v x|c q v|c q|w]; cbn [cont] in E; try discriminate;
  repeat (match type of E with
        | bind ?x _ = Ok _ => let Q := fresh "Q" in destruct x eqn:Q; cbn [bind] in E; try discriminate
        | (if ?b then _ else _) = Ok _ => destruct b eqn:?
        | match ?b with _ => _ end = Ok _ => destruct b eqn:?; try discriminate
        end); injection E as <- <-;
      repeat match goal with
      | Q : setpc _ _ _ _ = Ok _ |- _ => apply setpc_inv in Q; subst
      | Q : setcell _ _ _ = Ok _ |- _ => apply setcell_inv in Q; subst
      | Q : load _ _ = Ok _ |- _ => apply load_inv in Q
      end; cbn [threads cells sethp].
  all: try (eexists _, _; split; [reflexivity|]; left; cbn; lia).
  - eexists _, _; split; [destruct vt; reflexivity|]. left. cbn. lia.
  - eexists _, _; split; [reflexivity|]. right. split; [reflexivity|]. split; [reflexivity|]. left. eauto 6.
  - eexists _, _; split; [reflexivity|]. left. unfold enter. destruct (target q old =? 0)%N; cbn; lia.
  - eexists _, _; split; [reflexivity|]. right. split; [reflexivity|]. split; [reflexivity|]. right. apply N.eqb_neq in Heqb. eauto 9.
  - eexists _, _; split; [reflexivity|]. left. unfold release_pc. match goal with |- context [if ?b then _ else _] => destruct b end; cbn; lia.
  - eexists _, _; split; [reflexivity|]. left. unfold release_pc. match goal with |- context [if ?b then _ else _] => destruct b end; cbn; lia.
Qed.

(** [s] and [s1] differ only in attempts to lock. *)
Definition alike (s s1 : state) : Prop :=
  cells s1 = cells s /\ length (threads s1) = length (threads s) /\
  forall u th, nth_error (threads s) u = Some th -> exists th1, nth_error (threads s1) u = Some th1 /\ (th1 = th \/ waits (tpc th) = true /\ waits (tpc th1) = true).
Lemma alike_refl s : alike s s.
Proof. split; [reflexivity|]. split; [reflexivity|]. intros u th H. eauto. Qed.
Lemma alike_trans a b c : alike a b -> alike b c -> alike a c.
Proof.
  intros (H1 & H2 & H3) (G1 & G2 & G3). split; [congruence|]. split; [congruence|]. intros u th H.
  destruct (H3 u th H) as (t1 & E1 & C1). destruct (G3 u t1 E1) as (t2 & E2 & C2). exists t2. split; [exact E2|].
  destruct C1 as [->|[W1 W2]], C2 as [->|[V1 V2]]; auto.
Qed.

Lemma turn_ok s t : inv vt s -> exists s', turn vt debug s t = Ok s' /\ inv vt s' /\
  (work s' < work s \/
   alike s s' /\ work s' = work s /\ (forall u, u <> t -> nth_error (threads s') u = nth_error (threads s) u)).
Proof.
  intros I. unfold turn. destruct (nth_error (threads s) t) as [[p l]|] eqn:H.
  2: { exists s. split; [reflexivity|]. split; [exact I|]. right. split; [apply alike_refl|]. auto. }
  cbn [tpc]. assert (D : p = Idle \/ p <> Idle) by (destruct p; [left; reflexivity|right; discriminate..]). destruct D as [->|Hp].
  { exists s. split; [reflexivity|]. split; [exact I|]. right. split; [apply alike_refl|]. auto. }
  assert (A : allowed s (ECont t)) by (exists (Thread p l); auto).
  destruct (step_ok vt debug s (ECont t) I A) as (s' & o & E & I').
  replace (match p with Idle => _ | _ => _ end) with (do (s', _) <- step vt debug s (ECont t); Ok s') by (destruct p; congruence).
  rewrite E. cbn [bind]. exists s'. split; [reflexivity|]. split; [exact I'|].
  cbn [step] in E. rewrite (slot_get_ok _ _ _ H) in E. cbn [bind tpc held] in E.
  destruct (cont_shape s t p l s' o H E) as (p' & l' & Et & C). pose proof (sum_upd (fun th => rank (tpc th)) _ _ (Thread p' l') _ H) as W. rewrite <- Et in W. cbn [tpc] in W. fold (work s) (work s') in W.
  destruct C as [C|(Ec & -> & C)]; [left; lia|]. right.
  assert (Wp : waits p = true /\ waits p' = true /\ rank p' = rank p). { destruct C as [(c & op & w & -> & _ & ->)|(c & op & old & w & -> & _ & _ & ->)]; auto. }
  destruct Wp as (W1 & W2 & W3). split; [split; [exact Ec|split]|split; [lia|]].
  - rewrite Et. apply upd_length.
  - intros u th Hu. rewrite Et. destruct (Nat.eq_dec t u) as [<-|Hne].
    + rewrite nth_error_upd_eq by (apply nth_error_Some; congruence). rewrite H in Hu. injection Hu as <-. eauto.
    + rewrite nth_error_upd_ne by auto. eauto.
  - intros u Hu. rewrite Et. apply nth_error_upd_ne. auto.
Qed.

Lemma turns_S s sched n : turns vt debug s sched (S n) = do s' <- turn vt debug s (sched 0); turns vt debug s' (fun k => sched (S k)) n.
Proof.
  revert s. induction n as [|n IH]; intros s.
  - cbn. destruct (turn vt debug s (sched 0)); reflexivity.
  - change (turns vt debug s sched (S (S n))) with (do s' <- turns vt debug s sched (S n); turn vt debug s' (sched (S n))).
    rewrite IH. destruct (turn vt debug s (sched 0)) as [s'| |]; cbn [bind]; reflexivity.
Qed.
Lemma turns_add s sched n m : turns vt debug s sched (n + m) = do s' <- turns vt debug s sched n; turns vt debug s' (fun k => sched (n + k)) m.
Proof.
  induction m as [|m IH].
  - rewrite Nat.add_0_r. cbn. destruct (turns vt debug s sched n); reflexivity.
  - rewrite Nat.add_succ_r. cbn [turns]. rewrite IH. destruct (turns vt debug s sched n) as [s'| |]; cbn [bind]; reflexivity.
Qed.
(** Until thread [t] gets its next turn, work is done or nothing happens that matters to it. *)
Lemma next_turn t j : forall s sched, inv vt s -> sched j = t -> exists k s1, turns vt debug s sched k = Ok s1 /\ inv vt s1 /\
  (work s1 < work s \/ sched k = t /\ alike s s1 /\ work s1 = work s /\ nth_error (threads s1) t = nth_error (threads s) t).
Proof.
  induction j as [|j IH]; intros s sched I Hj.
  - exists 0, s. split; [reflexivity|]. split; [exact I|]. right. split; [assumption|]. split; [apply alike_refl|]. auto.
  - destruct (Nat.eq_dec (sched 0) t) as [E|Hne].
    { exists 0, s. split; [reflexivity|]. split; [exact I|]. right. split; [assumption|]. split; [apply alike_refl|]. auto. }
    destruct (turn_ok s (sched 0) I) as (s1 & E1 & I1 & C1).
    destruct C1 as [C1|(A1 & W1 & O1)].
    { exists 1, s1. rewrite turns_S, E1. cbn. auto. }
    destruct (IH s1 (fun k => sched (S k)) I1 Hj) as (k & s2 & E2 & I2 & C2). exists (S k), s2. rewrite turns_S, E1. cbn [bind]. split; [exact E2|]. split; [exact I2|].
    destruct C2 as [C2|(S2 & A2 & W2 & O2)]; [left; lia|right]. split; [exact S2|]. split; [eapply alike_trans; eauto|]. split; [lia|].
    rewrite O2. apply O1. auto.
Qed.
Lemma fair_shift n sched k : fair n sched -> fair n (fun i => sched (k + i)).
Proof. intros F t i Ht. destruct (F t (k + i) Ht) as (j & Hj & E). exists (j - k). split; [lia|]. replace (k + (j - k)) with j by lia. exact E. Qed.

Definition ok_or_less (s : state) (sched : nat -> nat) : Prop := exists n s', turns vt debug s sched n = Ok s' /\ inv vt s' /\ length (threads s') = length (threads s) /\ work s' < work s.

Lemma turn_len s t s' : inv vt s -> turn vt debug s t = Ok s' -> length (threads s') = length (threads s).
Proof.
  intros I E. unfold turn in E. destruct (nth_error (threads s) t) as [[p l]|] eqn:H; [|congruence]. cbn [tpc] in E.
  assert (D : p = Idle \/ p <> Idle) by (destruct p; [left; reflexivity|right; discriminate..]). destruct D as [->|Hp]; [congruence|].
  replace (match p with Idle => _ | _ => _ end) with (do (s', _) <- step vt debug s (ECont t); Ok s') in E by (destruct p; congruence).
  cbn [step] in E. rewrite (slot_get_ok _ _ _ H) in E. cbn [bind tpc held] in E. destruct (cont vt debug s t p l) as [[s1 o]| |] eqn:Ec; cbn [bind] in E; try discriminate.
  injection E as <-. destruct (cont_shape s t p l s1 o H Ec) as (p' & l' & Et & _). rewrite Et. apply upd_length.
Qed.
Lemma turns_len sched n : forall s s', inv vt s -> turns vt debug s sched n = Ok s' -> length (threads s') = length (threads s).
Proof.
  revert sched. induction n as [|n IH]; intros sched s s' I E; [cbn in E; congruence|]. rewrite turns_S in E. destruct (turn_ok s (sched 0) I) as (s1 & E1 & I1 & _).
  rewrite E1 in E. cbn [bind] in E. rewrite (IH _ _ _ I1 E). eapply turn_len; eauto.
Qed.
(** If thread [t]'s own turn now does work, work is done some time. *)
Lemma own_turn s sched t n1 s1 : inv vt s -> turns vt debug s sched n1 = Ok s1 -> inv vt s1 -> work s1 = work s -> sched n1 = t ->
  (forall s2, turn vt debug s1 t = Ok s2 -> inv vt s2 -> work s2 < work s1) -> ok_or_less s sched.
Proof.
  intros I E1 I1 W1 St H. destruct (turn_ok s1 t I1) as (s2 & E2 & I2 & _). exists (S n1), s2. 
  assert (E : turns vt debug s sched (S n1) = Ok s2) by (cbn [turns]; rewrite E1; cbn [bind]; now rewrite St).
  split; [exact E|]. split; [exact I2|]. split; [eapply turns_len; eauto|]. specialize (H s2 E2 I2). lia.
Qed.
Lemma turn_work s t p l : inv vt s -> nth_error (threads s) t = Some (Thread p l) -> p <> Idle -> 
  (waits p = true -> exists c op old, p = LkCas c op old /\ nth_error (cells s) c = Some (CLive old)) ->
  forall s2, turn vt debug s t = Ok s2 -> inv vt s2 -> work s2 < work s.
Proof.
  intros I H Hp Hw s2 E _. unfold turn in E. rewrite H in E. cbn [tpc] in E.
  replace (match p with Idle => _ | _ => _ end) with (do (s', _) <- step vt debug s (ECont t); Ok s') in E by (destruct p; congruence).
  cbn [step] in E. rewrite (slot_get_ok _ _ _ H) in E. cbn [bind tpc held] in E. destruct (cont vt debug s t p l) as [[s1 o]| |] eqn:Ec; cbn [bind] in E; try discriminate.
  injection E as <-. destruct (cont_shape s t p l s1 o H Ec) as (p' & l' & Et & C). pose proof (sum_upd (fun th => rank (tpc th)) _ _ (Thread p' l') _ H) as W. rewrite <- Et in W. cbn [tpc] in W. fold (work s) (work s1) in W.
  destruct C as [C|(_ & _ & [(c & op & w & -> & _)|(c & op & old & w & -> & Hc & Hne & _)])]; [lia|exfalso..].
  - destruct (Hw eq_refl) as (? & ? & ? & X & _). discriminate.
  - destruct (Hw eq_refl) as (? & ? & ? & X & Y). injection X as <- <- <-. congruence.
Qed.
(** What a turn of a waiting thread does. *)
Lemma turn_load s t c op l w : nth_error (threads s) t = Some (Thread (LkLoad c op) l) -> nth_error (cells s) c = Some (CLive w) ->
  exists s', turn vt debug s t = Ok s' /\ cells s' = cells s /\ threads s' = upd (threads s) t (Thread (LkCas c op (untagged w)) l).
Proof.
  intros H Hc. unfold turn. rewrite H. cbn [tpc step]. rewrite (slot_get_ok _ _ _ H). cbn [bind tpc held cont]. rewrite (load_ok _ _ _ Hc). cbn [bind].
  rewrite (setpc_ok _ _ _ _ _ H). cbn [bind]. eexists. split; [reflexivity|]. split; reflexivity.
Qed.
Lemma turn_cas_fail s t c op old l w : nth_error (threads s) t = Some (Thread (LkCas c op old) l) -> nth_error (cells s) c = Some (CLive w) -> w <> old ->
  exists s', turn vt debug s t = Ok s' /\ cells s' = cells s /\ threads s' = upd (threads s) t (Thread (LkLoad c op) l).
Proof.
  intros H Hc Hne. unfold turn. rewrite H. cbn [tpc step]. rewrite (slot_get_ok _ _ _ H). cbn [bind tpc held cont]. rewrite (load_ok _ _ _ Hc). cbn [bind].
  apply N.eqb_neq in Hne. rewrite Hne. rewrite (setpc_ok _ _ _ _ _ H). cbn [bind]. eexists. split; [reflexivity|]. split; reflexivity.
Qed.
Lemma free_cells s c w : inv vt s -> (forall u th, nth_error (threads s) u = Some th -> tpc th = Idle \/ waits (tpc th) = true) ->
  nth_error (cells s) c = Some (CLive w) -> N.even w = true.
Proof.
  intros I F Hc. pose proof (i_lock vt s I c _ Hc) as L. cbn [cexcl] in L. rewrite sum_all0 in L.
  - rewrite odd_even in L. destruct (N.even w); [reflexivity|discriminate].
  - intros th Hin. apply In_nth_error in Hin as [u Hu]. destruct (F u th Hu) as [->|W]; [reflexivity|]. destruct (tpc th); try discriminate; reflexivity.
Qed.
Lemma alike_free s s1 : alike s s1 -> (forall u th, nth_error (threads s) u = Some th -> tpc th = Idle \/ waits (tpc th) = true) ->
  forall u th, nth_error (threads s1) u = Some th -> tpc th = Idle \/ waits (tpc th) = true.
Proof.
  intros (A1 & A2 & A3) F u th1 H. destruct (nth_error (threads s) u) as [th|] eqn:E.
  - destruct (A3 u th E) as (th' & E' & [->|[_ W]]); rewrite E' in H; injection H as <-; [now apply (F u)|auto].
  - apply nth_error_None in E. assert (u < length (threads s1)) by (apply nth_error_Some; congruence). lia.
Qed.
(** A thread about to load an unlocked cell: it gets the lock, unless work is done before. *)
Lemma load_case s sched t c op l w : inv vt s -> fair (length (threads s)) sched ->
  (forall u th, nth_error (threads s) u = Some th -> tpc th = Idle \/ waits (tpc th) = true) ->
  nth_error (threads s) t = Some (Thread (LkLoad c op) l) -> nth_error (cells s) c = Some (CLive w) -> ok_or_less s sched.
Proof.
  intros I F Fr H Hc. assert (Ht : t < length (threads s)) by (apply nth_error_Some; congruence).
  destruct (F t 0 Ht) as (j & _ & Hj). destruct (next_turn t j s sched I Hj) as (k & s1 & E1 & I1 & [C1|(S1 & A1 & W1 & O1)]).
  { exists k, s1. split; [assumption|]. split; [assumption|]. split; [eapply turns_len; eauto|assumption]. }
  assert (Ev : untagged w = w). { apply untagged_even. apply (free_cells s c); auto. }
  pose proof A1 as (Ec1 & El1 & _). rewrite <- O1 in H. rewrite <- Ec1 in Hc. destruct (turn_load s1 t c op l w H Hc) as (s2 & E2 & Ec2 & Et2).
  destruct (turn_ok s1 t I1) as (s2' & E2' & I2 & C2). rewrite E2 in E2'. injection E2' as <-.
  assert (E12 : turns vt debug s sched (S k) = Ok s2) by (cbn [turns]; rewrite E1; cbn [bind]; now rewrite S1).
  destruct C2 as [C2|(A2 & W2 & _)].
  { exists (S k), s2. split; [assumption|]. split; [assumption|]. split; [eapply turns_len; eauto|lia]. }
  assert (H2 : nth_error (threads s2) t = Some (Thread (LkCas c op w) l)). { rewrite Et2, Ev. apply nth_error_upd_eq. lia. }
  rewrite <- Ec2 in Hc. 
  destruct (F t (S k) Ht) as (j2 & Hj2 & Hs2). 
  destruct (next_turn t (j2 - S k) s2 (fun i => sched (S k + i)) I2) as (k3 & s3 & E3 & I3 & C3). { replace (S k + (j2 - S k)) with j2 by lia. exact Hs2. }
  assert (E13 : turns vt debug s sched (S k + k3) = Ok s3) by (rewrite turns_add, E12; cbn [bind]; exact E3).
  destruct C3 as [C3|(S3 & A3 & W3 & O3)].
  { exists (S k + k3), s3. split; [assumption|]. split; [assumption|]. split; [eapply turns_len; eauto|lia]. }
  apply (own_turn s sched t (S k + k3) s3); auto; [lia|]. rewrite <- O3 in H2. pose proof A3 as (Ec3 & _). rewrite <- Ec3 in Hc.
  apply (turn_work s3 t _ _ I3 H2); [discriminate|]. intros _. eauto.
Qed.
Lemma progress s sched : inv vt s -> fair (length (threads s)) sched -> ~ quiescent s -> ok_or_less s sched.
Proof.
  intros I F NQ.
  assert (D : (exists t th, nth_error (threads s) t = Some th /\ tpc th <> Idle /\ waits (tpc th) = false) \/
              (forall u th, nth_error (threads s) u = Some th -> tpc th = Idle \/ waits (tpc th) = true)).
  { assert (G : forall ths : list thread, (exists t th, nth_error ths t = Some th /\ tpc th <> Idle /\ waits (tpc th) = false) \/
              (forall u th, nth_error ths u = Some th -> tpc th = Idle \/ waits (tpc th) = true)).
    { induction ths as [|th ths [(t & th' & H)|IH]]; [right; intros [|u] th H; discriminate|left; exists (S t), th'; exact H|].
      assert (C : tpc th = Idle \/ waits (tpc th) = true \/ (tpc th <> Idle /\ waits (tpc th) = false)) by (destruct (tpc th); cbn; auto; right; right; split; congruence).
      destruct C as [C|[C|C]]; [right|right|left; exists 0, th; auto]; (intros [|u] th' H; cbn in H; [injection H as <-; auto|eauto]). }
    apply G. }
  destruct D as [(t & [p l] & H & Hp & W)|Fr].
  - assert (Ht : t < length (threads s)) by (apply nth_error_Some; congruence).
    destruct (F t 0 Ht) as (j & _ & Hj). destruct (next_turn t j s sched I Hj) as (k & s1 & E1 & I1 & [C1|(S1 & A1 & W1 & O1)]).
    { exists k, s1. split; [assumption|]. split; [assumption|]. split; [eapply turns_len; eauto|assumption]. }
    apply (own_turn s sched t k s1); auto. rewrite <- O1 in H. apply (turn_work s1 t _ _ I1 H); [exact Hp|]. cbn in W. congruence.
  - assert (exists t th, nth_error (threads s) t = Some th /\ waits (tpc th) = true) as (t & [p l] & H & W).
    { assert (G : forall ths : list thread, (forall u th, nth_error ths u = Some th -> tpc th = Idle \/ waits (tpc th) = true) ->
         (exists t th, nth_error ths t = Some th /\ waits (tpc th) = true) \/ (forall t th, nth_error ths t = Some th -> tpc th = Idle)).
      { clear. induction ths as [|th ths IH]; intros Fr; [right; intros [|t] th H; discriminate|].
        destruct (Fr 0 th eq_refl) as [Hi|W]; [|left; exists 0, th; auto]. destruct IH as [(t & th' & X)|IH]; [intros u th' Hu; exact (Fr (S u) th' Hu)|left; exists (S t), th'; exact X|].
        right. intros [|t] th' H; cbn in H; [congruence|eauto]. }
      destruct (G _ Fr) as [X|X]; [exact X|contradiction]. }
    assert (Ht : t < length (threads s)) by (apply nth_error_Some; congruence).
    pose proof (i_thr vt s I t _ H) as T. cbn [tpc held] in T, W. destruct p; try discriminate.
    + destruct T as [[w Hc] _]. eapply load_case; eauto.
    + destruct T as [[w Hc] _]. 
      destruct (F t 0 Ht) as (j & _ & Hj). destruct (next_turn t j s sched I Hj) as (k & s1 & E1 & I1 & [C1|(S1 & A1 & W1 & O1)]).
      { exists k, s1. split; [assumption|]. split; [assumption|]. split; [eapply turns_len; eauto|assumption]. }
      rewrite <- O1 in H. pose proof A1 as (Ec1 & El1 & _). rewrite <- Ec1 in Hc. destruct (N.eq_dec w old) as [->|Hne].
      * apply (own_turn s sched t k s1); auto. apply (turn_work s1 t _ _ I1 H); [discriminate|]. intros _. eauto.
      * destruct (turn_cas_fail s1 t c o old l w H Hc Hne) as (s2 & E2 & Ec2 & Et2).
        destruct (turn_ok s1 t I1) as (s2' & E2' & I2 & C2). rewrite E2 in E2'. injection E2' as <-.
        assert (E12 : turns vt debug s sched (S k) = Ok s2) by (cbn [turns]; rewrite E1; cbn [bind]; now rewrite S1).
        destruct C2 as [C2|(A2 & W2 & _)]. { exists (S k), s2. split; [assumption|]. split; [assumption|]. split; [eapply turns_len; eauto|lia]. }
        assert (H2 : nth_error (threads s2) t = Some (Thread (LkLoad c o) l)). { rewrite Et2. apply nth_error_upd_eq. lia. }
        assert (Len : length (threads s2) = length (threads s)) by (eapply turns_len; eauto).
        rewrite <- Ec2 in Hc. destruct (load_case s2 (fun i => sched (S k + i)) t c o l w I2) as (n & s3 & E3 & I3 & L3 & W3); auto.
        -- rewrite Len. now apply fair_shift.
        -- eapply alike_free; [exact A2|]. eapply alike_free; eauto.
        -- exists (S k + n), s3. rewrite turns_add, E12. cbn [bind]. split; [assumption|]. split; [assumption|]. split; [congruence|lia].
Qed.
Theorem completes : forall n s sched, work s <= n -> inv vt s -> fair (length (threads s)) sched ->
  exists k s', turns vt debug s sched k = Ok s' /\ quiescent s'.
Proof.
  induction n as [|n IH]; intros s sched Hn I F.
  - exists 0, s. split; [reflexivity|]. intros t th H. pose proof (sum_ge (fun th => rank (tpc th)) _ _ _ H) as G. fold (work s) in G. cbn beta in G.
    destruct (tpc th); cbn in G; try reflexivity; lia.
  - assert (D : quiescent s \/ ~ quiescent s).
    { assert (G : forall ths : list thread, (forall t th, nth_error ths t = Some th -> tpc th = Idle) \/ ~ (forall t th, nth_error ths t = Some th -> tpc th = Idle)).
      { clear. induction ths as [|th ths [IH|IH]]; [left; intros [|t] th H; discriminate| |right; intros X; apply IH; intros t th' H; exact (X (S t) th' H)].
        assert (C : tpc th = Idle \/ tpc th <> Idle) by (destruct (tpc th); [left; reflexivity|right; discriminate..]).
        destruct C as [C|C]; [left; intros [|t] th' H; cbn in H; [congruence|eauto]|right; intros X; apply C; exact (X 0 th eq_refl)]. }
      apply G. }
    destruct D as [Q|NQ]; [exists 0, s; split; [reflexivity|exact Q]|].
    destruct (progress s sched I F NQ) as (k & s1 & E1 & I1 & L1 & W1).
    destruct (IH s1 (fun i => sched (k + i))) as (k2 & s2 & E2 & Q2); [lia|exact I1|rewrite L1; now apply fair_shift|].
    exists (k + k2), s2. rewrite turns_add, E1. cbn [bind]. auto.
Qed.
End Fair.

(** ** A thread inside the critical section *)
Section Block.
Variable vt : variant.
Variable debug : bool.
Lemma section_excl p c : in_section p c -> excl c p = 1.
Proof. destruct p; cbn; try contradiction; intros ->; now rewrite Nat.eqb_refl. Qed.
Lemma section_locked s t th c : inv vt s -> nth_error (threads s) t = Some th -> in_section (tpc th) c -> exists v, nth_error (cells s) c = Some (CLive (tagged v)).
Proof.
  intros I H S. pose proof (i_thr vt s I t th H) as T. destruct (tpc th); cbn [in_section thread_ok] in *; try contradiction; subst; unfold locked in T; eexists; apply T.
Qed.
Lemma exclusive s c t u tht thu : inv vt s -> nth_error (threads s) t = Some tht -> nth_error (threads s) u = Some thu ->
  in_section (tpc tht) c -> in_section (tpc thu) c -> t = u.
Proof.
  intros I Ht Hu St Su. destruct (Nat.eq_dec t u) as [|Hne]; [auto|exfalso]. destruct (section_locked s t tht c I Ht St) as [v Hc].
  pose proof (i_lock vt s I c _ Hc) as L. cbn [cexcl] in L. rewrite tagged_odd in L.
  pose proof (sum_two (fun th => excl c (tpc th)) _ _ _ _ _ Hne Ht Hu) as S2. cbn beta in S2. rewrite (section_excl _ _ St), (section_excl _ _ Su) in S2. lia.
Qed.
Lemma cont_obs s v p l s' o : cont vt debug s v p l = Ok (s', o) -> forall x y z r, In (Res x y z r) o -> x = v /\ (past_section p y \/ in_section p y).
Proof.
  intros E. destruct p as [|a|a|a k|a k|a k|c q|c q old|c q w|c q w|c q w x|c q w|c q|w]; cbn [cont] in E; try discriminate;
  repeat (match type of E with
        | bind ?x _ = Ok _ => let Q := fresh "Q" in destruct x eqn:Q; cbn [bind] in E; try discriminate
        | (if ?b then _ else _) = Ok _ => destruct b eqn:?
        | match ?b with _ => _ end = Ok _ => destruct b eqn:?; try discriminate
        end); injection E as <- <-; intros x' y z r Hin; cbn in Hin; try contradiction.
  - unfold finish in Hin. destruct k as [[d e]|]; cbn in Hin; [|contradiction]. destruct Hin as [X|[]]. injection X as <- <- <- <-. split; [reflexivity|left; reflexivity].
  - unfold finish in Hin. destruct k as [[d e]|]; cbn in Hin; [|contradiction]. destruct Hin as [X|[]]. injection X as <- <- <- <-. split; [reflexivity|left; reflexivity].
  - destruct Hin as [X|[]]. injection X as <- <- <- <-. split; [reflexivity|right; reflexivity].
  - destruct (w =? 0)%N; cbn in Hin; [|contradiction]. destruct Hin as [X|[]]. injection X as <- <- <- <-. split; [reflexivity|right; reflexivity].
Qed.
Lemma cont_past s v p l s' o : nth_error (threads s) v = Some (Thread p l) -> cont vt debug s v p l = Ok (s', o) ->
  exists th, threads s' = upd (threads s) v th /\ forall y, past_section (tpc th) y -> past_section p y \/ in_section p y.
Proof.
  intros H E. destruct p as [|a|a|a k|a k|a k|c q|c q old|c q w|c q w|c q w x|c q w|c q|w]; cbn [cont] in E; try discriminate;
  repeat (match type of E with
        | bind ?x _ = Ok _ => let Q := fresh "Q" in destruct x eqn:Q; cbn [bind] in E; try discriminate
        | (if ?b then _ else _) = Ok _ => destruct b eqn:?
        | match ?b with _ => _ end = Ok _ => destruct b eqn:?; try discriminate
        end); injection E as <- <-;
      repeat match goal with
      | Q : setpc _ _ _ _ = Ok _ |- _ => apply setpc_inv in Q; subst
      | Q : setcell _ _ _ = Ok _ |- _ => apply setcell_inv in Q; subst
      end; cbn [threads cells sethp]; try (eexists; split; [destruct vt; reflexivity|]; cbn [tpc]; intros y Hy; try (exact (or_introl Hy)); try contradiction).
  - exfalso. revert Hy. unfold enter. destruct (target q old =? 0)%N; cbn; auto.
  - right. revert Hy. unfold release_pc. destruct (w =? 0)%N; cbn; auto; contradiction.
  - exfalso. revert Hy. unfold release_pc. destruct (w =? 0)%N; cbn; auto.
Qed.
Lemma start_block s v l a s' o : nth_error (threads s) v = Some (Thread Idle l) -> start debug s v l a = Ok (s', o) ->
  (forall x y z r, ~ In (Res x y z r) o) /\
  (forall w th, nth_error (threads s) w = Some th -> exists th', nth_error (threads s') w = Some th' /\ (w <> v -> tpc th' = tpc th) /\ (w = v -> forall y, ~ past_section (tpc th') y)).
Proof.
  intros H E. assert (Hlt : v < length (threads s)) by (apply nth_error_Some; congruence).
  assert (One : forall p' l' w th, (forall y, ~ past_section p' y) -> nth_error (threads s) w = Some th -> exists th', nth_error (upd (threads s) v (Thread p' l')) w = Some th' /\ (w <> v -> tpc th' = tpc th) /\ (w = v -> forall y, ~ past_section (tpc th') y)).
  { intros p' l' w th Np Hw. destruct (Nat.eq_dec v w) as [<-|Hne].
    - rewrite nth_error_upd_eq by auto. eexists. split; [reflexivity|]. split; [congruence|auto].
    - rewrite nth_error_upd_ne by auto. exists th. split; [exact Hw|]. split; [auto|congruence]. }
  destruct a as [a|a|a|a u|c|c q|c q|c]; cbn [start] in E;
    repeat (match type of E with
        | bind ?x _ = Ok _ => let Q := fresh "Q" in destruct x eqn:Q; cbn [bind] in E; try discriminate
        | (if ?b then _ else _) = Ok _ => destruct b eqn:?
        end); injection E as <- <-;
      repeat match goal with
      | Q : setpc _ _ _ _ = Ok _ |- _ => apply setpc_inv in Q; subst
      | Q : setcell _ _ _ = Ok _ |- _ => apply setcell_inv in Q; subst
      end; cbn [threads cells sethp] in *; (split; [intros x y z r; cbn; try (intros [X|[]]; discriminate); tauto|]); intros w th Hw;
      try (apply One; [cbn; auto|exact Hw]).
  - (* AGive *)
    unfold slot_get in Q0. cbn [threads] in Q0. destruct (nth_error (upd (threads s) v (Thread Idle (remove1 a l))) u) as [thu|] eqn:Hu; [|discriminate]. injection Q0 as ->.
    destruct (One Idle (remove1 a l) w th ltac:(cbn; auto) Hw) as (th' & H1 & H2 & H3). destruct (Nat.eq_dec u w) as [<-|Hne].
    + rewrite nth_error_upd_eq by (apply nth_error_Some; congruence). eexists. split; [reflexivity|]. cbn [tpc]. rewrite H1 in Hu. injection Hu as <-. auto.
    + rewrite nth_error_upd_ne by auto. eauto.
  - exists th. split; [exact Hw|]. split; [reflexivity|]. intros ->. rewrite H in Hw. injection Hw as <-. cbn. auto.
Qed.
Lemma blocked c t u : u <> t -> forall es s s' tr, inv vt s -> legal vt debug s es -> ~ In (ECont t) es -> run vt debug s es = Ok (s', tr) ->
  forall tht thu, nth_error (threads s) t = Some tht -> in_section (tpc tht) c -> nth_error (threads s) u = Some thu -> ~ past_section (tpc thu) c ->
  forall o r, ~ In (Res u c o r) tr.
Proof.
  intros Hut. induction es as [|e es IH]; intros s s' tr I L Nt R tht thu Ht St Hu Pu o r Hin; cbn [run] in R; [injection R as <- <-; contradiction|].
  inversion L as [|? ? ? A Rest]; subst. destruct (step_ok vt debug s e I A) as (s1 & o1 & E & I1). rewrite E in R. cbn [bind] in R.
  destruct (run vt debug s1 es) as [[s2 o2]| |] eqn:R2; cbn [bind] in R; try discriminate. injection R as <- <-.
  assert (Key : ~ In (Res u c o r) o1 /\ exists tht1 thu1, nth_error (threads s1) t = Some tht1 /\ in_section (tpc tht1) c /\ nth_error (threads s1) u = Some thu1 /\ ~ past_section (tpc thu1) c).
  { destruct e as [v a|v]; cbn [step] in E.
    - destruct A as ([p l] & H & Hp & A). cbn [tpc] in Hp. subst p. rewrite (slot_get_ok _ _ _ H) in E. cbn [bind held] in E.
      destruct (start_block s v l a s1 o1 H E) as [No Th]. split; [apply No|].
      destruct (Th t tht Ht) as (tht1 & G1 & G2 & _). destruct (Th u thu Hu) as (thu1 & G3 & G4 & G5). exists tht1, thu1. split; [exact G1|].
      assert (t <> v). { intros ->. rewrite H in Ht. injection Ht as <-. contradiction. }
      split; [now rewrite G2|]. split; [exact G3|]. destruct (Nat.eq_dec u v) as [Ev|Ev]; [now apply G5|now rewrite G4].
    - destruct A as ([p l] & H & Hp). rewrite (slot_get_ok _ _ _ H) in E. cbn [bind held tpc] in *.
      assert (Hvt : v <> t) by (intros ->; apply Nt; now left).
      assert (Hn : v = u -> ~ (past_section p c \/ in_section p c)).
      { intros -> [X|X]; rewrite H in Hu; injection Hu as <-; [contradiction|]. apply Hut. exact (exclusive s c u t (Thread p l) tht I H Ht X St). }
      split.
      + intros X. destruct (cont_obs s v p l s1 o1 E _ _ _ _ X) as [Ev Y]. symmetry in Ev. exact (Hn Ev Y).
      + destruct (cont_past s v p l s1 o1 H E) as (th & Et & Y). exists tht. rewrite Et. destruct (Nat.eq_dec v u) as [Ev|Ev].
        * exists th. split; [rewrite nth_error_upd_ne; auto|]. split; [exact St|]. split; [rewrite <- Ev; apply nth_error_upd_eq; apply nth_error_Some; congruence|].
          intros X. exact (Hn Ev (Y _ X)).
        * exists thu. split; [rewrite nth_error_upd_ne; auto|]. split; [exact St|]. split; [rewrite nth_error_upd_ne; auto|exact Pu]. }
  destruct Key as [K1 (tht1 & thu1 & T1 & T2 & T3 & T4)]. apply in_app_or in Hin as [Hin|Hin]; [contradiction|].
  refine (IH s1 s2 o2 I1 (Rest _ _ E) _ R2 tht1 thu1 T1 T2 T3 T4 o r Hin). intros X. apply Nt. now right.
Qed.
End Block.
