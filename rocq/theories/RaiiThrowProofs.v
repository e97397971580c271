(** Proofs for am-raii.h with exceptions. *)
From Verif Require Import Base RaiiModel RaiiThrowModel RaiiThrowSpec.

Local Arguments gevent_eq : simpl never.
Section P.
Variable V : Type.
Variable throws : nat -> bool.
Variable torn : V -> V -> V.
Notation exec := (exec throws torn).
Notation assign := (assign throws torn).

Definition opn (i : nat) (g : list (nat * bool)) : nat :=
  length (filter (fun p => (fst p =? i) && negb (snd p)) g).
Definition bal (i : nat) (s : tstate V) : Prop :=
  times (Made i) (events s) = times (Ran i) (events s) + times (Cancelled i) (events s) + opn i (live s).

Lemma cancel_ok k : forall g i c g', cancel k g = Some (i, c, g') ->
  map fst g' = map fst g /\ forall j, opn j g = opn j g' + (if (i =? j) && negb c then 1 else 0).
Proof.
  induction k as [|k IH]; intros [|[i0 c0] g] i c g' E; cbn in E; try discriminate.
  - injection E as <- <- <-. split; [reflexivity|]. intros j. unfold opn. cbn. rewrite andb_false_r.
    destruct ((i0 =? j) && negb c0); cbn; lia.
  - destruct (cancel k g) as [[[i1 c1] g1]|] eqn:E1; [|discriminate]. injection E as <- <- <-.
    destruct (IH _ _ _ _ E1) as [H1 H2]. split; [cbn; congruence|]. intros j. specialize (H2 j). unfold opn in *. cbn.
    destruct ((i0 =? j) && negb c0); cbn; lia.
Qed.
Lemma assign_same s l x s' th : assign s l x = (s', th) -> live s' = live s /\ events s' = events s.
Proof. unfold RaiiThrowModel.assign. destruct (throws (clock s)); intros E; injection E as <- <-; auto. Qed.
Lemma times_app e a b : times e (a ++ b) = times e a + times e b.
Proof. apply count_occ_app. Qed.

Lemma ended_inv (e : ending V) s : ended e s -> e = Done s \/ e = Thrown s. Proof. auto. Qed.

(** The names of the live guards do not change; each guard made has run, been cancelled, or is still armed. *)
Lemma exec_books p : forall s s', ended (exec p s) s' ->
  map fst (live s') = map fst (live s) /\ forall i, bal i s -> bal i s'.
Proof.
  induction p as [|a IHa b IHb| |a IHa h IHh|l x|l x b IHb|i cb IHc b IHb|k]; intros s s' H; cbn [RaiiThrowModel.exec] in H.
  - destruct H as [H|H]; inversion H; subst; auto.
  - destruct (exec a s) as [s1|s1|] eqn:E.
    + destruct (IHa s s1 (or_introl E)) as [L B]. destruct (IHb s1 s' H) as [L' B']. split; [congruence|auto].
    + destruct H as [H|H]; inversion H; subst. exact (IHa s s' (or_intror E)).
    + destruct H as [H|H]; inversion H.
  - destruct H as [H|H]; inversion H; subst; auto.
  - destruct (exec a s) as [s1|s1|] eqn:E.
    + destruct H as [H|H]; inversion H; subst. exact (IHa s s' (or_introl E)).
    + destruct (IHa s s1 (or_intror E)) as [L B]. destruct (IHh s1 s' H) as [L' B']. split; [congruence|auto].
    + destruct H as [H|H]; inversion H.
  - destruct (assign s l x) as [s1 th] eqn:E. destruct (assign_same _ _ _ _ _ E) as [L G].
    assert (s' = s1) as -> by (destruct th, H as [H|H]; inversion H; auto).
    unfold bal. rewrite L, G. auto.
  - destruct (throws (clock s)); [destruct H as [H|H]; inversion H; subst; auto|].
    destruct (assign (tick s) l x) as [s1 th] eqn:E. destruct (assign_same _ _ _ _ _ E) as [L G]. cbn in L, G.
    destruct th; [destruct H as [H|H]; inversion H; subst; unfold bal; rewrite L, G; auto|].
    assert (exists s2, ended (exec b s1) s2 /\ live s' = live s2 /\ events s' = events s2) as (s2 & Hb & L2 & G2).
    { unfold restore in H. destruct (exec b s1) as [s2|s2|] eqn:Eb; [| |destruct H; discriminate];
      destruct (assign s2 l (mem s l)) as [s3 th] eqn:E3; destruct (assign_same _ _ _ _ _ E3);
      destruct th, H as [H|H]; inversion H; subst; exists s2; unfold ended; auto. }
    destruct (IHb _ _ Hb) as [L3 B3]. rewrite L2. split; [congruence|]. intros i Hi. unfold bal in *. rewrite L2, G2.
    apply B3. rewrite L, G. exact Hi.
  - destruct (throws (clock s)); [destruct H as [H|H]; inversion H|].
    set (s0 := note (with_live (tick s) ((i, false) :: live s)) (Made i)) in *.
    assert (exists s1, ended (exec b s0) s1 /\ exists j c g, live s1 = (j, c) :: g /\
      (if c then s' = with_live s1 g else exec cb (note (with_live s1 g) (Ran j)) = Done s')) as (s1 & H1 & j & c & g & L1 & Hc).
    { unfold end_guard in H. destruct (exec b s0) as [s1|s1|] eqn:E; [| |destruct H; discriminate]; exists s1;
      (split; [unfold ended; auto|]); destruct (live s1) as [|[j c] g]; try (destruct H; discriminate); exists j, c, g;
      (split; [reflexivity|]); destruct c; try (destruct H as [H|H]; inversion H; reflexivity);
      destruct (exec cb _); destruct H as [H|H]; inversion H; reflexivity. }
    destruct (IHb _ _ H1) as [L B]. rewrite L1 in L. cbn in L. injection L as -> Lg.
    assert (B1 : forall k, bal k s -> bal k s1).
    { intros k Hk. apply B. unfold bal in *. unfold s0. cbn -[times opn]. rewrite !times_app.
      unfold times at 2 4 6, opn. cbn. fold (opn k (live s)). destruct (gevent_eq (Made i) (Made k)) as [e|e].
      - injection e as ->. rewrite Nat.eqb_refl. destruct (gevent_eq (Made k) (Ran k)); [discriminate|].
        destruct (gevent_eq (Made k) (Cancelled k)); [discriminate|]. cbn. unfold opn in Hk. lia.
      - destruct (Nat.eqb_spec i k) as [->|]; [congruence|]. cbn.
        destruct (gevent_eq (Made i) (Ran k)); [discriminate|]. destruct (gevent_eq (Made i) (Cancelled k)); [discriminate|]. unfold opn in Hk. lia. }
    destruct c.
    + subst s'. split; [exact Lg|]. intros k Hk. specialize (B1 k Hk). unfold bal in *. cbn -[times opn]. rewrite L1 in B1.
      unfold opn in *. cbn in B1. rewrite andb_false_r in B1. exact B1.
    + destruct (IHc _ _ (or_introl Hc)) as [L2 B2]. split; [rewrite L2; exact Lg|]. intros k Hk. apply B2. specialize (B1 k Hk).
      unfold bal in *. cbn -[times opn]. rewrite L1 in B1. rewrite !times_app. unfold opn in *. cbn in B1. unfold times at 2 4 6. cbn.
      destruct (gevent_eq (Ran i) (Made k)); [discriminate|]. destruct (gevent_eq (Ran i) (Cancelled k)); [discriminate|].
      destruct (gevent_eq (Ran i) (Ran k)) as [e|e]; destruct (Nat.eqb_spec i k); cbn in B1; try congruence; lia.
  - destruct (cancel k (live s)) as [[[i c] g]|] eqn:E; [|destruct H as [H|H]; inversion H; subst; auto].
    destruct (cancel_ok _ _ _ _ _ E) as [L O]. destruct H as [H|H]; [|inversion H]. destruct c; inversion H; subst s'.
    + split; [exact L|]. intros j Hj. unfold bal in *. cbn -[times opn]. rewrite O in Hj. rewrite andb_false_r in Hj. lia.
    + split; [exact L|]. intros j Hj. unfold bal in *. cbn -[times opn]. rewrite O in Hj. rewrite !times_app. unfold times at 2 4 6. cbn.
      destruct (gevent_eq (Cancelled i) (Made j)); [discriminate|]. destruct (gevent_eq (Cancelled i) (Ran j)); [discriminate|].
      destruct (gevent_eq (Cancelled i) (Cancelled j)) as [e|e]; destruct (Nat.eqb_spec i j); cbn in Hj; try congruence; lia.
Qed.

(** One scope. *)
Lemma save_restores l x b s s' : ended (exec (PSave l x b) s) s' ->
  mem s' l = mem s l \/
  throws (clock s) = false /\ throws (S (clock s)) = true /\ exec (PSave l x b) s = Thrown s' /\
  mem s' l = torn (mem s l) x /\ (forall k, k <> l -> mem s' k = mem s k) /\ events s' = events s.
Proof.
  cbn [RaiiThrowModel.exec]. intros H. destruct (throws (clock s)) eqn:T1.
  - left. destruct H as [H|H]; inversion H; subst; reflexivity.
  - destruct (assign (tick s) l x) as [s1 th] eqn:E. pose proof E as E'. unfold RaiiThrowModel.assign in E. cbn in E. destruct th.
    + right. destruct H as [H|H]; [discriminate|]. assert (s1 = s') by congruence. subst s'.
      destruct (throws (S (clock s))); [|discriminate]. injection E as <-. cbn. unfold poke. rewrite Nat.eqb_refl.
      repeat split; auto. intros k Hk. now apply Nat.eqb_neq in Hk as ->.
    + left. clear E E'. unfold restore in H. destruct (exec b s1) as [s2|s2|]; [| |destruct H; discriminate];
      destruct (assign s2 l (mem s l)) as [s3 th] eqn:E3; unfold RaiiThrowModel.assign in E3;
      destruct (throws (clock s2)); injection E3 as <- <-; destruct H as [H|H]; inversion H; subst; cbn; unfold poke; now rewrite Nat.eqb_refl.
Qed.

(** Programs that write only where they are allowed to. *)
Lemma assign_other s l x s' th k : k <> l -> assign s l x = (s', th) -> mem s' k = mem s k.
Proof.
  unfold RaiiThrowModel.assign. intros Hk. destruct (throws (clock s)); intros E; injection E as <- <-; cbn; unfold poke;
  now apply Nat.eqb_neq in Hk as ->.
Qed.
Lemma exec_outside (St : forall a b, torn a b = a) ls p : writes_only ls p -> forall s s', ended (exec p s) s' ->
  forall k, ~ In k ls -> mem s' k = mem s k.
Proof.
  induction 1 as [ls|ls a b _ IHa _ IHb|ls|ls a h _ IHa _ IHh|ls l x Hin|ls l x b _ IHb|ls i cb b _ IHc _ IHb|ls k0]; intros s s' H k Hk;
  try (cbn [RaiiThrowModel.exec] in H).
  - destruct H as [H|H]; inversion H; subst; auto.
  - destruct (exec a s) as [s1|s1|] eqn:E; [| |destruct H; discriminate].
    + rewrite (IHb s1 s' H k Hk). exact (IHa s s1 (or_introl E) k Hk).
    + destruct H as [H|H]; inversion H; subst. exact (IHa s s' (or_intror E) k Hk).
  - destruct H as [H|H]; inversion H; subst; auto.
  - destruct (exec a s) as [s1|s1|] eqn:E; [| |destruct H; discriminate].
    + destruct H as [H|H]; inversion H; subst. exact (IHa s s' (or_introl E) k Hk).
    + rewrite (IHh s1 s' H k Hk). exact (IHa s s1 (or_intror E) k Hk).
  - destruct (assign s l x) as [s1 th] eqn:E. assert (k <> l) as Hkl by (intros ->; auto).
    assert (s' = s1) as -> by (destruct th, H as [H|H]; inversion H; auto). eapply assign_other; eauto.
  - destruct (Nat.eq_dec k l) as [->|Hkl].
    + destruct (save_restores l x b s s' H) as [E|(_ & _ & _ & E & _)]; [exact E|]. now rewrite E, St.
    + cbn [RaiiThrowModel.exec] in H. destruct (throws (clock s)); [destruct H as [H|H]; inversion H; subst; reflexivity|].
      destruct (assign (tick s) l x) as [s1 th] eqn:E. apply (assign_other _ _ _ _ _ _ Hkl) in E. cbn in E.
      destruct th; [destruct H as [H|H]; inversion H; subst; exact E|].
      assert (exists s2, ended (exec b s1) s2 /\ mem s' k = mem s2 k) as (s2 & Hb & G2).
      { unfold restore in H. destruct (exec b s1) as [s2|s2|] eqn:Eb; [| |destruct H; discriminate];
        destruct (assign s2 l (mem s l)) as [s3 th] eqn:E3; apply (assign_other _ _ _ _ _ _ Hkl) in E3;
        destruct th, H as [H|H]; inversion H; subst; exists s2; unfold ended; auto. }
      rewrite G2, (IHb s1 s2 Hb k); [exact E|]. intros [->|]; auto.
  - destruct (throws (clock s)); [destruct H; discriminate|].
    set (s0 := note (with_live (tick s) ((i, false) :: live s)) (Made i)) in *.
    assert (exists s1, ended (exec b s0) s1 /\ (mem s' k = mem s1 k \/ exists g j, ended (exec cb (note (with_live s1 g) (Ran j))) s'))
      as (s1 & H1 & Hc).
    { unfold end_guard in H. destruct (exec b s0) as [s1|s1|] eqn:E; [| |destruct H; discriminate]; exists s1;
      (split; [unfold ended; auto|]); destruct (live s1) as [|[j c] g]; try (destruct H; discriminate);
      destruct c; try (left; destruct H as [H|H]; inversion H; reflexivity);
      right; exists g, j; destruct (exec cb _); destruct H as [H|H]; inversion H; unfold ended; auto. }
    pose proof (IHb s0 s1 H1 k Hk) as M. cbn in M. destruct Hc as [->|(g & j & Hc)]; [exact M|].
    rewrite (IHc _ s' Hc k Hk). exact M.
  - destruct (cancel k0 (live s)) as [[[i c] g]|]; destruct H as [H|H]; try discriminate; [destruct c|]; inversion H; reflexivity.
Qed.

(** Without exceptions the programs are those of RaiiModel.v. *)
Lemma exec_plain (No : forall n, throws n = false) p t : plain p t -> forall s stack,
  exists s', exec p s = Done s' /\ srun (mem s, stack) t = Ok (mem s', stack) /\ live s' = live s /\ events s' = events s.
Proof.
  assert (A : forall s l x, assign s l x = (tick (with_mem s (poke (mem s) l x)), false)).
  { intros. unfold RaiiThrowModel.assign. now rewrite No. }
  assert (App : forall (a b : list (sev V)) m, srun m (a ++ b) = bind (srun m a) (fun m => srun m b)).
  { induction a as [|e a IH]; intros b m; cbn [app srun]; [reflexivity|]. destruct (sstep m e); cbn [bind]; auto. }
  induction 1 as [|a b ta tb _ IHa _ IHb|l x|l x b tb _ IHb]; intros s stack; cbn [RaiiThrowModel.exec].
  - exists s. auto.
  - destruct (IHa s stack) as (s1 & -> & R1 & L1 & E1). destruct (IHb s1 stack) as (s2 & -> & R2 & L2 & E2).
    exists s2. split; [reflexivity|]. rewrite App, R1. cbn [bind]. split; [exact R2|]. split; congruence.
  - rewrite A. eexists. split; [reflexivity|]. auto.
  - rewrite No, A. set (s0 := tick (with_mem (tick s) (poke (mem (tick s)) l x))).
    destruct (IHb s0 ((l, mem s l) :: stack)) as (s1 & E1 & R1 & L1 & V1). rewrite E1. cbn [restore]. rewrite A.
    eexists. split; [reflexivity|]. cbn [srun sstep bind]. rewrite App. cbn in R1. rewrite R1. cbn. auto.
Qed.
(** Where no copy throws and no callback does, nothing is terminated. *)
Lemma assign_no (No : forall n, throws n = false) s l x : assign s l x = (tick (with_mem s (poke (mem s) l x)), false).
Proof. unfold RaiiThrowModel.assign. now rewrite No. Qed.
Lemma guard_live i (cb b : prog V) s s1 : ended (exec b (note (with_live (tick s) ((i, false) :: live s)) (Made i))) s1 ->
  exists c g, live s1 = (i, c) :: g.
Proof.
  intros H. destruct (exec_books b _ _ H) as [L _]. cbn in L. destruct (live s1) as [|[j c] g]; cbn in L; [discriminate|].
  injection L as -> _. eauto.
Qed.
Lemma exec_calm (No : forall n, throws n = false) p : calm p -> forall s, exists s', exec p s = Done s'.
Proof.
  induction p as [|a IHa b IHb| |a IHa h IHh|l x|l x b IHb|i cb IHc b IHb|k]; intros C s; cbn [RaiiThrowModel.exec calm] in *.
  - eauto.
  - destruct (IHa (proj1 C) s) as (s1 & ->). apply (IHb (proj2 C)).
  - destruct C.
  - destruct (IHa (proj1 C) s) as (s1 & ->). eauto.
  - rewrite assign_no by exact No. eauto.
  - rewrite No, assign_no by exact No. match goal with |- context[exec b ?z] => destruct (IHb C z) as (s1 & ->) end.
    cbn [restore]. rewrite assign_no by exact No. eauto.
  - rewrite No. set (s0 := note _ _). destruct (IHb (proj2 C) s0) as (s1 & E). rewrite E. cbn [end_guard].
    destruct (guard_live i cb b s s1) as (c & g & ->); [left; exact E|]. destruct c; [eauto|].
    match goal with |- context[exec cb ?z] => destruct (IHc (proj1 C) z) as (s2 & ->) end. eauto.
  - destruct (cancel k (live s)) as [[[i c] g]|]; eauto.
Qed.
Lemma exec_ends (No : forall n, throws n = false) p : calm_callbacks p -> forall s, exists s', ended (exec p s) s'.
Proof.
  unfold ended. induction p as [|a IHa b IHb| |a IHa h IHh|l x|l x b IHb|i cb _ b IHb|k]; intros C s; cbn [RaiiThrowModel.exec calm_callbacks] in *.
  - eauto.
  - destruct (IHa (proj1 C) s) as (s1 & [-> | ->]); [apply (IHb (proj2 C))|eauto].
  - eauto.
  - destruct (IHa (proj1 C) s) as (s1 & [-> | ->]); [eauto|apply (IHh (proj2 C))].
  - rewrite assign_no by exact No. eauto.
  - rewrite No, assign_no by exact No. match goal with |- context[exec b ?z] => destruct (IHb C z) as (s1 & [-> | ->]) end;
    cbn [restore]; rewrite assign_no by exact No; eauto.
  - rewrite No. set (s0 := note _ _). destruct (IHb (proj2 C) s0) as (s1 & E).
    destruct (guard_live i cb b s s1) as (c & g & Eg); [exact E|].
    destruct E as [-> | ->]; cbn [end_guard]; rewrite Eg; (destruct c; [eauto|]);
    match goal with |- context[exec cb ?z] => destruct (exec_calm No cb (proj1 C) z) as (s2 & ->) end; eauto.
  - destruct (cancel k (live s)) as [[[i c] g]|]; eauto.
Qed.
End P.
