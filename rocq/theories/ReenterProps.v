(** Property C110 (amtl/am-refcounting.h): destructors that use RefPtrs themselves. *)
From Verif Require Import Base ReenterModel ReenterSpec ReenterProofs ReenterStep ReenterLayer.

(** How much fuel is used does not matter, as long as the program ends. *)
Theorem C110_fuel_partial : forall debug wrap chk script ng prog f f', f <= f' ->
  run debug wrap chk script f ng prog <> Diverge -> run debug wrap chk script f' ng prog = run debug wrap chk script f ng prog.
Proof.
  intros debug wrap chk script ng prog f f' Hf H. destruct (proj1 (fuel_agree debug wrap chk script f f' Hf) main_ctx (start ng) prog) as [X|X]; [contradiction|].
  unfold run. now rewrite X.
Qed.
Print Assumptions C110_fuel_partial.

(** C110 fails.  When a RefPtr gives up the last reference, the destructor it runs still finds the dying object in that RefPtr.
    If the destructor copies it (even for a moment), the object is destroyed a second time, in every build. *)
Theorem C110_copy_during_destruction_refuted : forall debug wrap script s v o ob rest f,
  nth_error (globs s) v = Some (Some o) -> nth_error (objs s) o = Some ob -> st ob = Alive -> rc ob = 1 ->
  script (cls ob) = Hold (PG v) [] :: rest ->
  exec debug wrap false script (7 + f) main_ctx s [Null (PG v)] = Fault DoubleFree.
Proof.
  intros debug wrap script s v o ob rest f Hv Ho A R1 Hs. assert (Hlt := nth_lt _ _ _ Ho).
  change (7 + f) with (S (S (S (S (S (S (S f))))))). set (f5 := S (S (S (S (S f))))).
  cbn [exec]. cbn [step]. unfold release_old at 1. cbn [res bind touch andb read]. rewrite (slot_get_ok _ _ _ Hv). cbn [bind relp rel].
  unfold release at 1. rewrite (slot_get_ok _ _ _ Ho). cbn [bind]. rewrite A, R1. unfold assert_ at 1. cbn [Nat.ltb Nat.leb negb]. rewrite andb_false_r. cbn [bind Nat.eqb].
  unfold destroy at 1. rewrite set_get, Nat.eqb_refl by exact Hlt. cbn [bind st cls rc mem]. rewrite Hs.
  set (s2 := set_obj (set_obj s o (Obj 0 Alive (cls ob) (mem ob))) o (Obj 0 Dying (cls ob) (mem ob))).
  assert (Hlt1 : o < length (objs (set_obj s o (Obj 0 Alive (cls ob) (mem ob))))) by (cbn; rewrite upd_length; exact Hlt).
  assert (Hv2 : slot_get (globs s2) v = Ok (Some o)) by (apply slot_get_ok; exact Hv).
  assert (Ho2 : slot_get (objs s2) o = Ok (Obj 0 Dying (cls ob) (mem ob))) by (unfold s2; rewrite set_get, Nat.eqb_refl by exact Hlt1; reflexivity).
  assert (Hlt2 : o < length (objs s2)) by (unfold s2; cbn; rewrite !upd_length; exact Hlt).
  unfold f5 at 1. cbn [exec]. cbn [step]. cbn [res bind touch andb read]. rewrite Hv2. cbn [bind add_ref]. rewrite Ho2. cbn [bind st rc cls mem].
  set (s3 := set_obj s2 o (Obj 1 Dying (cls ob) (mem ob))).
  assert (Ho3 : slot_get (objs s3) o = Ok (Obj 1 Dying (cls ob) (mem ob))) by (unfold s3; rewrite set_get, Nat.eqb_refl by exact Hlt2; reflexivity).
  assert (Hlt3 : o < length (objs s3)) by (unfold s3; cbn; rewrite upd_length; exact Hlt2).
  cbn [exec bind relp rel]. unfold release at 1. rewrite Ho3. cbn [bind st rc]. unfold assert_. cbn [Nat.ltb Nat.leb negb]. rewrite andb_false_r. cbn [bind Nat.eqb cls mem].
  unfold destroy. rewrite set_get, Nat.eqb_refl by exact Hlt3. reflexivity.
Qed.
Print Assumptions C110_copy_during_destruction_refuted.
(** If the destructor resets that RefPtr, a debug build stops at the assertion in Release(). *)
Theorem C110_reset_during_destruction_refuted : forall wrap script s v o ob rest f,
  nth_error (globs s) v = Some (Some o) -> nth_error (objs s) o = Some ob -> st ob = Alive -> rc ob = 1 ->
  script (cls ob) = Null (PG v) :: rest ->
  exec true wrap false script (7 + f) main_ctx s [Null (PG v)] = Fault AssertFail.
Proof.
  intros wrap script s v o ob rest f Hv Ho A R1 Hs. assert (Hlt := nth_lt _ _ _ Ho).
  change (7 + f) with (S (S (S (S (S (S (S f))))))). set (f5 := S (S (S (S (S f))))).
  cbn [exec]. cbn [step]. unfold release_old at 1. cbn [res bind touch andb read]. rewrite (slot_get_ok _ _ _ Hv). cbn [bind relp rel].
  unfold release at 1. rewrite (slot_get_ok _ _ _ Ho). cbn [bind]. rewrite A, R1. unfold assert_ at 1. cbn [Nat.ltb Nat.leb negb andb bind Nat.eqb].
  unfold destroy at 1. rewrite set_get, Nat.eqb_refl by exact Hlt. cbn [bind st cls rc mem]. rewrite Hs.
  set (s2 := set_obj (set_obj s o (Obj 0 Alive (cls ob) (mem ob))) o (Obj 0 Dying (cls ob) (mem ob))).
  assert (Hlt1 : o < length (objs (set_obj s o (Obj 0 Alive (cls ob) (mem ob))))) by (cbn; rewrite upd_length; exact Hlt).
  assert (Hv2 : slot_get (globs s2) v = Ok (Some o)) by (apply slot_get_ok; exact Hv).
  assert (Ho2 : slot_get (objs s2) o = Ok (Obj 0 Dying (cls ob) (mem ob))) by (unfold s2; rewrite set_get, Nat.eqb_refl by exact Hlt1; reflexivity).
  unfold f5 at 1. cbn [exec]. cbn [step]. unfold release_old. cbn [res bind touch andb read]. rewrite Hv2. cbn [bind relp rel].
  unfold release. rewrite Ho2. reflexivity.
Qed.
Print Assumptions C110_reset_during_destruction_refuted.

Definition scripts (l : list (list cmd)) (c : nat) : list cmd := nth c l [].
(** If the destructor stores a new object there, a release build loses it: it stays alive, with a reference nobody holds. *)
Theorem C110_store_during_destruction_refuted :
  exists s ob, run false (2 ^ 10) false (scripts [[New (PG 0) 1 []]]) 20 1 [New (PG 0) 0 []; Null (PG 0)] = Ok s /\
    nth_error (objs s) 1 = Some ob /\ st ob = Alive /\ rc ob = 1 /\ handles s 1 = 0.
Proof. eexists. eexists. vm_compute. repeat split. Qed.
Print Assumptions C110_store_during_destruction_refuted.
(** a = b stores what b holds after a's old object is gone: here its destructor has reset b, and a ends up null. *)
Theorem C110_source_changed_refuted : forall debug,
  exists s s', run debug 7 false (scripts [[Null (PG 1)]]) 20 2 [New (PG 0) 0 []; New (PG 1) 1 []] = Ok s /\
    run debug 7 false (scripts [[Null (PG 1)]]) 20 2 [New (PG 0) 0 []; New (PG 1) 1 []; Copy (PG 0) (PG 1)] = Ok s' /\
    globs s = [Some 0; Some 1] /\ globs s' = [None; None] /\ log s' = [0; 1].
Proof. intros [|]; eexists; eexists; vm_compute; repeat split. Qed.
Print Assumptions C110_source_changed_refuted.
(** a = b.get() in the same situation stores a dangling pointer. *)
Theorem C110_raw_source_refuted : forall debug,
  run debug 7 false (scripts [[Null (PG 1)]]) 20 2 [New (PG 0) 0 []; New (PG 1) 1 []; CopyRaw (PG 0) (PG 1)] = Fault UseAfterFree.
Proof. intros [|]; vm_compute; reflexivity. Qed.
Print Assumptions C110_raw_source_refuted.
(** g->member = x, where the destructor of the old member resets g: the RefPtr being assigned is destroyed meanwhile. *)
Theorem C110_member_refuted : forall debug : bool,
  run debug 7 false (scripts [[]; [Null (PG 0)]]) 30 2
    [New (PG 1) 1 [PG 1]; New (PG 0) 0 [PG 1]; Null (PG 1); Store 0 0 (PG 1)] =
  Fault (if debug then AssertFail else UseAfterFree).
Proof. intros [|]; vm_compute; reflexivity. Qed.
Print Assumptions C110_member_refuted.

(** What holds: if no command uses a RefPtr while it is being assigned, or relies on an object it does not hold (what the observer reports
    as BadArg), then every program, with any destructors, runs without faults in every build, and whenever it ends the books balance. *)
Theorem C110_reentrant_destructors_partial : forall debug wrap ng nm script prog f, program ng nm script prog ->
  run debug wrap true script f ng prog <> Fault BadArg ->
  run debug wrap false script f ng prog = Diverge \/
  exists s, run debug wrap false script f ng prog = Ok s /\ balanced s.
Proof.
  intros debug wrap ng nm script prog f [Hs Hp] H.
  destruct (proj1 (observer_agree debug wrap script f) main_ctx (start ng) prog) as [X|X]; [contradiction|]. unfold run in *. rewrite <- X.
  pose proof (proj1 (machine_ok ng nm debug wrap script Hs f) main_ctx (start ng) (fun _ => 0) [] [] prog) as P.
  assert (P' := P (start_inv ng nm) ltac:(split; [intros o j|intros q []]; discriminate) ltac:(intros o; discriminate) Hp). clear P.
  destruct (exec debug wrap true script f main_ctx (start ng) prog) as [s|e|] eqn:E; cbn [post] in P'.
  - right. exists s. split; [reflexivity|]. now apply inv_balanced with (ng := ng) (nm := nm).
  - exfalso. destruct e; contradiction.
  - now left.
Qed.
Print Assumptions C110_reentrant_destructors_partial.

(** ... and an object held by a temporary RefPtr stays alive while any code runs, its count being one above the handles. *)
Theorem C110_held_partial : forall debug wrap ng nm script prog f v o s s1 body f' s2, program ng nm script (prog ++ body) ->
  run debug wrap true script f ng prog = Ok s -> nth_error (globs s) v = Some (Some o) -> add_ref s (Some o) = Ok s1 ->
  exec debug wrap true script f' (Ctx None [] [Some o]) s1 body = Ok s2 ->
  exists ob, nth_error (objs s2) o = Some ob /\ st ob = Alive /\ rc ob = 1 + handles s2 o.
Proof.
  intros debug wrap ng nm script prog f v o s s1 body f' s2 [Hs Hp] Hr Hv Ha Hb. unfold run in Hr.
  pose proof (proj1 (machine_ok ng nm debug wrap script Hs f) main_ctx (start ng) (fun _ => 0) [] [] prog (start_inv ng nm)
    ltac:(split; [intros x j|intros q []]; discriminate) ltac:(intros x; discriminate) ltac:(intros k Hk; apply Hp, in_or_app; now left)) as I1.
  rewrite Hr in I1. cbn [post] in I1.
  assert (Rv : read s (LG v) = Ok (Some o)) by (apply slot_get_ok; exact Hv).
  destruct (add_ref_ok ng nm _ _ _ _ (Some o) I1) as (s1' & E1 & I2 & F2 & _).
  { intros y [= <-]. pose proof (refs_points (bz main_ctx) s o (LG v) (Some o) Rv eq_refl) as X. rewrite points_refl in X. lia. }
  assert (s1' = s1) as -> by congruence. clear E1.
  pose proof (proj1 (machine_ok ng nm debug wrap script Hs f') (Ctx None [] [Some o]) s1 (fun x => points x (Some o)) [] [] body) as P.
  assert (P' := P ltac:(eapply inv_ext; [|exact I2]; intros x; cbv beta; rewrite F2; change (bz (Ctx None [] [Some o])) with (bz main_ctx); lia)
    ltac:(split; [intros x j; discriminate|intros q [[= <-]|[]]; rewrite points_refl; lia]) ltac:(intros x; discriminate) ltac:(intros k Hk; apply Hp, in_or_app; now right)).
  clear P. rewrite Hb in P'. cbn [post] in P'. change (bz (Ctx None [] [Some o])) with (bz main_ctx) in P'.
  destruct (i_tgt _ _ _ _ _ _ P' o) as (ob & Ho & A). { rewrite points_refl. lia. }
  exists ob. split; [exact Ho|]. split; [exact A|]. rewrite (i_rc _ _ _ _ _ _ P' o ob Ho A), points_refl. f_equal. eapply refs_main; eauto.
Qed.
Print Assumptions C110_held_partial.

(** ... and a static discipline that guarantees it: levels of RefPtrs and ranks of classes, destructors using only lower levels. *)
Theorem C110_layered_partial : forall debug wrap ng nm script prog rank glev mlev f, program ng nm script prog ->
  layered rank glev mlev nm script prog ->
  run debug wrap false script f ng prog = Diverge \/
  exists s, run debug wrap false script f ng prog = Ok s /\ balanced s.
Proof.
  intros debug wrap ng nm script prog rank glev mlev f [Hs Hp] (L1 & L2 & L3). apply (C110_reentrant_destructors_partial debug wrap ng nm); [now split|].
  unfold run. pose proof (proj1 (machine_lay ng nm rank glev mlev debug wrap script Hs L1 L2 f) main_ctx (start ng) (fun _ => 0) [] [] prog None) as P.
  assert (P' := P (start_inv ng nm) ltac:(split; [intros o j|intros q []]; discriminate) ltac:(intros o; discriminate) ltac:(intros o j; discriminate)
    ltac:(split; [intros [|o] ob j q; discriminate|intros v q Hv; apply nth_error_In, repeat_spec in Hv; subst; exact Logic.I]) eq_refl
    ltac:(intros k Hk; split; [now apply Hp|now apply L3])). clear P.
  destruct (exec debug wrap true script f main_ctx (start ng) prog) as [s|e|]; cbn [postL] in P'; [discriminate|contradiction|discriminate].
Qed.
Print Assumptions C110_layered_partial.

(** A cache: global 0 holds a connection (class 1, rank 2, with a log object as member), whose destructor replaces the last error (global 1,
    level 1) by a new object, and holds it while it writes to its own member. *)
Definition demo_scripts : nat -> list cmd :=
  scripts [[]; [New (PG 1) 0 [PThis 0]; Hold (PG 1) [Move (PThis 0) (PG 1); Null (PG 1)]]].
Definition demo : list cmd :=
  [New (PG 1) 0 [PG 1]; New (PG 0) 1 [PG 1]; New (PG 2) 1 [PG 1]; Copy (PG 0) (PG 2); Hold (PG 0) [Null (PG 0); Null (PG 2)]].
Definition demo_rank (c : nat) : nat := match c with 1 => 2 | _ => 1 end.
Definition demo_glev (v : nat) : nat := match v with 1 => 1 | _ => 2 end.
Definition demo_mlev (c j : nat) : nat := 1.
Example demo_program : program 3 1 demo_scripts demo.
Proof.
  split.
  - intros [|[|c]] k; cbn; [tauto| |destruct c; cbn; tauto]. intros [<-|[<-|[]]].
    + constructor; [cbn; lia|repeat constructor; cbn; lia|reflexivity].
    + constructor; [cbn; lia|]. intros k [<-|[<-|[]]]; constructor; cbn; auto; lia.
  - intros k [<-|[<-|[<-|[<-|[<-|[]]]]]].
    1,2,3: constructor; [cbn; lia|repeat constructor; cbn; lia|reflexivity].
    + constructor; cbn; lia.
    + constructor; [cbn; lia|]. intros k [<-|[<-|[]]]; constructor; cbn; lia.
Qed.
Example demo_runs debug : exists s, run debug 9 false demo_scripts 40 3 demo = Ok s /\ log s = [2; 4; 0; 1; 3] /\ globs s = [None; None; None] /\ length (objs s) = 5 /\
  run debug 9 true demo_scripts 40 3 demo = Ok s.
Proof. destruct debug; eexists; vm_compute; repeat split. Qed.
Example demo_layered : layered demo_rank demo_glev demo_mlev 1 demo_scripts demo.
Proof.
  split; [|split].
  - intros [|[|c]] j _; compute; lia.
  - intros [|[|c]] k; cbn; [tauto| |destruct c; cbn; tauto]. intros [<-|[<-|[]]].
    + constructor; [compute; lia|compute; lia|]. intros [|[|j]] m [= <-]; compute; split; auto.
    + constructor; [compute; lia|]. intros k [<-|[<-|[]]]; constructor; try discriminate; compute; auto.
  - intros k [<-|[<-|[<-|[<-|[<-|[]]]]]].
    1,2,3: constructor; [exact Logic.I|compute; lia|intros [|[|j]] m [= <-]; compute; split; auto].
    + constructor; try discriminate; compute; auto.
    + constructor; [exact Logic.I|]. intros k [<-|[<-|[]]]; constructor; exact Logic.I.
Qed.
