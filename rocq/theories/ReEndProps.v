(** Property C110, continued (amtl/am-refcounting.h): when programs with destructors that use RefPtrs come to an end. *)
From Verif Require Import Base ReenterModel ReenterSpec ReenterProofs ReenterStep ReenterLayer ReenterProps ReEndSpec ReEndProofs.

(** If every destructor creates only objects of classes of lower rank than its own, every program comes to an end, in every build,
    whatever else it does. *)
Theorem C110_destructors_end : forall debug wrap chk script rank ng prog, creates_below rank script ->
  exists f r, r <> Diverge /\ forall f', f <= f' -> run debug wrap chk script f' ng prog = r.
Proof. intros debug wrap chk script rank ng prog H. apply (program_ends debug wrap chk script rank H). Qed.
Print Assumptions C110_destructors_end.
(** With the static discipline of levels and ranks as well: it ends without faults, and the books balance. *)
Theorem C110_layered_ends_partial : forall debug wrap ng nm script prog rank glev mlev, program ng nm script prog ->
  layered rank glev mlev nm script prog -> creates_below rank script ->
  exists f s, balanced s /\ forall f', f <= f' -> run debug wrap false script f' ng prog = Ok s.
Proof.
  intros debug wrap ng nm script prog rank glev mlev Hp L B.
  destruct (C110_destructors_end debug wrap false script rank ng prog B) as (f & r & Hr & H).
  destruct (C110_layered_partial debug wrap ng nm script prog rank glev mlev f Hp L) as [D|(s & E & Bs)]; rewrite (H f (le_n f)) in *; [contradiction|].
  exists f, s. split; [exact Bs|]. intros f' Hf. now rewrite H, E.
Qed.
Print Assumptions C110_layered_ends_partial.

(** Without it a program can run for ever, though nothing it does is ever reported: a destructor that puts a new object of its own
    class into a member. *)
Definition endless : nat -> list cmd := scripts [[New (PThis 0) 0 [PThis 0]]].
Lemma endless_rel debug wrap chk : forall f s c o, (forall x j, existsb (loc_eqb (LM x j)) (busy c) = false) -> nth_error (objs s) o = Some (Obj 1 Alive 0 [None]) ->
  rel debug wrap chk endless f c s o = Diverge.
Proof.
  intros f. induction f as [f IH] using lt_wf_ind. intros s c o Hc Ho. destruct f as [|f]; [reflexivity|]. assert (Hlt := nth_lt _ _ _ Ho).
  cbn [rel]. unfold release. rewrite (slot_get_ok _ _ _ Ho). cbn [bind st rc cls mem]. unfold assert_. cbn [Nat.ltb Nat.leb negb]. rewrite andb_false_r. cbn [bind Nat.eqb].
  set (s1 := set_obj s o _). assert (Hlt1 : o < length (objs s1)) by (unfold s1; cbn; now rewrite upd_length).
  assert (H1 : nth_error (objs s1) o = Some (Obj 0 Alive 0 [None])) by (unfold s1; rewrite set_nth, Nat.eqb_refl by exact Hlt; reflexivity).
  unfold destroy. rewrite (slot_get_ok _ _ _ H1). cbn [bind st rc cls mem].
  set (s2 := set_obj s1 o _). assert (Hlt2 : o < length (objs s2)) by (unfold s2; cbn; now rewrite upd_length).
  assert (H2 : nth_error (objs s2) o = Some (Obj 0 Dying 0 [None])) by (unfold s2; rewrite set_nth, Nat.eqb_refl by exact Hlt1; reflexivity).
  destruct f as [|f]; [reflexivity|].
  change (endless 0) with [New (PThis 0) 0 [PThis 0]]. cbn [exec step].
  assert (T : forall x j, touch chk (Ctx (Some o) (busy c) (pins c)) (LM x j) = Ok tt) by (intros x j; unfold touch; cbn [busy]; rewrite Hc; now rewrite andb_false_r).
  cbn [copies res this bind]. rewrite T. cbn [bind read]. rewrite (slot_get_ok _ _ _ H2). cbn [bind st mem slot_get nth_error add_ref].
  set (n := length (objs s2)). set (s3 := World _ _ _).
  assert (H3 : nth_error (objs s3) o = Some (Obj 0 Dying 0 [None])) by (unfold s3; cbn [objs]; rewrite nth_error_app1 by exact Hlt2; exact H2).
  assert (Hlt3 : o < length (objs s3)) by (eapply nth_lt; eauto).
  unfold release_old. rewrite T. cbn [bind read]. rewrite (slot_get_ok _ _ _ H3). cbn [bind st mem slot_get nth_error relp].
  unfold put. cbn [write]. rewrite (slot_get_ok _ _ _ H3). cbn [bind st rc cls mem slot_set length Nat.ltb Nat.leb upd].
  set (s4 := set_obj s3 o _).
  assert (H4o : nth_error (objs s4) o = Some (Obj 0 Dying 0 [Some n])) by (unfold s4; rewrite set_nth, Nat.eqb_refl by exact Hlt3; reflexivity).
  assert (Hne : o <> n) by (unfold n; lia).
  assert (H4n : nth_error (objs s4) n = Some (Obj 0 Alive 0 [None])).
  { unfold s4. rewrite set_nth by exact Hlt3. destruct (Nat.eqb_spec o n); [contradiction|]. unfold s3. cbn [objs]. unfold n. now rewrite nth_error_app2, Nat.sub_diag by lia. }
  assert (Hlt4 : n < length (objs s4)) by (eapply nth_lt; eauto).
  cbn [add_ref]. rewrite (slot_get_ok _ _ _ H4n). cbn [bind st rc cls mem]. set (s5 := set_obj s4 n _).
  assert (H5n : nth_error (objs s5) n = Some (Obj 1 Alive 0 [None])) by (unfold s5; rewrite set_nth, Nat.eqb_refl by exact Hlt4; reflexivity).
  assert (H5o : nth_error (objs s5) o = Some (Obj 0 Dying 0 [Some n])).
  { unfold s5. rewrite set_nth by exact Hlt4. destruct (Nat.eqb_spec n o); [congruence|exact H4o]. }
  destruct f as [|f]; [reflexivity|]. change (exec debug wrap chk endless (S f) _ s5 []) with (Ok s5). cbn [bind]. rewrite (slot_get_ok _ _ _ H5o). cbn [bind rc cls mem rev app drop_members relp].
  rewrite (IH (S (S f))); [reflexivity|lia|exact Hc|].
  rewrite set_nth by (eapply nth_lt; eauto). destruct (Nat.eqb_spec o n); [contradiction|exact H5n].
Qed.
Theorem C110_termination_refuted : forall debug wrap chk f,
  run debug wrap chk endless f 1 [New (PG 0) 0 [PG 0]; Null (PG 0)] = Diverge.
Proof.
  intros debug wrap chk [|[|[|f]]]; try (destruct chk; reflexivity). unfold run.
  change (exec debug wrap chk endless (S (S (S f))) main_ctx (start 1) [New (PG 0) 0 [PG 0]; Null (PG 0)]) with
    (bind (step chk (exec debug wrap chk endless (S (S f))) (rel debug wrap chk endless (S (S f))) main_ctx (start 1) (New (PG 0) 0 [PG 0]))
       (fun s => bind (step chk (exec debug wrap chk endless (S f)) (rel debug wrap chk endless (S f)) main_ctx s (Null (PG 0))) (fun s => exec debug wrap chk endless (S f) main_ctx s []))).
  assert (E : step chk (exec debug wrap chk endless (S (S f))) (rel debug wrap chk endless (S (S f))) main_ctx (start 1) (New (PG 0) 0 [PG 0]) =
    Ok (World [Obj 1 Alive 0 [None]] [Some 0] [])) by (destruct chk; reflexivity).
  rewrite E. cbn [bind step res]. unfold release_old. replace (touch chk main_ctx (LG 0)) with (Ok tt) by (destruct chk; reflexivity).
  cbn [bind read globs slot_get nth_error relp]. rewrite (endless_rel debug wrap chk (S f)); try reflexivity.
Qed.
Print Assumptions C110_termination_refuted.
(** The endless program keeps the discipline of levels and ranks; the cache of ReenterProps.v also creates only objects of lower rank. *)
Example endless_layered : program 1 1 endless [New (PG 0) 0 [PG 0]; Null (PG 0)] /\
  layered (fun _ => 1) (fun _ => 1) (fun _ _ => 1) 1 endless [New (PG 0) 0 [PG 0]; Null (PG 0)].
Proof.
  split; [split|split; [|split]].
  - intros [|[|c]] k; cbn; [|tauto|tauto]. intros [<-|[]]. constructor; [cbn; auto|repeat constructor|reflexivity].
  - intros k [<-|[<-|[]]]; constructor; try reflexivity; cbn; auto. repeat constructor.
  - intros; lia.
  - intros [|[|c]] k; cbn; [|tauto|tauto]. intros [<-|[]]. constructor; [exact Logic.I|cbn; lia|]. intros [|[|j]] m [= <-]; cbn; auto.
  - intros k [<-|[<-|[]]]; constructor; try exact Logic.I; cbn; auto. intros [|[|j]] m [= <-]; cbn; auto.
Qed.
Example demo_below : creates_below demo_rank demo_scripts.
Proof.
  intros [|[|c]] k c'; cbn; [tauto| |destruct c; cbn; tauto]. intros [<-|[<-|[]]]; cbn; [intros [<-|[]]; cbn; lia|tauto].
Qed.
