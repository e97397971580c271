(** Property theorems C55-C57: am-maybe.h. *)
From Verif Require Import Base MaybeModel MaybeSpec MaybeProofs.

(** * C55 value semantics *)
(** Every program (any number of variables, any order of operations) that never assigns a variable to itself
    runs without a fault and observes exactly what optional values would give. *)
Theorem C55_maybe_values : forall V debug (p : list (op V)) m rs,
  Forall no_self p -> meanings no_vars p = Some (m, rs) ->
  exists s, run V debug empty_state p = Ok (s, rs).
Proof.
  intros V debug p m rs Hf Hm.
  destruct (run_ok V debug p _ _ _ _ _ (inv_init V) Hf Hm) as (s & l & H & _). eauto.
Qed.
Print Assumptions C55_maybe_values.

Definition sample : list (op nat) :=
  [SomeCtor 0 7; CopyCtor 1 0; MoveCtor 2 0; IsValid 0; Get 1; Get 2; New 3; Assign 3 2; AssignMove 1 2;
   Get 3; Get 1; IsValid 2; Init 2 9; Get 2].
Example C55_nonvacuous :
  Forall no_self sample
  /\ exists m, meanings no_vars sample
     = Some (m, [ONone; ONone; ONone; OBool false; OVal 7; OVal 7; ONone; ONone; ONone; OVal 7; OVal 7;
                 OBool false; ONone; OVal 9]).
Proof. split; [repeat constructor; cbn; lia|]. eexists. reflexivity. Qed.

(** * C56 every T is destroyed exactly once *)
(** Full statement (false): assigning to a Maybe that holds a value, and moving out of one, abandon a T. *)
Theorem C56_maybe_destroys_refuted : forall V debug (x y : V),
  (exists s, run V debug empty_state [SomeCtor 0 x; SomeCtor 1 y; Assign 0 1; Destroy 0; Destroy 1]
     = Ok (s, [ONone; ONone; ONone; ONone; ONone]) /\ length (live s) = 1)
  /\ (exists s, run V debug empty_state [SomeCtor 0 x; MoveCtor 1 0; Destroy 0; Destroy 1]
     = Ok (s, [ONone; ONone; ONone; ONone]) /\ length (live s) = 1).
Proof. intros. split; eexists; split; reflexivity. Qed.
Print Assumptions C56_maybe_destroys_refuted.

(** Exact accounting for every program: no T is ever destroyed twice (the run has no fault), and once all
    variables are gone the T objects never destroyed are exactly as many as assignments overwrote or moves
    left behind. *)
Theorem C56_maybe_leaks_exactly_partial : forall V debug (p : list (op V)) m rs,
  Forall no_self p -> meanings no_vars p = Some (m, rs) -> (forall v, m v = None) ->
  exists s, run V debug empty_state p = Ok (s, rs) /\ length (live s) = abandoned no_vars p.
Proof.
  intros V debug p m rs Hf Hm Hend.
  destruct (run_ok V debug p _ _ _ _ _ (inv_init V) Hf Hm) as (s & l & H & Hi & Hl).
  rewrite app_nil_r in Hi. exists s. split; [exact H|].
  rewrite (inv_final V _ _ _ Hi Hend). exact Hl.
Qed.
Print Assumptions C56_maybe_leaks_exactly_partial.

(** In particular programs without assignment over a value or move from a value release everything. *)
Theorem C56_maybe_destroys_partial : forall V debug (p : list (op V)) m rs,
  Forall no_self p -> meanings no_vars p = Some (m, rs) -> (forall v, m v = None) ->
  abandoned no_vars p = 0 ->
  exists s, run V debug empty_state p = Ok (s, rs) /\ live s = [].
Proof.
  intros V debug p m rs Hf Hm Hend Ha.
  destruct (C56_maybe_leaks_exactly_partial V debug p m rs Hf Hm Hend) as (s & H & Hl).
  exists s. split; [exact H|]. apply length_zero_iff_nil. congruence.
Qed.
Print Assumptions C56_maybe_destroys_partial.

Definition clean (tail : list (op nat)) : list (op nat) :=
  [SomeCtor 0 7; CopyCtor 1 0; New 2; Assign 2 1; Init 1 8; New 3] ++ tail ++
  [Get 1; Destroy 0; Destroy 1; Destroy 2; Destroy 3].
Example C56_nonvacuous : forall tail,
  tail = [] \/ tail = [AssignMove 3 0] ->
  (exists m rs, meanings no_vars (clean tail) = Some (m, rs) /\ forall v, m v = None)
  /\ abandoned no_vars (clean tail) = length tail.
Proof.
  intros tail [-> | ->]; (split; [|reflexivity]); eexists _, _; (split; [reflexivity|]);
    intros v; do 4 (destruct v as [|v]; [reflexivity|]); reflexivity.
Qed.

(** * C57 self-assignment *)
(** Full statement (false): m = m and m = std::move(m) empty m (and abandon its T), whatever it holds; a
    self-referential init reads the destroyed value. *)
Theorem C57_maybe_self_refuted : forall V debug (x : V),
  (exists s, run V debug empty_state [SomeCtor 0 x; Assign 0 0; IsValid 0]
     = Ok (s, [ONone; ONone; OBool false]) /\ length (live s) = 1)
  /\ (exists s, run V debug empty_state [SomeCtor 0 x; AssignMove 0 0; IsValid 0]
     = Ok (s, [ONone; ONone; OBool false]) /\ length (live s) = 1)
  /\ run V debug empty_state [SomeCtor 0 x; InitFrom 0 0] = Fault UseAfterFree.
Proof.
  intros. split; [|split].
  - eexists; split; reflexivity.
  - eexists; split; reflexivity.
  - unfold run, step. cbn. unfold assert_. cbn. rewrite andb_false_r. reflexivity.
Qed.
Print Assumptions C57_maybe_self_refuted.

(** In every reachable state: self-assignment of any valid Maybe leaves it empty, without a fault. *)
Theorem C57_maybe_self_empties_refuted : forall V debug (p : list (op V)) m rs v x,
  Forall no_self p -> meanings no_vars p = Some (m, rs) -> m v = Some (Some x) ->
  exists s s', run V debug empty_state p = Ok (s, rs)
    /\ run V debug s [Get v; Assign v v; IsValid v] = Ok (s', [OVal x; ONone; OBool false]).
Proof.
  intros V debug p m rs v x Hf Hm Hv.
  destruct (run_ok V debug p _ _ _ _ _ (inv_init V) Hf Hm) as (s & l & H & Hi & _).
  destruct (step_ok V debug s m _ (Get v) m (OVal x) Hi Logic.I) as (s1 & l1 & E1 & _).
  { cbn. now rewrite Hv. }
  assert (Hs : s1 = s).
  { cbn [step] in E1. destruct (get_cell s v); cbn [bind] in E1; try discriminate.
    destruct (assert_ debug (initialized a)); cbn [bind] in E1; try discriminate.
    destruct (read_T s v); cbn [bind] in E1; congruence. }
  subst s1. exists s. destruct (agrees_cell V s m v _ (i_agree V _ _ _ Hi v) Hv) as [c Ev].
  eexists. split; [exact H|]. cbn [run]. rewrite E1. cbn [bind].
  cbn [step]. unfold set_init, copy_from, get_cell. rewrite Ev. cbn [bind].
  rewrite vars_set, Nat.eqb_refl. cbn [bind initialized].
  rewrite vars_set, Nat.eqb_refl. cbn [bind initialized]. reflexivity.
Qed.
Print Assumptions C57_maybe_self_empties_refuted.

(** The complete behaviour of programs with self-assignments: every one of them empties its variable, faults nowhere, and
    leaves exactly one T behind if there was one; everything else is as for optional values.  In particular the
    self-assignment of an empty Maybe is harmless. *)
Theorem C57_maybe_self_partial : forall V debug (p : list (op V)) m rs,
  actuals no_vars p = Some (m, rs) ->
  exists s, run V debug empty_state p = Ok (s, rs) /\ ((forall v, m v = None) -> length (live s) = left_behind no_vars p).
Proof.
  intros V debug p m rs Hm.
  destruct (actuals_ok V debug p _ _ _ _ _ (inv_init V) Hm) as (s & l & H & Hi & Hl).
  exists s. split; [exact H|]. intros Hend. rewrite app_nil_r in Hi. rewrite (inv_final V _ _ _ Hi Hend). exact Hl.
Qed.
Print Assumptions C57_maybe_self_partial.

Definition selfish : list (op nat) :=
  [New 0; Assign 0 0; AssignMove 0 0; IsValid 0; SomeCtor 1 7; CopyCtor 2 1; AssignMove 1 1; IsValid 1; Get 2; Assign 1 2;
   Get 1; Assign 2 2; IsValid 2; Destroy 0; Destroy 1; Destroy 2].
Example C57_nonvacuous :
  (exists m, actuals no_vars selfish = Some (m, [ONone; ONone; ONone; OBool false; ONone; ONone; ONone; OBool false; OVal 7;
     ONone; OVal 7; ONone; OBool false; ONone; ONone; ONone]) /\ forall v, m v = None) /\
  left_behind no_vars selfish = 2.
Proof.
  split; [|reflexivity]. eexists. split; [reflexivity|].
  intros v. do 3 (destruct v as [|v]; [reflexivity|]). reflexivity.
Qed.
