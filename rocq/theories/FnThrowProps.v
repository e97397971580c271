(** Property theorems C132: am-function.h with callables whose constructors may throw. *)
From Verif Require Import Base FnThrowModel FnThrowSpec FnThrowProofs.

(** Full statement (false): an assignment that throws leaves a Function that can still be ended.  After any program
    without an earlier bad assignment, every assignment in which the callable's constructor throws leaves the target
    such that ending it destroys again (or deletes again) a callable - when the target held a callable, or when a
    callable that is not a Function was assigned and fits the inline buffer. *)
Theorem C132_function_assign_refuted : forall V fits throws (p : list (op V)) m rs s o v,
  expects fits throws none 0 p = Some (m, rs) -> no_bad_assign fits throws none 0 p = true ->
  run V fits throws empty_state p = Ok (s, rs) ->
  target_of V o = Some v -> bad_assign fits throws m (attempts s) o = true ->
  (exists m' rs', expects fits throws m (attempts s) [o; Destroy v] = Some (m', rs')) ->
  exists s', step V fits throws s o = Ok (s', Threw)
    /\ step V fits throws s' (Destroy v) = Fault DoubleFree.
Proof.
  intros V fits throws p m rs s o v He Hn Hr Ht Hb (m' & rs' & Hx).
  destruct (run_ok V fits throws p empty_state none 0 m rs (inv_init V fits) Hn He) as (s1 & Hr1 & k1 & Hi).
  rewrite Hr in Hr1. injection Hr1 as <-.
  assert (k1 = attempts s) by (destruct Hi as [_ E]; congruence). subst k1.
  apply (bad_faults V fits throws s m (attempts s) o v Hi Hb); [|exact Ht].
  cbn in Hx. destruct (expect fits throws m (attempts s) o); congruence.
Qed.
Print Assumptions C132_function_assign_refuted.

(** The five shapes of it (values below 10 fit the inline buffer): replacing an inline callable by a copy, replacing
    a heap callable by a copy, by a move, by a callable, and giving an empty Function its first callable. *)
Definition small (x : nat) : bool := x <? 10.
Example C132_assign_cases :
  let bad := fun p k => run nat small (fun i => i =? k) empty_state p = Fault DoubleFree in
  bad [FromObj 0 1; FromObj 1 2; Assign 0 1; Destroy 0] 2
  /\ bad [FromObj 0 11; FromObj 1 12; Assign 0 1; Destroy 0] 2
  /\ bad [FromObj 0 11; FromObj 1 2; AssignMove 0 1; Destroy 0] 2
  /\ bad [FromObj 0 1; AssignObj 0 12; Destroy 0] 1
  /\ bad [New 0; AssignObj 0 2; Destroy 0] 0.
Proof. repeat split. Qed.

(** Everything else is safe: in every program without such an assignment, whatever constructions throw - in
    constructors of Functions of every kind, in the assignment of a Function to an empty one, in the assignment of a
    large callable to an empty one - each statement completes or throws as expected, calls reach the callable a
    value-semantics reading says, and no holder is destroyed twice, used after its end, or leaked. *)
Theorem C132_function_exceptions_partial : forall V fits throws (p : list (op V)) m rs,
  expects fits throws none 0 p = Some (m, rs) -> no_bad_assign fits throws none 0 p = true ->
  exists s, run V fits throws empty_state p = Ok (s, rs) /\ forall v, m v = Gone -> vars s v = None.
Proof.
  intros V fits throws p m rs He Hn.
  destruct (run_ok V fits throws p empty_state none 0 m rs (inv_init V fits) Hn He) as (s & H & k & HC & _).
  exists s. split; [exact H|]. intros v E. rewrite HC, E. reflexivity.
Qed.
Print Assumptions C132_function_exceptions_partial.

(** A move of a callable that does not fit the inline buffer never throws, so it is always safe. *)
Theorem C132_heap_moves_never_throw : forall V fits throws (m : env V) k v w c,
  m w = Holds c -> fits (fst c) = false -> v <> w ->
  bad_assign fits throws m k (AssignMove v w) = false
  /\ (m v <> Gone -> exists m', expect fits throws m k (AssignMove v w) = Some (m', 0, Done) /\ m' v = Holds c)
  /\ (m v = Gone -> exists m', expect fits throws m k (MoveCtor v w) = Some (m', 0, Done) /\ m' v = Holds c).
Proof.
  intros V fits throws m k v w c Hw Hf Hn. cbn -[Nat.eqb]. rewrite Hw, Hf, andb_false_r.
  rewrite (proj2 (Nat.eqb_neq v w) Hn). split; [reflexivity|]. unfold put. split.
  - intros Hv. destruct (m v); [congruence| |]; eexists; (split; [reflexivity|]);
      cbn -[Nat.eqb]; rewrite (proj2 (Nat.eqb_neq v w) Hn), Nat.eqb_refl; reflexivity.
  - intros ->. eexists. split; [reflexivity|]. cbn -[Nat.eqb].
    rewrite (proj2 (Nat.eqb_neq v w) Hn), Nat.eqb_refl. reflexivity.
Qed.
Print Assumptions C132_heap_moves_never_throw.

(** The hypotheses are met by a program in which five of the ten constructions throw. *)
Definition sample : list (op nat) :=
  [FromObj 0 1; FromObj 1 12; FromObj 2 3; CopyCtor 2 0; MoveCtor 2 0; Call 0; New 2; Assign 2 1; AsBool 2;
   AssignObj 2 13; AsBool 2; AssignMove 2 1; Call 2; AssignNull 2; AssignObj 2 4; Call 2; AssignObj 0 5;
   CopyCtor 3 2; MoveCtor 4 3; Call 4; AsBool 3; Destroy 4; Destroy 3; Destroy 2; Destroy 1; Destroy 0].
Definition sample_throws (k : nat) : bool := (2 <=? k) && (k <=? 6).
Example C132_nonvacuous :
  (exists m, expects small sample_throws none 0 sample
     = Some (m, [Done; Done; Threw; Threw; Threw; Called (1, true); Done; Threw; IsB false; Threw; IsB false; Done;
                 Called (12, false); Done; Done; Called (4, false); Done; Done; Done; Called (4, false); IsB false;
                 Done; Done; Done; Done; Done])
     /\ forall v, m v = Gone)
  /\ no_bad_assign small sample_throws none 0 sample = true.
Proof.
  split; [|reflexivity]. eexists. split; [reflexivity|].
  intros v. cbn. do 8 (destruct v as [|v]; [reflexivity|]). reflexivity.
Qed.
