(** Specification of progress for AtomicRef: schedulers, and what a suspended thread is. *)
From Verif Require Import Base AtomicRefModel AtomicRefSpec.
Local Open Scope nat_scope.

Section Sched.
Variable vt : variant.
Variable debug : bool.
(** The scheduler gives thread [t] a turn: one atomic step of the operation in progress; an idle thread does nothing. *)
Definition turn (s : state) (t : nat) : outcome state :=
  match nth_error (threads s) t with
  | Some th => match tpc th with Idle => Ok s | _ => do (s', _) <- step vt debug s (ECont t); Ok s' end
  | None => Ok s
  end.
(** The state after the first [n] turns of the infinite schedule [sched]. *)
Fixpoint turns (s : state) (sched : nat -> nat) (n : nat) : outcome state :=
  match n with O => Ok s | S m => do s' <- turns s sched m; turn s' (sched m) end.
End Sched.
(** Every thread gets turns again and again. *)
Definition fair (threads_no : nat) (sched : nat -> nat) : Prop := forall t i, t < threads_no -> exists j, i <= j /\ sched j = t.

(** The operation on cell [c] has already left the critical section: only the Release of the old value is left. *)
Definition past_section (p : pc) (c : nat) : Prop :=
  match p with RelSub _ (Some (d, _)) | RelAssert _ (Some (d, _)) | RelDel _ (Some (d, _)) => d = c | _ => False end.
