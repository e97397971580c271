(** Use of a Mutex as a lock: regions between lock() and unlock(). *)
From Verif Require Import Base SyncModel.

(** A program that uses lock(), unlock() and AssertCurrentThreadOwns() in properly bracketed regions, asserting ownership only
    inside a region, and leaves no region open; [inside] says whether it starts in one. *)
Fixpoint bracketed (inside : bool) (ops : list mop) : bool :=
  match ops with
  | [] => negb inside
  | Lock :: r => negb inside && bracketed true r
  | Unlock :: r => inside && bracketed false r
  | AssertOwns :: r => inside && bracketed inside r
  | _ => false
  end.
Definition mop_eqb (a b : mop) : bool :=
  match a, b with Lock, Lock | Unlock, Unlock => true | _, _ => false end.
Definition calls (o : mop) (ops : list mop) : nat := length (filter (mop_eqb o) ops).
(** Thread [t], whose program was [prog], has returned from lock() and not yet returned from the matching unlock(). *)
Definition inside (prog : list mop) (s : mutex) (t : tid) : Prop :=
  exists done, prog = done ++ mprogs s t /\ calls Lock done = S (calls Unlock done).
Definition finished (s : mutex) : Prop := forall t, mprogs s t = [].
