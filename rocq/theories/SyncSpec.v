(** Specification of a thread-local variable: what one thread's own calls return, whatever others do. *)
From Verif Require Import Base SyncModel.

(** [cur] is the value this thread last set (the zero value if none). *)
Fixpoint own_view {V} (cur : V) (ops : list (top V)) : list (tret V) :=
  match ops with
  | [] => []
  | Set_ x :: r => RUnit :: own_view x r
  | Get :: r => RVal cur :: own_view cur r
  | Alloc :: r => RBool true :: own_view cur r
  end.

(** Storage has been allocated: some call of allocate() or set() completed pthread_key_create successfully. *)
Definition ready {V} (s : tls V) : Prop := allocated s = true /\ key s <> None.

(** A schedule in which a thread that has claimed the allocation (allocated_ is set) is not interrupted before
    pthread_key_create returns. *)
Definition allocating {V} (s : tls V) (u : tid) : Prop := match pcs s u with SetCreate _ | AllocCreate => True | _ => False end.
Fixpoint undisturbed {V} (zero : V) create_ok set_ok (s : tls V) (sched : list tid) : Prop :=
  match sched with
  | [] => True
  | t :: l => (forall u, allocating s u -> u = t) /\
              (forall s', tstep zero create_ok set_ok s t = Ok s' -> undisturbed zero create_ok set_ok s' l)
  end.

(** A locking discipline for Mutex: a thread's program, given whether it starts holding the lock, only uses
    lock() when it does not hold it and unlock() when it does; assertions may appear anywhere. *)
Fixpoint disciplined (holds : bool) (ops : list mop) : bool :=
  match ops with
  | [] => true
  | Lock :: r => negb holds && disciplined true r
  | Unlock :: r => holds && disciplined false r
  | AssertOwns :: r => disciplined holds r
  | _ :: r => false
  end.
