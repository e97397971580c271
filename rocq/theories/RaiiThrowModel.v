(** Model of amtl/am-raii.h for types T and callbacks whose copies, moves, assignments and calls may throw. *)
From Verif Require Import Base RaiiModel.

Section Throw.
Variable V : Type.
(** Which of the copies, assignments and moves of T and of callbacks throw, counted from the start of the program
    (am-raii.h:43, 45, 48, 81, 122-124 make them); not code of /repo. *)
Variable throws : nat -> bool.
(** What an assignment that throws leaves in its target: [torn old new] (the target of am-raii.h:45, 48, 123). *)
Variable torn : V -> V -> V.

(** Client programs over am-raii.h:37-125; not code of /repo.  A scope runs its body to the end or until an exception
    leaves it; a guard has a name, and PCancel k calls cancel() on the k-th guard of the enclosing scopes, innermost first.
    A callback sees the guards outside its own. *)
Inductive prog :=
| PSkip
| PSeq (a b : prog)
| PThrow                                      (* throw *)
| PTry (a handler : prog)                     (* try { a } catch (...) { handler } *)
| PWrite (l : loc) (x : V)
| PSave (l : loc) (x : V) (body : prog)       (* { SaveAndSet<T> s(&l, x); body } *)
| PGuard (i : nat) (callback body : prog)     (* { auto g = MakeScopeGuard(callback); body } *)
| PCancel (k : nat).

(** What a client sees of its guards: made, callback called by the destructor, armed guard cancelled (am-raii.h:80-98). *)
Inductive gevent := Made (i : nat) | Ran (i : nat) | Cancelled (i : nat).
(** Memory, the number of copies made so far, the live guards (name, cancelled_: am-raii.h:108-109), and the events. *)
Record tstate := TState { mem : memory V; clock : nat; live : list (nat * bool); events : list gevent }.
(** How a piece of a program ends: normally, by an exception, or std::terminate() (an exception that leaves a destructor or
    a noexcept constructor, am-raii.h:47, 80, 91). *)
Inductive ending := Done (s : tstate) | Thrown (s : tstate) | Terminated.

(** The bookkeeping of the events: one more copy; an event (am-raii.h:80-98). *)
Definition tick (s : tstate) : tstate := TState (mem s) (S (clock s)) (live s) (events s).
(** am-raii.h:80-98: a client sees an event. *)
Definition note (s : tstate) (e : gevent) : tstate := TState (mem s) (clock s) (live s) (events s ++ [e]).
(** The live guards of the program change (am-raii.h:108-109). *)
Definition with_live (s : tstate) (g : list (nat * bool)) : tstate := TState (mem s) (clock s) g (events s).
(** Memory changes (am-raii.h:45, 48, 123). *)
Definition with_mem (s : tstate) (m : memory V) : tstate := TState m (clock s) (live s) (events s).
(** One assignment of T (am-raii.h:45, 48, 123): the state afterwards, and whether it threw. *)
Definition assign (s : tstate) (l : loc) (x : V) : tstate * bool :=
  if throws (clock s) then (tick (with_mem s (poke (mem s) l (torn (mem s l) x))), true)
  else (tick (with_mem s (poke (mem s) l x)), false).
(** cancel() of the k-th live guard (am-raii.h:96-98). *)
Fixpoint cancel (k : nat) (g : list (nat * bool)) : option (nat * bool * list (nat * bool)) :=
  match g, k with
  | [], _ => None
  | (i, c) :: g, O => Some (i, c, (i, true) :: g)
  | p :: g, S k => match cancel k g with Some (i, c, g) => Some (i, c, p :: g) | None => None end
  end.

(** ~SaveAndSet, an implicit noexcept (am-raii.h:47-49), after a body that ended as [e]. *)
Definition restore (l : loc) (old : V) (e : ending) : ending :=
  match e with
  | Done s => let (s, th) := assign s l old in if th then Terminated else Done s
  | Thrown s => let (s, th) := assign s l old in if th then Terminated else Thrown s
  | Terminated => Terminated
  end.
(** ~ScopeGuard, noexcept too (am-raii.h:91-94), after a body that ended as [e]; [run] is the callback. *)
Definition end_guard (run : tstate -> ending) (e : ending) : ending :=
  let finish s :=
    match live s with
    | [] => Terminated                                       (* cannot happen: the guard is live *)
    | (i, c) :: g =>
        if c then Done (with_live s g)
        else match run (note (with_live s g) (Ran i)) with Done s => Done s | _ => Terminated end
    end in
  match e with
  | Done s => finish s
  | Thrown s => match finish s with Done s => Thrown s | e => e end
  | Terminated => Terminated
  end.

(** Running a program (am-raii.h:37-116 at PSave, PGuard and PCancel). *)
Fixpoint exec (p : prog) (s : tstate) : ending :=
  match p with
  | PSkip => Done s
  | PSeq a b => match exec a s with Done s => exec b s | e => e end
  | PThrow => Thrown s
  | PTry a h => match exec a s with Thrown s => exec h s | e => e end
  | PWrite l x => let (s, th) := assign s l x in if th then Thrown s else Done s
  | PSave l x body =>                                         (* am-raii.h:41-46 *)
      let old := mem s l in
      if throws (clock s) then Thrown (tick s)                (* copying *location to old_ throws *)
      else let (s, th) := assign (tick s) l x in
           if th then Thrown s                                (* no object yet: no destructor *)
           else restore l old (exec body s)
  | PGuard i cb body =>                                       (* am-raii.h:80-83, noexcept; 112-116 *)
      if throws (clock s) then Terminated
      else end_guard (exec cb) (exec body (note (with_live (tick s) ((i, false) :: live s)) (Made i)))
  | PCancel k =>
      match cancel k (live s) with
      | None => Done s                                        (* no such guard: not a program *)
      | Some (i, c, g) => Done (if c then with_live s g else note (with_live s g) (Cancelled i))
      end
  end.

(** ReturnAndVoid(t) (am-raii.h:118-125): the value, or None when an exception leaves it.  [elided]: the compiler constructs
    saved in place of the return value; otherwise returning moves it once more. *)
Definition return_and_void_throws (elided : bool) (dflt : V) (s : tstate) (l : loc) : option V * tstate :=
  let saved := mem s l in
  if throws (clock s) then (None, tick s)                     (* T saved = t *)
  else if throws (S (clock s)) then (None, tick (tick s))     (* T() *)
  else let (s, th) := assign (tick (tick s)) l dflt in        (* t = T() *)
       if th then (None, s)
       else if elided then (Some saved, s)
       else if throws (clock s) then (None, tick s) else (Some saved, tick s).
End Throw.
Arguments PSkip {V}. Arguments PSeq {V}. Arguments PThrow {V}. Arguments PTry {V}. Arguments PWrite {V}.
Arguments PSave {V}. Arguments PGuard {V}. Arguments PCancel {V}. Arguments TState {V}. Arguments mem {V}.
Arguments clock {V}. Arguments live {V}. Arguments events {V}. Arguments Done {V}. Arguments Thrown {V}. Arguments Terminated {V}.
Arguments tick {V}. Arguments note {V}. Arguments with_live {V}. Arguments with_mem {V}. Arguments assign {V}.
Arguments restore {V}. Arguments end_guard {V}. Arguments exec {V}. Arguments return_and_void_throws {V}.
