(** Models of amtl/am-threadlocal.h (POSIX branch; the Windows branch has the same shape) and amtl/am-mutex.h.

    Threads run programs; a scheduler picks which thread takes the next atomic step (sequential consistency).
    Every read of allocated_, compare-and-swap, pthread call and field write is one step. *)
From Verif Require Import Base.

(** Threads that use am-threadlocal.h:64-165 or am-mutex.h:39-64. *)
Definition tid := nat.
Definition at_ {B} (f : tid -> B) (t : tid) (x : B) : tid -> B := fun u => if u =? t then x else f u.

(** * ThreadLocal<T> (am-threadlocal.h:64-165, not KE_SINGLE_THREADED) *)
Section TLS.
Variable V : Type.
Variable zero : V.                   (* T(), which is also what a null slot reads as *)
Variable create_ok : nat -> bool.    (* does the n-th pthread_key_create succeed? *)
Variable set_ok : nat -> bool.       (* does the n-th pthread_setspecific succeed? *)

Inductive top := Set_ (x : V) | Get | Alloc.
Inductive tret := RUnit | RVal (x : V) | RBool (b : bool).
Inductive tpc :=
| Idle
| SetCas (x : V)        (* read allocated_ as 0, about to compare-and-swap *)
| SetCreate (x : V)     (* won the compare-and-swap, about to call pthread_key_create *)
| SetStore (x : V)      (* about to call pthread_setspecific *)
| GetLoad               (* read allocated_ as 1, about to call pthread_getspecific *)
| AllocCreate.

Record tls := Tls {
  allocated : bool;
  key : option nat;                          (* key_: None while indeterminate *)
  slots : tid -> option V;                   (* the key's per-thread value *)
  creates : nat;                             (* pthread_key_create calls so far *)
  sets : nat;                                (* pthread_setspecific calls so far *)
  pcs : tid -> tpc;
  progs : tid -> list top;
  results : tid -> list tret                 (* what each thread's calls returned, in order *)
}.
Definition tinit (p : tid -> list top) : tls :=
  Tls false None (fun _ => None) 0 0 (fun _ => Idle) p (fun _ => []).

Definition goto (s : tls) (t : tid) (pc : tpc) : tls :=
  Tls (allocated s) (key s) (slots s) (creates s) (sets s) (at_ (pcs s) t pc) (progs s) (results s).
Definition alloc_flag (s : tls) : tls :=
  Tls true (key s) (slots s) (creates s) (sets s) (pcs s) (progs s) (results s).
(** The current call of thread t returns r. *)
(** The returns of am-threadlocal.h:102-113, 144-148. *)
Definition return_ (s : tls) (t : tid) (r : tret) : tls :=
  Tls (allocated s) (key s) (slots s) (creates s) (sets s) (at_ (pcs s) t Idle)
    (at_ (progs s) t (tl (progs s t))) (at_ (results s) t (results s t ++ [r])).
(** pthread_key_create(&key_, nullptr): writes key_ only on success. *)
Definition key_create (s : tls) : tls * bool :=
  let n := creates s in
  let ok := create_ok n in
  (Tls (allocated s) (if ok then Some n else key s) (slots s) (S n) (sets s) (pcs s) (progs s) (results s), ok).
(** pthread_getspecific(key_) / pthread_setspecific(key_, x): undefined on a key that was never created; the
    result of pthread_setspecific is not looked at (am-threadlocal.h:154-156). *)
Definition getspecific (s : tls) (t : tid) : outcome V :=
  match key s with
  | None => Fault Uninit
  | Some _ => Ok (match slots s t with Some x => x | None => zero end)
  end.
Definition setspecific (s : tls) (t : tid) (x : V) : outcome tls :=
  match key s with
  | None => Fault Uninit
  | Some _ =>
      Ok (Tls (allocated s) (key s) (if set_ok (sets s) then at_ (slots s) t (Some x) else slots s)
            (creates s) (S (sets s)) (pcs s) (progs s) (results s))
  end.

(** One step of thread t. *)
(** am-threadlocal.h:102-156. *)
Definition tstep (s : tls) (t : tid) : outcome tls :=
  match pcs s t with
  | Idle =>
    match progs s t with
    | [] => Ok s
    | Get :: _ =>                                            (* 102-106 get() *)
        if allocated s then Ok (goto s t GetLoad) else Ok (return_ s t (RVal zero))
    | Set_ x :: _ =>                                         (* 107-113 set(): !allocated_ && ... *)
        if allocated s then Ok (goto s t (SetStore x)) else Ok (goto s t (SetCas x))
    | Alloc :: _ =>                                          (* 144-148 allocate() *)
        if allocated s then Ok (return_ s t (RBool true)) else Ok (goto (alloc_flag s) t AllocCreate)
    end
  | SetCas x =>                                              (* allocate() inside set() *)
      if allocated s then Ok (goto s t (SetStore x)) else Ok (goto (alloc_flag s) t (SetCreate x))
  | SetCreate x =>
      let (s, ok) := key_create s in
      if ok then Ok (goto s t (SetStore x)) else Fault Abort (* 108-111 fprintf; abort() *)
  | SetStore x => do s <- setspecific s t x; Ok (return_ s t RUnit)
  | GetLoad => do x <- getspecific s t; Ok (return_ s t (RVal x))
  | AllocCreate => let (s, ok) := key_create s in Ok (return_ s t (RBool ok))
  end.
(** A schedule of calls of am-threadlocal.h:102-156. *)
Fixpoint trun (s : tls) (sched : list tid) : outcome tls :=
  match sched with [] => Ok s | t :: l => do s <- tstep s t; trun s l end.

(** 139-142 ~ThreadLocal: pthread_key_delete(key_) if allocated_. *)
Definition tdestroy (s : tls) : outcome unit :=
  if allocated s then match key s with Some _ => Ok tt | None => Fault Uninit end else Ok tt.
End TLS.
Arguments Set_ {V}. Arguments Get {V}. Arguments Alloc {V}. Arguments RUnit {V}. Arguments RVal {V}.
Arguments RBool {V}. Arguments Idle {V}. Arguments SetCas {V}. Arguments SetCreate {V}. Arguments SetStore {V}.
Arguments GetLoad {V}. Arguments AllocCreate {V}. Arguments Tls {V}. Arguments allocated {V}. Arguments key {V}.
Arguments slots {V}. Arguments creates {V}. Arguments sets {V}. Arguments pcs {V}. Arguments progs {V}.
Arguments results {V}. Arguments tinit {V}. Arguments goto {V}. Arguments alloc_flag {V}. Arguments return_ {V}.
Arguments key_create {V}. Arguments getspecific {V}. Arguments setspecific {V}. Arguments tstep {V}.
Arguments trun {V}. Arguments tdestroy {V}.

(** * Mutex (am-mutex.h:39-64) *)
Section Mutex.
Variable debug : bool.
Inductive mop :=
| Lock                  (* Mutex::lock() *)
| Unlock                (* Mutex::unlock() *)
| TryLock               (* try_lock(), inherited from std::mutex *)
| BaseLock              (* lock()/unlock() through a std::mutex reference, as std::condition_variable does with *)
| BaseUnlock            (* the std::unique_lock<std::mutex> it requires *)
| AssertOwns.           (* AssertCurrentThreadOwns() *)
Inductive mpc := MIdle | MLockSet (* std lock taken, owner_ not yet written *) | MUnlockRel (* owner_ cleared *).
Record mutex := Mutex {
  held : option tid;                (* which thread holds the std::mutex *)
  owner : option tid;               (* owner_ (debug only) *)
  mpcs : tid -> mpc;
  mprogs : tid -> list mop
}.
Definition minit (p : tid -> list mop) : mutex := Mutex None None (fun _ => MIdle) p.
Definition is (o : option tid) (t : tid) : bool := match o with Some u => u =? t | None => false end.
Definition mnext (s : mutex) (h o : option tid) (t : tid) (pc : mpc) : mutex :=
  Mutex h o (at_ (mpcs s) t pc) (at_ (mprogs s) t (tl (mprogs s t))).
Definition mgoto (s : mutex) (h o : option tid) (t : tid) (pc : mpc) : mutex :=
  Mutex h o (at_ (mpcs s) t pc) (mprogs s).

(** One step of thread t; a thread waiting for the lock does not move.  Locking a std::mutex one holds and
    unlocking one that one does not hold are undefined ([BadArg]). *)
(** am-mutex.h:44-58. *)
Definition mstep (s : mutex) (t : tid) : outcome mutex :=
  match mpcs s t with
  | MIdle =>
    match mprogs s t with
    | [] => Ok s
    | Lock :: _ =>                                               (* 46-49 *)
        if is (held s) t then Fault BadArg
        else match held s with
             | Some _ => Ok s
             | None => if debug then Ok (mgoto s (Some t) (owner s) t MLockSet)
                       else Ok (mnext s (Some t) (owner s) t MIdle)
             end
    | Unlock :: _ =>                                             (* 51-54 *)
        if debug then Ok (mgoto s (held s) None t MUnlockRel)
        else if is (held s) t then Ok (mnext s None (owner s) t MIdle) else Fault BadArg
    | TryLock :: _ =>                                            (* not overridden *)
        if is (held s) t then Fault BadArg
        else match held s with
             | Some _ => Ok (mnext s (held s) (owner s) t MIdle)
             | None => Ok (mnext s (Some t) (owner s) t MIdle)
             end
    | BaseLock :: _ =>
        if is (held s) t then Fault BadArg
        else match held s with Some _ => Ok s | None => Ok (mnext s (Some t) (owner s) t MIdle) end
    | BaseUnlock :: _ =>
        if is (held s) t then Ok (mnext s None (owner s) t MIdle) else Fault BadArg
    | AssertOwns :: _ =>                                         (* 44, 56-58 *)
        do _ <- assert_ debug (is (owner s) t); Ok (mnext s (held s) (owner s) t MIdle)
    end
  | MLockSet => Ok (mnext s (held s) (Some t) t MIdle)
  | MUnlockRel => if is (held s) t then Ok (mnext s None (owner s) t MIdle) else Fault BadArg
  end.
(** A schedule of calls of am-mutex.h:44-58. *)
Fixpoint mrun (s : mutex) (sched : list tid) : outcome mutex :=
  match sched with [] => Ok s | t :: l => do s <- mstep s t; mrun s l end.
End Mutex.
