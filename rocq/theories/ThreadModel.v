(** Model of amtl/am-thread.h: SetThreadName and NewThread, on Linux, macOS and Windows.  Values of arguments are numbers; shared
    variables and C strings are numbered and may change at any time.  std::bind, std::thread and std::string as the standard
    says: arguments and name are copied (or moved) when NewThread is called, a std::reference_wrapper is read when the callable is
    invoked, a nested bind expression is evaluated then.  Only the order of events is modelled, not memory orders: that a
    std::thread starts after its constructor has begun is the standard's guarantee. *)
From Verif Require Import Base.
Local Open Scope nat_scope.

Notation chars := (list N).
(** The variables that arguments of am-thread.h:102 refer to. *)
Definition memory := nat -> N.

(** Windows: whether LoadLibraryA("kernel32.dll") succeeds, whether it exports SetThreadDescription (it does since Windows 10,
    1607), and wstring_convert::from_bytes, None if it throws std::range_error. *)
(** What am-thread.h:57-67 asks the system. *)
Record windows := Windows { found : bool; has_fn : bool; from_bytes : chars -> option chars }.
(** The branches of am-thread.h:77-85, 89-96. *)
Inductive platform := OnLinux | OnMac | OnWindows (o : windows).

(** An argument as it is written in the call of NewThread: an rvalue, a variable, std::ref of a variable, or a bind expression. *)
(** am-thread.h:102 Args&&. *)
Inductive arg := AVal (v : N) | AVar (l : nat) | ARef (l : nat) | ABind (object : N).
(** What std::bind stores. *)
(** am-thread.h:104. *)
Inductive stored := SVal (v : N) | SRef (l : nat) | SBind (object : N).
Inductive tpc :=
| Starting (name : chars) (f : nat) (args : list stored)   (* the lambda, am-thread.h:105-108 *)
| Calling (f : nat) (args : list stored)                   (* am-thread.h:107 *)
| Other.                                                   (* finished, or a thread the model does not look into *)
(** A thread, as am-thread.h:76-97 names it and 109 starts it. *)
Record thread := Thr { tname : chars; pc : tpc }.
(** [k32]: references this process holds to kernel32.dll through LoadLibrary. *)
(** What am-thread.h:56-110 reads and changes. *)
Record world := World { mem : memory; cstr : nat -> chars; thr : list thread; k32 : nat }.
Definition with_thr (w : world) (l : list thread) : world := World (mem w) (cstr w) l (k32 w).
Definition with_k32 (w : world) (n : nat) : world := World (mem w) (cstr w) (thr w) n.
Definition with_mem (w : world) (m : memory) : world := World m (cstr w) (thr w) (k32 w).
(** The effect of the system calls at am-thread.h:68, 78, 80, 90. *)
Definition rename (l : list thread) (t : nat) (n : chars) : list thread :=
  match nth_error l t with Some (Thr _ p) => upd l t (Thr n p) | None => l end.

(** pthread_setname_np: longer names are refused (ERANGE, ENAMETOOLONG), and nothing changes; the result is not looked at. *)
Definition pthread_setname (limit : nat) (l : list thread) (t : nat) (n : chars) : list thread :=
  if length n <=? limit then rename l t n else l.
(** am-thread.h:56-71 impl::SetThreadName; the flag is whether an exception leaves the function.  That SetThreadDescription itself may fail is
    not modelled. *)
Definition win_set (o : windows) (w : world) (t : nat) (n : chars) : world * bool :=
  if negb (found o) then (w, false)
  else let w := with_k32 w (S (k32 w)) in
    if negb (has_fn o) then (w, false)
    else match from_bytes o n with
      | None => (w, true)
      | Some u => (with_k32 (with_thr w (rename (thr w) t u)) (pred (k32 w)), false)
      end.
(** am-thread.h:76-86 SetThreadName(name), called by thread [t]. *)
Definition set_own (p : platform) (w : world) (t : nat) (n : chars) : world * bool :=
  match p with
  | OnMac => (with_thr w (pthread_setname 63 (thr w) t n), false)
  | OnLinux => (with_thr w (pthread_setname 15 (thr w) t n), false)
  | OnWindows o => win_set o w t n
  end.
(** am-thread.h:88-97 SetThreadName(thread, name), for a thread that has not been joined. *)
Definition set_other (p : platform) (w : world) (t : nat) (n : chars) : world * bool :=
  match p with
  | OnMac => (w, false)
  | OnLinux => (with_thr w (pthread_setname 15 (thr w) t n), false)
  | OnWindows o => win_set o w t n
  end.

Section Run.
Variable p : platform.
(** What the callable does to the variables, None if it throws; the value of a nested bind expression. *)
Variable body : nat -> list N -> memory -> option memory.
Variable nested : N -> memory -> N.

(** std::bind: decay copies. *)
(** am-thread.h:104. *)
Definition store (m : memory) (a : arg) : stored :=
  match a with AVal v => SVal v | AVar l => SVal (m l) | ARef l => SRef l | ABind b => SBind b end.
(** operator() of a bind object. *)
(** am-thread.h:107. *)
Definition fetch (m : memory) (s : stored) : N :=
  match s with SVal v => v | SRef l => m l | SBind b => nested b m end.
(** A new thread's name: that of the creator on Linux, none elsewhere. *)
(** The name a thread has at am-thread.h:105, before it is set. *)
Definition inherited (creator : chars) : chars := match p with OnLinux => creator | _ => [] end.

(** Something happens: a variable or string changes; thread [c] calls NewThread (the name is None for a null pointer; [room]: the
    system can start another thread, otherwise std::system_error is thrown and everything is destroyed again); a thread takes a
    turn; SetThreadName is called. *)
(** Calls of am-thread.h:76-110, and the steps of the threads they start. *)
Inductive event :=
| EWrite (l : nat) (v : N)
| EChars (s : nat) (n : chars)
| ENew (c : nat) (name : option nat) (f : nat) (args : list arg) (room : bool)
| ETurn (t : nat)
| EOwn (t s : nat)
| EOther (t s : nat).
(** Observed: the callable [f] is invoked by thread [t], named [n], with arguments [vs]. *)
Inductive obs := Invoked (t f : nat) (vs : list N) (n : chars).

(** am-thread.h:101-110 *)
Definition new_thread (w : world) (c : nat) (name : option nat) (f : nat) (args : list arg) (room : bool) : outcome world :=
  let callback := map (store (mem w)) args in
  match name with
  | None => Fault NullDeref
  | Some s =>
      if room then
        match nth_error (thr w) c with
        | Some (Thr cn _) => Ok (with_thr w (thr w ++ [Thr (inherited cn) (Starting (cstr w s) f callback)]))
        | None => Fault BadArg
        end
      else Ok w
  end.
(** am-thread.h:105-108, one step at a time; an exception that leaves it calls std::terminate. *)
Definition turn (w : world) (t : nat) : outcome (world * list obs) :=
  match nth_error (thr w) t with
  | Some (Thr _ (Starting n f args)) =>
      let (w, thrown) := set_own p w t n in
      if thrown then Fault Abort
      else match nth_error (thr w) t with
        | Some (Thr cur _) => Ok (with_thr w (upd (thr w) t (Thr cur (Calling f args))), [])
        | None => Fault BadArg
        end
  | Some (Thr cur (Calling f args)) =>
      let vs := map (fetch (mem w)) args in
      match body f vs (mem w) with
      | None => Fault Abort
      | Some m => Ok (with_mem (with_thr w (upd (thr w) t (Thr cur Other))) m, [Invoked t f vs cur])
      end
  | _ => Ok (w, [])
  end.
Definition step (w : world) (e : event) : outcome (world * list obs) :=
  match e with
  | EWrite l v => Ok (with_mem w (fun k => if k =? l then v else mem w k), [])
  | EChars s n => Ok (World (mem w) (fun k => if k =? s then n else cstr w k) (thr w) (k32 w), [])
  | ENew c name f args room => do w <- new_thread w c name f args room; Ok (w, [])
  | ETurn t => turn w t
  | EOwn t s => Ok (fst (set_own p w t (cstr w s)), [])
  | EOther t s => Ok (fst (set_other p w t (cstr w s)), [])
  end.
Fixpoint exec (w : world) (es : list event) : outcome (world * list obs) :=
  match es with
  | [] => Ok (w, [])
  | e :: es => do (w1, o1) <- step w e; do (w2, o2) <- exec w1 es; Ok (w2, o1 ++ o2)
  end.
End Run.
